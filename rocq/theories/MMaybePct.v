(** * Model of src/parser/str/maybe_pct_encoded.rs.

    [debug] tells whether [debug_assert!] is compiled in.  The bytes kept in the decoder's buffers are
    ASCII, so they are also read as characters. *)
From Verif Require Import Base Chars Utf8 MValidate MTrusted MFormat MSearch MPct MEncode.

(** maybe_pct_encoded.rs:13-22 [PctEncodedFragments] *)
Inductive Frag := NoPctStr (s : str) | FStrayPercent | FChar (s : str) (c : N) | InvalidUtf8PctTriplets (s : str).

(** core: the error of [str::from_utf8]: [valid_up_to] and [error_len] ([None] inside: the input ends
    too early); [None] when the bytes are valid. *)
Definition utf8_step (b : list N) : nat + option nat :=
  match b with
  | [] => inl 0%nat
  | a :: r =>
      if a <? 128 then inl 1%nat
      else if between 194 223 a then
        match r with
        | [] => inr None
        | x :: _ => if between 128 191 x then inl 2%nat else inr (Some 1%nat)
        end
      else if between 224 239 a then
        match r with
        | [] => inr None
        | x :: r1 =>
            if ((a =? 224) && between 160 191 x) || (between 225 236 a && between 128 191 x)
               || ((a =? 237) && between 128 159 x) || (between 238 239 a && between 128 191 x)
            then match r1 with
                 | [] => inr None
                 | y :: _ => if between 128 191 y then inl 3%nat else inr (Some 2%nat)
                 end
            else inr (Some 1%nat)
        end
      else if between 240 244 a then
        match r with
        | [] => inr None
        | x :: r1 =>
            if ((a =? 240) && between 144 191 x) || (between 241 243 a && between 128 191 x)
               || ((a =? 244) && between 128 143 x)
            then match r1 with
                 | [] => inr None
                 | y :: r2 =>
                     if between 128 191 y then
                       match r2 with
                       | [] => inr None
                       | z :: _ => if between 128 191 z then inl 4%nat else inr (Some 3%nat)
                       end
                     else inr (Some 2%nat)
                 end
            else inr (Some 1%nat)
        end
      else inr (Some 1%nat)
  end.
Fixpoint utf8_error_loop (fuel : nat) (pos : nat) (b : list N) : option (nat * option nat) :=
  match fuel with
  | O => None
  | S fuel =>
      match b with
      | [] => None
      | _ =>
          match utf8_step b with
          | inl n => utf8_error_loop fuel (pos + n) (skipn n b)
          | inr e => Some (pos, e)
          end
      end
  end.
Definition utf8_error (b : list N) : option (nat * option nat) := utf8_error_loop (1 + length b) 0 b.

(** maybe_pct_encoded.rs:203-215 [DecoderBuffer]: the available parts of the two arrays;
    [len_encoded] is the length of the first. *)
Record DecoderBuffer := mkDB { db_encoded : list N; db_decoded : list N }.
Definition db_empty := mkDB [] [].
(** maybe_pct_encoded.rs:219-233 [write_and_pop]: the bytes put into [dest] and the new buffer. *)
Definition write_and_pop (db : DecoderBuffer) (remove_len : nat) : may (list N * DecoderBuffer) :=
  do new_len <- sub_p (length (db_encoded db)) remove_len ;
  let dest := firstn remove_len (db_encoded db) in
  if Nat.eqb new_len 0 then Ok (dest, db_empty)
  else Ok (dest, mkDB (skipn remove_len (db_encoded db)) (skipn (remove_len / 3) (db_decoded db))).
(** maybe_pct_encoded.rs:236-255 [push_single_encoded_byte]; a full buffer panics by the
    [debug_assert] or by the array access.  The second [debug_assert] is a panic in debug builds. *)
Definition push_single (debug : bool) (db : DecoderBuffer) (byte : N) : may DecoderBuffer :=
  if Nat.leb 12 (length (db_encoded db)) then Panic else
  let enc := db_encoded db ++ [byte] in
  if Nat.eqb (Nat.modulo (length enc) 3) 0 then
    do upper <- get_at (db_encoded db) (length (db_encoded db) - 1) ;
    if debug && negb (is_hexdigit upper && is_hexdigit byte) then Panic
    else do d <- hexdigits_to_byte upper byte ; Ok (mkDB enc (db_decoded db ++ [d]))
  else Ok (mkDB enc (db_decoded db)).
(** maybe_pct_encoded.rs:189-199 [PushResult], with the bytes written to the destination buffer. *)
Inductive PushResult := NeedMoreBytes | Decoded (w : list N) (c : N) | Undecodable (w : list N).
(** maybe_pct_encoded.rs:266-349 [push_encoded]: the loop over [chars].  [consumed]: the bytes of
    [s] before the current character; [inc]: [len_triplet_incomplete]. *)
Fixpoint push_loop (debug : bool) (db : DecoderBuffer) (inc consumed : nat) (s : str)
  : may (nat * PushResult * DecoderBuffer) :=
  match s with
  | [] => Ok (consumed, NeedMoreBytes, db)
  | c :: r =>
      let after := (consumed + clen c)%nat in
      let undecodable :=
        do (w, db) <- write_and_pop db (length (db_encoded db)) ;
        do n <- sub_p after 1 ;
        Ok (n, Undecodable w, db) in
      if Nat.eqb inc 0 then
        if negb (c =? PCT) then undecodable
        else do db <- push_single debug db PCT ; push_loop debug db 1 after r
      else if negb (is_hexdigit c) then undecodable
      else
        do db <- push_single debug db c ;
        if Nat.eqb inc 1 then push_loop debug db 2 after r
        else
          match utf8_error (db_decoded db) with
          | None =>
              match from_utf8 (db_decoded db) with
              | Some (ch :: _) =>
                  do (w, db) <- write_and_pop db (length (db_encoded db)) ;
                  Ok (after, Decoded w ch, db)
              | _ => Panic
              end
          | Some (valid_up_to, error_len) =>
              if negb (Nat.eqb valid_up_to 0) then Panic
              else match error_len with
                   | None => push_loop debug db 0 after r
                   | Some skip =>
                       if Nat.eqb skip 0 then Panic
                       else do (w, db) <- write_and_pop db (skip * 3) ; Ok (after, Undecodable w, db)
                   end
          end
  end.
Definition push_encoded (debug : bool) (db : DecoderBuffer) (s : str) : may (nat * PushResult * DecoderBuffer) :=
  push_loop debug db (Nat.modulo (length (db_encoded db)) 3) 0 s.
(** maybe_pct_encoded.rs:353-362 [flush] *)
Definition flush (db : DecoderBuffer) : may (option (list N * DecoderBuffer)) :=
  if is_empty (db_encoded db) then Ok None
  else do r <- write_and_pop db (length (db_encoded db)) ; Ok (Some r).

Section Process.
(** The output function: it writes to the backend and goes on with a new state or breaks. *)
Context {St : Type}.
Variable debug : bool.
Variable f : St -> Frag -> W (St + unit).
(** [ControlFlow]: [inl] continues with the state, [inr] breaks. *)
Definition andthen {A} (x : W (A + unit)) (k : A -> W (A + unit)) : W (A + unit) :=
  wdo r <- x ; match r with inl a => k a | inr u => wret (inr u) end.
(** maybe_pct_encoded.rs:104-133 [output_as_undecodable] *)
Definition output_as_undecodable (st : St) (w : list N) : W (St + unit) :=
  let len_incomplete := Nat.modulo (length w) 3 in
  let len_complete := (length w - len_incomplete)%nat in
  andthen (f st (InvalidUtf8PctTriplets (firstn len_complete w))) (fun st =>
  if Nat.ltb 0 len_incomplete then
    andthen (f st FStrayPercent) (fun st =>
    if Nat.ltb 1 len_incomplete then
      if debug && negb (Nat.eqb len_incomplete 2) then wpanic
      else f st (NoPctStr (skipn (len_complete + 1) w))
    else wret (inl st))
  else wret (inl st)).
(** maybe_pct_encoded.rs:140-184 [DecomposeWriter::write_str]: the loop; [fuel] bounds the number of
    iterations. *)
Fixpoint decompose_loop (fuel : nat) (st : St) (db : DecoderBuffer) (rest : str) : W (St * DecoderBuffer + unit) :=
  match fuel with
  | O => wpanic
  | S fuel =>
      if is_empty rest then wret (inl (st, db)) else
      wdo (len_consumed, result, db) <- lift (push_encoded debug db rest) ;
      if Nat.eqb len_consumed 0 then
        wdo fl <- lift (flush db) ;
        wdo r <- match fl with
                 | None => wret (inl (st, db, rest))
                 | Some (w, db) =>
                     wdo r <- output_as_undecodable st w ;
                     match r with
                     | inl st => wdo rest <- lift (str_from rest (length w)) ; wret (inl (st, db, rest))
                     | inr u => wret (inr u)
                     end
                 end ;
        match r with
        | inr u => wret (inr u)
        | inl (st, db, rest) =>
            let '(plain_prefix, suffix) :=
              match find_split rest PCT with Some p => p | None => (rest, []) end in
            if debug && is_empty plain_prefix then wpanic
            else
              wdo r <- f st (NoPctStr plain_prefix) ;
              match r with
              | inr u => wret (inr u)
              | inl st => decompose_loop fuel st db suffix
              end
        end
      else
        wdo r <- match result with
                 | Decoded w c => f st (FChar w c)
                 | Undecodable w => output_as_undecodable st w
                 | NeedMoreBytes => wret (inl st)
                 end ;
        match r with
        | inr u => wret (inr u)
        | inl st => wdo rest <- lift (str_from rest len_consumed) ; decompose_loop fuel st db rest
        end
  end.
Definition decompose_write_str (st : St) (db : DecoderBuffer) (s : str) : W (St * DecoderBuffer + unit) :=
  decompose_loop (2 * (1 + length s)) st db s.
(** [write!(writer, "{v}")]: the chunks of [v] one by one.  The [Display] of [v] is supposed to return
    the error of a failed [write_str] at once. *)
Fixpoint decompose_chunks (st : St) (db : DecoderBuffer) (chunks : list str) : W (St * DecoderBuffer + unit) :=
  match chunks with
  | [] => wret (inl (st, db))
  | s :: r =>
      wdo x <- decompose_write_str st db s ;
      match x with
      | inr u => wret (inr u)
      | inl (st, db) => decompose_chunks st db r
      end
  end.
(** maybe_pct_encoded.rs:25-75 [process_percent_encoded_best_effort] *)
Definition process_percent_encoded_best_effort (st : St) (v : W unit) : W unit :=
  wdo x <- decompose_chunks st db_empty (fst v) ;
  match x with
  | inr _ => wret tt
  | inl (st, db) =>
      match snd v with
      | Fail => wfail
      | Pan => wpanic
      | Ret _ =>
          wdo fl <- lift (flush db) ;
          match fl with
          | None => wret tt
          | Some (w, _) =>
              let len_suffix := Nat.modulo (length w) 3 in
              let triplets_end := (length w - len_suffix)%nat in
              wdo r <- andthen (f st (InvalidUtf8PctTriplets (firstn triplets_end w))) (fun st =>
                       andthen (if Nat.ltb 0 len_suffix then f st FStrayPercent else wret (inl st)) (fun st =>
                       if Nat.ltb 1 len_suffix then f st (NoPctStr (skipn (triplets_end + 1) w)) else wret (inl st))) ;
              wret tt
          end
      end
  end.
End Process.
