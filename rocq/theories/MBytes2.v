(** * Byte-level model of percent-decoding (src/percent_encode/decode.rs), of the IRI to URI mapping
    (src/convert.rs) and of URI templates (src/template), with either search configuration.

    As in MOffset.v and MBytes.v, positions count bytes of UTF-8, slicing inside a character panics, a look-up
    outside of a table of 128 entries panics, and the searches use the memchr crate ([Some m]) or not ([None]).
    Functions of MTemplate.v, MExpand.v and MMaybePct.v that search or cut nothing are used as they are; the
    bytes that the percent-decoder keeps in its buffers are ASCII and also read as characters, as there. *)
From Verif Require Import Base Chars Utf8 MValidate MTrusted MFormat MSearch MPct MEncode MTemplate MMaybePct MExpand MOffset MBytes.

(** A search that panics makes the caller panic: [tlift], [lift]. *)
(** core [s.split_at(s.bytes().position(..).unwrap_or(s.len()))] *)
Definition b_split_pos (p : N -> bool) (s : str) : may (str * str) :=
  str_split_at s (match position p (utf8s s) with Some n => n | None => blen s end).
(** convert.rs:113-151 [write_percent_encoded] *)
Fixpoint b_wpe_loop (fuel : nat) (s : str) : W unit :=
  match fuel with
  | O => wpanic
  | S fuel =>
      if is_empty s then wret tt else
      wdo (ascii, rest) <- lift (b_split_pos (fun b => negb (is_ascii b)) s) ;
      wdo s <- (if is_empty ascii then wret s else write ascii >> wret rest) ;
      if is_empty s then wret tt else
      wdo (nonasciis, rest) <- lift (b_split_pos is_ascii s) ;
      if is_empty nonasciis then wpanic else
      percent_encode_bytes (NUM_BYTES_AT_ONCE * 3) nonasciis >> b_wpe_loop fuel rest
  end.
(** convert.rs:64-73 [<MappedToUri as Display>::fmt]; [fuel] bounds the number of iterations. *)
Definition b_MappedToUri (s : str) : W unit := b_wpe_loop (1 + length s) s.

(** template/parser/validate.rs:14-22; [chars().position(..)], the table has 128 entries. *)
Fixpoint b_literal_pos (s : str) (n : nat) : may (option nat) :=
  match s with
  | [] => Ok None
  | c :: r =>
      if negb (is_ascii c) then Ok (Some n)
      else do x <- look is_ascii_literal_char c ; if negb x then Ok (Some n) else b_literal_pos r (S n)
  end.
Definition b_validate_literal (s : str) (offset : nat) : tres unit :=
  do r <- tlift (b_literal_pos s 0) ;
  match r with Some pos => terr InvalidCharacter (offset + pos) | None => Ok tt end.
(** template/parser/validate.rs:58-69 *)
Definition b_validate_varname (s : str) (offset : nat) : tres unit :=
  do rest <- match utf8s s with
             | [] => terr InvalidExpression offset
             | b :: bs =>
                 if (b =? PCT) && starts_with_double_hexdigits bs then tlift (str_from s 3)
                 else do ok <- (if is_ascii b then tlift (look is_ascii_varchar_start b) else Ok false) ;
                      if ok then tlift (str_from s 1) else terr InvalidExpression offset
             end ;
  do ok <- tlift (b_satisfy is_ascii_varchar_continue (fun _ => false) rest) ;
  if ok then Ok tt else terr InvalidExpression offset.
(** template/components.rs:99-104 [VarName::new] *)
Definition b_VarName_new (s : str) : tres str := b_validate_varname s 0 ;; Ok s.
(** core [str::split(',')]: the pieces between the byte positions of the commas; [fuel] bounds their number. *)
Fixpoint b_split_comma (fuel : nat) (s : str) : may (list str) :=
  match fuel with
  | O => Panic
  | S fuel =>
      match position (N.eqb COMMA) (utf8s s) with
      | None => Ok [s]
      | Some n =>
          do (a, _) <- str_split_at s n ;
          do b <- str_from s (n + 1) ;
          do l <- b_split_comma fuel b ; Ok (a :: l)
      end
  end.
(** core [s.chars()] after [take(n)] has consumed up to [n] characters: [chars.as_str()]. *)
Fixpoint chars_after (n : N) (s : str) : str :=
  match s with [] => [] | c :: r => if n =? 0 then s else chars_after (n - 1) r end.
(** expand.rs:456-494: the output function of [escape_write_with_maxlen]; the state is [max_len]. *)
Definition b_maxlen_frag (S : Spec) (debug : bool) (max_len : N) (frag : Frag) : W (N + unit) :=
  if max_len =? 0 then wret (inr tt) else
  match frag with
  | FChar s _ => wdo m <- usize_sub debug max_len 1 ; write s >> wret (inl m)
  | NoPctStr s =>
      match fst (take_chars max_len 0 s None) with
      | Some count =>
          let sub_len := (blen s - blen (chars_after max_len s))%nat in
          wdo m <- usize_sub debug max_len count ;
          wdo (sub, _) <- lift (str_split_at s sub_len) ;
          PercentEncoded S CCharacter (display sub) >> wret (inl m)
      | None => wpanic
      end
  | FStrayPercent => wdo m <- usize_sub debug max_len 1 ; write (lit "%25") >> wret (inl m)
  | InvalidUtf8PctTriplets s =>
      let count := N.min max_len (N.of_nat (length s / 3)) in
      wdo m <- usize_sub debug max_len count ;
      write (firstn (N.to_nat count * 3) s) >> wret (inl m)
  end.
(** expand.rs:526-547 [TruncatePercentEncodeWriter::write_str]; the state is [rest_num_chars]. *)
Definition b_truncate_write (S : Spec) (debug : bool) (rest_num_chars : N) (s : str) : W N :=
  if rest_num_chars =? 0 then wret rest_num_chars else
  let skip_count := match fst (take_chars rest_num_chars 0 s None) with Some i => i + 1 | None => 0 end in
  let len := (blen s - blen (chars_after rest_num_chars s))%nat in
  wdo (truncated, _) <- lift (str_split_at s len) ;
  PercentEncoded S CUnreserve (display truncated) >> usize_sub debug rest_num_chars skip_count.
Fixpoint b_truncate_chunks (S : Spec) (debug : bool) (rest : N) (chunks : list str) : W unit :=
  match chunks with
  | [] => wret tt
  | s :: r => wdo rest <- b_truncate_write S debug rest s ; b_truncate_chunks S debug rest r
  end.

Section Searching.
Variable m : option memchr_crate.
(** parser/str.rs:140-170 [find_split_hole] on bytes, and [memchr] / [position] at a percent sign. *)
Definition fs_hole_bytes (h : list N) (n : N) :=
  match m with Some m => find_split_hole_bytes_m m h n | None => find_split_hole_bytes_p h n end.
Definition pct_pos (h : list N) : option nat :=
  match m with Some m => memchr m PCT h | None => position (N.eqb PCT) h end.
(** [&b[n..]] *)
Definition bytes_from (b : list N) (n : nat) : may (list N) := slice_p b n (length b).
(** decode.rs:84-108 [try_non_allocating_decode] *)
Fixpoint b_non_allocating_loop (fuel : nat) (rest : list N) : may (option (nat * N * list N)) :=
  match fuel with
  | O => Panic
  | S fuel =>
      if is_empty rest then Ok None else
      match pct_pos rest with
      | None => Ok None
      | Some pos =>
          do after_pct <- bytes_from rest (pos + 1) ;
          do (decoded, rest) <- strip_decode_xdigits2 after_pct ;
          match decoded with
          | Some d => Ok (Some (pos, d, rest))
          | None => b_non_allocating_loop fuel after_pct
          end
      end
  end.
Definition b_try_non_allocating_decode (b : list N) : may (option (nat * N * list N)) :=
  b_non_allocating_loop (1 + length b) b.
(** decode.rs:123-130 *)
Definition b_to_bytes (b : list N) : may (option (list N)) :=
  do r <- b_try_non_allocating_decode b ; Ok (match r with None => Some b | Some _ => None end).
(** decode.rs:158-171: the loop of [into_bytes]. *)
Fixpoint b_into_bytes_loop (fuel : nat) (result rest : list N) : may (list N) :=
  match fuel with
  | O => Panic
  | S fuel =>
      if is_empty rest then Ok result else
      do r <- fs_hole_bytes rest PCT ;
      match r with
      | None => Ok (result ++ rest)
      | Some (no_pct, after_pct) =>
          do (decoded, rest) <- strip_decode_xdigits2 after_pct ;
          b_into_bytes_loop fuel
            (result ++ no_pct ++ match decoded with Some d => [d] | None => [] end) rest
      end
  end.
(** decode.rs:147-174 [into_bytes] *)
Definition b_into_bytes (b : list N) : may (list N) :=
  do r <- b_try_non_allocating_decode b ;
  match r with
  | None => Ok b
  | Some (prefix_len, decoded, rest) =>
      do prefix <- slice_p b 0 prefix_len ;
      b_into_bytes_loop (1 + length rest) (prefix ++ [decoded]) rest
  end.
(** decode.rs:293-327 [PercentDecodedBytesFragments::next] *)
Definition b_fragments_next (rest : list N) : may (option (DecodedFragment * list N)) :=
  match rest with
  | [] => Ok None
  | c :: after =>
      if c =? PCT then
        do (decoded, rest) <- strip_decode_xdigits2 after ;
        match decoded with
        | Some d => Ok (Some (DecodedByte d, rest))
        | None => Ok (Some (StrayPercent, after))
        end
      else
        match pct_pos after with
        | None => do e <- bytes_from rest (length rest) ; Ok (Some (Direct rest, e))
        | Some pos =>
            do a <- slice_p rest 0 (pos + 1) ;
            do b <- bytes_from rest (pos + 1) ;
            Ok (Some (Direct a, b))
        end
  end.
(** [collect()] *)
Fixpoint b_fragments_collect (fuel : nat) (rest : list N) : may (list DecodedFragment) :=
  match fuel with
  | O => Panic
  | S fuel =>
      do r <- b_fragments_next rest ;
      match r with
      | None => Ok []
      | Some (f, rest) => do fs <- b_fragments_collect fuel rest ; Ok (f :: fs)
      end
  end.
Definition b_bytes_fragments (b : list N) : may (list DecodedFragment) := b_fragments_collect (1 + length b) b.

(** ** src/template/parser/validate.rs *)
(** template/parser/validate.rs:25-55 *)
Definition b_validate_varspec (s : str) (offset : nat) : tres unit :=
  do r <- tlift (fs2_hole m s COLON STAR) ;
  match r with
  | Some (maybe_varname, sep, rest) =>
      if sep =? COLON then
        b_validate_varname maybe_varname offset ;;
        (if negb (Nat.leb 1 (blen rest) && Nat.leb (blen rest) 5) then
           terr InvalidExpression (offset + blen maybe_varname + 2)
         else match position (fun b => negb (is_digit b)) (utf8s rest) with
              | Some pos => terr InvalidExpression (offset + blen maybe_varname + 2 + pos)
              | None => Ok tt
              end)
      else if sep =? STAR then
        b_validate_varname maybe_varname offset ;;
        (if negb (is_empty rest) then terr InvalidExpression (offset + blen maybe_varname + 1)
         else Ok tt)
      else Panic
  | None => b_validate_varname s offset
  end.
(** template/parser/validate.rs:91-99: the loop over the varspecs. *)
Fixpoint b_validate_varspecs (spec_i : nat) (specs : list str) (offset : nat) : tres unit :=
  match specs with
  | [] => Ok tt
  | v :: r =>
      let offset := (if Nat.eqb spec_i 0 then offset else offset + 1)%nat in
      b_validate_varspec v offset ;;
      b_validate_varspecs (S spec_i) r (offset + blen v)%nat
  end.
(** template/parser/validate.rs:74-102 *)
Definition b_validate_expr_body (s : str) (offset : nat) : tres unit :=
  match utf8s s with
  | [] => terr InvalidExpression offset
  | b :: _ =>
      match MaybeOperator_from_byte b with
      | Some (OpWorking _) =>
          do vars <- tlift (str_from s 1) ;
          do specs <- tlift (b_split_comma (1 + length vars) vars) ;
          b_validate_varspecs 0 specs (offset + 1)%nat
      | Some OpForFuture => terr UnsupportedOperator offset
      | None => do specs <- tlift (b_split_comma (1 + length s) s) ; b_validate_varspecs 0 specs offset
      end
  end.
(** template/parser/validate.rs:107-161 [validate_template_str] *)
Fixpoint b_validate_template_loop (fuel : nat) (s rest : str) (offset : nat) : tres unit :=
  match fuel with
  | O => Panic
  | S fuel =>
      if is_empty rest then Ok tt else
      do r <- tlift (fs2_hole m rest PCT LBRACE) ;
      match r with
      | Some (literal, sep, after) =>
          do rest <- (if sep =? PCT then
              b_validate_literal literal offset ;;
              (if Nat.ltb (blen after) 2 then terr InvalidPercentEncoding (offset + blen literal)
               else
                do (xdigits2, new_rest) <- tlift (str_split_at after 2) ;
                do x0 <- tlift (byte_at (utf8s xdigits2) 0) ;
                (if negb (is_hexdigit x0) then terr InvalidPercentEncoding (offset + blen literal + 1)
                 else
                  do x1 <- tlift (byte_at (utf8s xdigits2) 1) ;
                  (if negb (is_hexdigit x1) then terr InvalidPercentEncoding (offset + blen literal + 2)
                   else Ok new_rest)))
            else if sep =? LBRACE then
              b_validate_literal literal offset ;;
              do e <- tlift (fs_hole m after RBRACE) ;
              match e with
              | None => terr ExpressionNotClosed (offset + blen literal)
              | Some (expr, new_rest) =>
                  b_validate_expr_body expr (offset + blen literal + 1) ;; Ok new_rest
              end
            else Panic) ;
          b_validate_template_loop fuel s rest (blen s - blen rest)
      | None => b_validate_literal rest offset
      end
  end.
(** string.rs:105-107, 146-148, 471-482: [UriTemplateStr::new] / [TryFrom<&str>]. *)
Definition b_template_new (s : str) : tres str := b_validate_template_loop (1 + length s) s s 0 ;; Ok s.

(** ** src/template/components.rs *)
(** core [str::strip_suffix('*')]: the last byte is compared, the rest cut off by byte position. *)
Definition b_strip_suffix_char (s : str) (c : N) : may (option str) :=
  match utf8s s with
  | [] => Ok None
  | l => if last l 0 =? c then do (a, _) <- str_split_at s (blen s - 1) ; Ok (Some a) else Ok None
  end.
(** template/components.rs:144-168 [VarSpec::parse_trusted] *)
Definition b_VarSpec_parse_trusted (s : str) : may VarSpec :=
  do st <- b_strip_suffix_char s STAR ;
  match st with
  | Some varname => Ok (mkVS varname MExplode)
  | None =>
      do r <- fs_hole m s COLON ;
      match r with
      | Some (varname, max_len) =>
          match parse_u16 (utf8s max_len) with
          | Some n => Ok (mkVS varname (MMaxLen n))
          | None => Panic
          end
      | None => Ok (mkVS s MNone)
      end
  end.
(** template/components.rs:209-226 [VarListIter::next] *)
Definition b_varlist_next (rest : str) : may (option (nat * VarSpec * str)) :=
  do r <- fs_hole m rest COMMA ;
  match r with
  | Some (prefix, new_rest) =>
      do v <- b_VarSpec_parse_trusted prefix ; Ok (Some (blen prefix, v, new_rest))
  | None =>
      if is_empty rest then Ok None
      else do v <- b_VarSpec_parse_trusted rest ; Ok (Some (blen rest, v, []))
  end.
(** expand.rs:55-72 [Chunks::next] *)
Definition b_chunks_next (debug : bool) (template : str) : may (option (Chunk * str)) :=
  if is_empty template then Ok None else
  do r <- fs m template LBRACE ;
  match r with
  | Some ([], _) =>
      do inner <- str_from template 1 ;
      do e <- fs_hole m inner RBRACE ;
      match e with
      | Some (expr_body, rest) => do b <- ExprBody_new debug expr_body ; Ok (Some (ChunkExpr b, rest))
      | None => Panic
      end
  | Some (lit, rest) => Ok (Some (ChunkLiteral lit, rest))
  | None => Ok (Some (ChunkLiteral template, []))
  end.

(** ** src/template/string.rs *)
(** string.rs:588-591: [self.chunks.find_map(..)]: the first expression and the new chunk state. *)
Fixpoint b_find_expr (fuel : nat) (debug : bool) (template : str) : may (option str * str) :=
  match fuel with
  | O => Panic
  | S fuel =>
      do r <- b_chunks_next debug template ;
      match r with
      | None => Ok (None, template)
      | Some (ChunkLiteral _, rest) => b_find_expr fuel debug rest
      | Some (ChunkExpr b, rest) => Ok (Some b, rest)
      end
  end.
(** string.rs:580-594 [next] *)
Fixpoint b_variables_loop (fuel : nat) (debug : bool) (it : VariablesIter) : may (option str * VariablesIter) :=
  match fuel with
  | O => Panic
  | S fuel =>
      let next_chunk :=
        do (e, chunks) <- b_find_expr (1 + length (vi_chunks it)) debug (vi_chunks it) ;
        match e with
        | None => Ok (None, mkVI chunks None)
        | Some b =>
            do (_, vars) <- decompose b ;
            b_variables_loop fuel debug (mkVI chunks (Some vars))
        end in
      match vi_vars it with
      | Some vars =>
          do r <- b_varlist_next vars ;
          match r with
          | Some (_, spec, rest) => Ok (Some (vs_name spec), mkVI (vi_chunks it) (Some rest))
          | None => next_chunk
          end
      | None => next_chunk
      end
  end.
Definition b_variables_next (debug : bool) (it : VariablesIter) : may (option str * VariablesIter) :=
  b_variables_loop (2 + length (vi_chunks it)) debug it.
(** [collect()]: [n] bounds the number of items. *)
Fixpoint b_variables_collect (n : nat) (debug : bool) (it : VariablesIter) : may (list str) :=
  match n with
  | O => Panic
  | S n =>
      do (v, it) <- b_variables_next debug it ;
      match v with
      | None => Ok []
      | Some v => do l <- b_variables_collect n debug it ; Ok (v :: l)
      end
  end.
Definition b_template_variables (debug : bool) (template : str) : may (list str) :=
  b_variables_collect (2 + length template) debug (variables template).

(** ** src/parser/str/maybe_pct_encoded.rs *)
Section Process.
Context {St : Type}.
Variable debug : bool.
Variable f : St -> Frag -> W (St + unit).
(** maybe_pct_encoded.rs:140-184 [DecomposeWriter::write_str]: the loop; [fuel] bounds the number of
    iterations. *)
Fixpoint b_decompose_loop (fuel : nat) (st : St) (db : DecoderBuffer) (rest : str) : W (St * DecoderBuffer + unit) :=
  match fuel with
  | O => wpanic
  | S fuel =>
      if is_empty rest then wret (inl (st, db)) else
      wdo (len_consumed, result, db) <- lift (push_encoded debug db rest) ;
      if Nat.eqb len_consumed 0 then
        wdo fl <- lift (flush db) ;
        wdo r <- match fl with
                 | None => wret (inl (st, db, rest))
                 | Some (w, db) =>
                     wdo r <- output_as_undecodable debug f st w ;
                     match r with
                     | inl st => wdo rest <- lift (str_from rest (length w)) ; wret (inl (st, db, rest))
                     | inr u => wret (inr u)
                     end
                 end ;
        match r with
        | inr u => wret (inr u)
        | inl (st, db, rest) =>
            wdo sp <- lift (fs m rest PCT) ;
            let '(plain_prefix, suffix) :=
              match sp with Some p => p | None => (rest, []) end in
            if debug && is_empty plain_prefix then wpanic
            else
              wdo r <- f st (NoPctStr plain_prefix) ;
              match r with
              | inr u => wret (inr u)
              | inl st => b_decompose_loop fuel st db suffix
              end
        end
      else
        wdo r <- match result with
                 | Decoded w c => f st (FChar w c)
                 | Undecodable w => output_as_undecodable debug f st w
                 | NeedMoreBytes => wret (inl st)
                 end ;
        match r with
        | inr u => wret (inr u)
        | inl st => wdo rest <- lift (str_from rest len_consumed) ; b_decompose_loop fuel st db rest
        end
  end.
Definition b_decompose_write_str (st : St) (db : DecoderBuffer) (s : str) : W (St * DecoderBuffer + unit) :=
  b_decompose_loop (2 * (1 + length s)) st db s.
(** [write!(writer, "{v}")]: the chunks of [v] one by one.  The [Display] of [v] is supposed to return
    the error of a failed [write_str] at once. *)
Fixpoint b_decompose_chunks (st : St) (db : DecoderBuffer) (chunks : list str) : W (St * DecoderBuffer + unit) :=
  match chunks with
  | [] => wret (inl (st, db))
  | s :: r =>
      wdo x <- b_decompose_write_str st db s ;
      match x with
      | inr u => wret (inr u)
      | inl (st, db) => b_decompose_chunks st db r
      end
  end.
(** maybe_pct_encoded.rs:25-75 [process_percent_encoded_best_effort] *)
Definition b_process_percent_encoded_best_effort (st : St) (v : W unit) : W unit :=
  wdo x <- b_decompose_chunks st db_empty (fst v) ;
  match x with
  | inr _ => wret tt
  | inl (st, db) =>
      match snd v with
      | Fail => wfail
      | Pan => wpanic
      | Ret _ =>
          wdo fl <- lift (flush db) ;
          match fl with
          | None => wret tt
          | Some (w, _) =>
              let len_suffix := Nat.modulo (length w) 3 in
              let triplets_end := (length w - len_suffix)%nat in
              wdo r <- andthen (f st (InvalidUtf8PctTriplets (firstn triplets_end w))) (fun st =>
                       andthen (if Nat.ltb 0 len_suffix then f st FStrayPercent else wret (inl st)) (fun st =>
                       if Nat.ltb 1 len_suffix then f st (NoPctStr (skipn (triplets_end + 1) w)) else wret (inl st))) ;
              wret tt
          end
      end
  end.
End Process.

(** ** src/template/expand.rs *)
(** expand.rs:401-445 [escape_write] *)
Definition b_escape_write (S : Spec) (debug : bool) (v : W unit) (allow_reserved : bool) : W unit :=
  if allow_reserved then b_process_percent_encoded_best_effort debug (escape_frag S) tt v
  else PercentEncoded S CUnreserve v.

(** expand.rs:448-514 [escape_write_with_maxlen] *)
Definition b_escape_write_with_maxlen (S : Spec) (debug : bool) (v : W unit) (allow_reserved : bool)
  (max_len : option N) : W unit :=
  if allow_reserved then
    b_process_percent_encoded_best_effort debug (b_maxlen_frag S debug)
      (match max_len with Some n => n | None => USIZE - 1 end) v
  else
    match max_len with
    | Some n => b_truncate_chunks S debug n (fst v) >> ([], snd v)
    | None => PercentEncoded S CUnreserve v
    end.
(** ** Visitors *)
Section Visit.
Variable S : Spec.
Variable debug : bool.
Variable vs : VarSpec.
Variable op : Operator.
Let oppr := OpProps_from_op op.
(** expand.rs:693-717 [visit_string]; the argument and the result are [is_first_varspec]. *)
Definition b_visit_string (first : bool) (v : W unit) : W bool :=
  write (if first then op_first oppr else op_sep oppr) >>
  (if op_named oppr then write (vs_name vs) else wret tt) >>
  let max_len := match vs_modifier vs with MNone | MExplode => None | MMaxLen n => Some n end in
  wdo unwritten <- prefix_once (if op_named oppr then Some (lit "=") else None)
                     (b_escape_write_with_maxlen S debug v (op_allow_reserved oppr) max_len) ;
  (if unwritten then write (op_ifemp oppr) else wret tt) >> wret false.
(** expand.rs:764-809 [visit_item_impl]; state: [is_first_varspec], and whether [num_elems] is zero. *)
Definition b_visit_item (st : bool * bool) (item : W unit) : W (bool * bool) :=
  let '(first, zero) := st in
  wdo explode <- is_explode vs ;
  (if zero then
     write (if first then op_first oppr else op_sep oppr) >>
     (if op_named oppr then write (vs_name vs) >> write (lit "=") else wret tt)
   else
     match op_named oppr, explode with
     | _, false => write (lit ",")
     | false, true => write (op_sep oppr)
     | true, true =>
         write (op_sep oppr) >>
         b_escape_write S debug (display (vs_name vs)) (op_allow_reserved oppr) >>
         write (lit "=")
     end) >>
  b_escape_write S debug item (op_allow_reserved oppr) >>
  wret (if zero then false else first, false).
(** expand.rs:855-926 [visit_entry_impl] *)
Definition b_visit_entry (st : bool * bool) (entry : W unit * W unit) : W (bool * bool) :=
  let '(first, zero) := st in
  let '(key, value) := entry in
  let escape_key := b_escape_write S debug key (op_allow_reserved oppr) in
  wdo explode <- is_explode vs ;
  (if zero then
     write (if first then op_first oppr else op_sep oppr) >>
     if explode : bool then escape_key >> write (lit "=")
     else
       (if op_named oppr then
          b_escape_write S debug (display (vs_name vs)) (op_allow_reserved oppr) >> write (lit "=")
        else wret tt) >>
       escape_key >> write (lit ",")
   else
     match op_named oppr, explode with
     | _, false => write (lit ",") >> escape_key >> write (lit ",")
     | false, true => write (op_sep oppr) >> escape_key >> write (lit "=")
     | true, true => write (op_sep oppr) >> escape_key >> write (lit "=")
     end) >>
  b_escape_write S debug value (op_allow_reserved oppr) >>
  wret (if zero then false else first, false).
(** [context.visit(ValueVisitor)] for a context that supplies [v]; the token check of
    expand.rs:387-392 holds since the visitor given is the one used. *)
Definition b_visit_value (first : bool) (v : Value) : W bool :=
  match v with
  | VUndefined => wret first
  | VString d => b_visit_string first d
  | VList l => wdo (first, _) <- visit_each b_visit_item (first, true) l ; wret first
  | VAssoc l => wdo (first, _) <- visit_each b_visit_entry (first, true) l ; wret first
  end.
End Visit.

(** ** Expansion with an immutable context *)
(** expand.rs:383-393: the loop of [expand]; [fuel] bounds the number of varspecs. *)
Fixpoint b_expand_vars (fuel : nat) (S : Spec) (debug : bool) (ctx : Ctx) (op : Operator) (first : bool) (rest : str) : W unit :=
  match fuel with
  | O => wpanic
  | Datatypes.S fuel =>
      wdo r <- lift (b_varlist_next rest) ;
      match r with
      | None => wret tt
      | Some (_, vs, rest) =>
          wdo first <- b_visit_value S debug vs op first (ctx (vs_name vs)) ;
          b_expand_vars fuel S debug ctx op first rest
      end
  end.
(** expand.rs:377-397 *)
Definition b_expand_expr (S : Spec) (debug : bool) (ctx : Ctx) (body : str) : W unit :=
  wdo (op, vars) <- lift (decompose body) ;
  b_expand_vars (1 + length vars) S debug ctx op true vars.
(** expand.rs:137-150 [<Expanded as Display>::fmt]: the loop *)
Fixpoint b_expanded_loop (fuel : nat) (S : Spec) (debug : bool) (ctx : Ctx) (template : str) : W unit :=
  match fuel with
  | O => wpanic
  | Datatypes.S fuel =>
      wdo r <- lift (b_chunks_next debug template) ;
      match r with
      | None => wret tt
      | Some (ChunkLiteral l, rest) => write l >> b_expanded_loop fuel S debug ctx rest
      | Some (ChunkExpr b, rest) => b_expand_expr S debug ctx b >> b_expanded_loop fuel S debug ctx rest
      end
  end.
Definition b_expanded_fmt (S : Spec) (debug : bool) (ctx : Ctx) (template : str) : W unit :=
  b_expanded_loop (1 + length template) S debug ctx template.
(** expand.rs:113-129: the loop over the varspecs of [typecheck_context]; the result is [pos]. *)
Fixpoint b_typecheck_vars (fuel : nat) (ctx : Ctx) (pos : nat) (rest : str) : tres nat :=
  match fuel with
  | O => Panic
  | S fuel =>
      do r <- tlift (b_varlist_next rest) ;
      match r with
      | None => Ok pos
      | Some (varspec_len, vs, rest) =>
          if is_maxlen (vs_modifier vs) && is_composite (type_of (ctx (vs_name vs)))
          then terr UnexpectedValueType pos
          else b_typecheck_vars fuel ctx (pos + (varspec_len + 1)) rest
      end
  end.
(** expand.rs:99-133 [typecheck_context] *)
Fixpoint b_typecheck_loop (fuel : nat) (debug : bool) (ctx : Ctx) (pos : nat) (template : str) : tres unit :=
  match fuel with
  | O => Panic
  | S fuel =>
      do r <- tlift (b_chunks_next debug template) ;
      match r with
      | None => Ok tt
      | Some (ChunkLiteral l, rest) => b_typecheck_loop fuel debug ctx (pos + blen l) rest
      | Some (ChunkExpr b, rest) =>
          do (op, vars) <- tlift (decompose b) ;
          let chunk_end_pos := (pos + blen b + 2)%nat in
          do pos <- b_typecheck_vars (1 + length vars) ctx (pos + (Operator_len op + 1)) vars ;
          if Nat.eqb pos chunk_end_pos then b_typecheck_loop fuel debug ctx pos rest else Panic
      end
  end.
Definition b_typecheck_context (debug : bool) (ctx : Ctx) (template : str) : tres unit :=
  b_typecheck_loop (1 + length template) debug ctx 0 template.
(** expand.rs:89-96 and string.rs:262-267 [UriTemplateStr::expand], then [to_string] of the result. *)
Definition b_expand_new (debug : bool) (ctx : Ctx) (template : str) : tres unit := b_typecheck_context debug ctx template.
Definition b_expand_to_string (S : Spec) (debug : bool) (ctx : Ctx) (template : str) : tres str :=
  b_expand_new debug ctx template ;; tlift (text (b_expanded_fmt S debug ctx template)).
Section Dynamic.
Context {St : Type}.
Variable S : Spec.
Variable debug : bool.
Variable ctx : DynCtx St.
(** expand.rs:237-266: the loop of [expand_expr_mut]; the result is [pos]. *)
Fixpoint b_dyn_vars (fuel : nat) (op : Operator) (first : bool) (pos : nat) (rest : str) (c : St) : D St nat :=
  match fuel with
  | O => ([], DPan)
  | Datatypes.S fuel =>
      dbind (dlift c (b_varlist_next rest)) (fun r c =>
      match r with
      | None => dret pos c
      | Some (varspec_len, vs, rest) =>
          let '(v, c) := dyn_visit ctx Typecheck (vs_name vs) c in
          if is_maxlen (vs_modifier vs) && is_composite (type_of v)
          then ([], DErr (mkTE UnexpectedValueType pos) c)
          else
            let '(v, c) := dyn_visit ctx Expand (vs_name vs) c in
            dbind (dwrite pos c (b_visit_value S debug vs op first v)) (fun first c =>
            b_dyn_vars fuel op first (pos + (varspec_len + 1)) rest c)
      end)
  end.
(** expand.rs:224-270 [expand_expr_mut] *)
Definition b_dyn_expr (body : str) (pos : nat) (c : St) : D St nat :=
  dbind (dlift c (decompose body)) (fun '(op, vars) c =>
  let chunk_end_pos := (pos + blen body + 2)%nat in
  dbind (b_dyn_vars (1 + length vars) op true (pos + (Operator_len op + 1)) vars c) (fun pos c =>
  if Nat.eqb pos chunk_end_pos then dret pos c else ([], DPan))).
(** expand.rs:200-221 [expand_whole_dynamic_impl] *)
Fixpoint b_dyn_loop (fuel : nat) (pos : nat) (template : str) (c : St) : D St unit :=
  match fuel with
  | O => ([], DPan)
  | Datatypes.S fuel =>
      dbind (dlift c (b_chunks_next debug template)) (fun r c =>
      match r with
      | None => dret tt c
      | Some (ChunkLiteral l, rest) =>
          dbind (dwrite pos c (write l)) (fun _ c => b_dyn_loop fuel (pos + blen l) rest c)
      | Some (ChunkExpr b, rest) => dbind (b_dyn_expr b pos c) (fun pos c => b_dyn_loop fuel pos rest c)
      end)
  end.
(** expand.rs:186-195 [expand_whole_dynamic], string.rs:280-286 [expand_dynamic] *)
Definition b_expand_dynamic {Wr} (w : Wr -> str -> wstep Wr) (st : Wr) (template : str) (c : St)
  : Wr * tres unit * option St :=
  let d := b_dyn_loop (1 + length template) 0 template (dyn_start ctx c) in
  let '(st, r, c) := drun w st (fst d) (snd d) in
  (st, r, match c with Some c => Some (dyn_end ctx c) | None => None end).
Definition b_expand_dynamic_to_string (template : str) (c : St) : tres str * option St :=
  let '(buf, r, c) := b_expand_dynamic append_write [] template c in
  (match r with Ok _ => Ok buf | Err e => Err e | Panic => Panic end, c).
End Dynamic.
End Searching.
