(** * Model of src/normalize/pct_case.rs and of the percent helpers of src/parser/trusted.rs. *)
From Verif Require Import Base Chars MValidate MTrusted MFormat.

(** trusted.rs:433-439 [hexdigits_to_byte]: [u8] arithmetic, [<<] drops the high bits; the sums
    overflow only for non-hexdigit input, where the debug profile panics. *)
Definition hexdigits_to_byte (upper lower : N) : may N :=
  let uo := if 64 <=? upper then 144 else 0 in
  let lo := if 64 <=? lower then 9 else 0 in
  let v := (N.shiftl upper 4) mod 256 + uo + N.land lower 15 + lo in
  if 255 <? v then Panic else Ok v.
(** trusted.rs:447-457 [take_xdigits2].  Simplification: when one of the first two characters is not
    ASCII (possible only for unvalidated input) the model always panics, whereas the code may also
    read the two bytes of a two-byte character. *)
Definition take_xdigits2 (s : str) : may (N * str) :=
  match s with
  | u :: l :: r =>
      if is_ascii u && is_ascii l then do v <- hexdigits_to_byte u l ; Ok (v, r) else Panic
  | _ => Panic
  end.

(** ["%{:02X}"] *)
Definition hex_upper (d : N) : N := if d <? 10 then 48 + d else 55 + d.
Definition pct_upper (b : N) : str := [PCT; hex_upper (b / 16); hex_upper (b mod 16)].
(** [iter().try_for_each(|b| write!(f, "%{:02X}", b))] (src/normalize/pct_case.rs).
    Simplified: [core::fmt] hands the sink each triplet in more than one chunk ("%" and the two
    digits); here the triplet is one chunk.  Only the concatenation of the chunks is observed. *)
Fixpoint write_triplets (bs : list N) : W unit :=
  match bs with [] => wret tt | b :: r => write (pct_upper b) >> write_triplets r end.

(** core: [char::from_u32]. *)
Definition char_from_u32 (c : N) : option N := if is_scalar c then Some c else None.

(** pct_case.rs:26-56 [into_char_trusted]: [Ok None] is [Err(())]. *)
Definition into_char_trusted (bytes : list N) : may (option N) :=
  let cont b := N.land b 63 in
  let fin (min c : N) := Ok (if c <? min then None else char_from_u32 c) in
  match bytes with
  | [a; b] => fin 128 (N.lor (N.shiftl (N.land a 31) 6) (cont b))
  | [a; b; c] =>
      fin 2048 (N.lor (N.lor (N.shiftl (N.land a 15) 12) (N.shiftl (cont b) 6)) (cont c))
  | [a; b; c; d] =>
      fin 65536 (N.lor (N.lor (N.lor (N.shiftl (N.land a 7) 18) (N.shiftl (cont b) 12))
                         (N.shiftl (cont c) 6)) (cont d))
  | _ => Panic
  end.

(** Outcome of the continuation-byte loop pct_case.rs:133-172: [rest] after it and
    - [CNext]: [continue 'outer_loop] after having written something,
    - [CBreak]: [break 'outer_loop],
    - [CDone buf]: all continue bytes were read. *)
Inductive cont_result := CNext (rest : str) | CBreak | CDone (buf : list N) (rest : str).
Fixpoint read_continue (n : nat) (buf : list N) (rest : str) : W cont_result :=
  match n with
  | O => wret (CDone buf rest)
  | S n =>
      match rest with
      | c :: after =>
          if c =? PCT then
            wdo (byte, after_triplet) <- lift (take_xdigits2 after) ;
            if negb (is_utf8_byte_continue byte) then write_triplets buf >> wret (CNext rest)
            else read_continue n (buf ++ [byte]) after_triplet
          else write_triplets buf >> write [c] >> wret (CNext after)
      | [] => write_triplets buf >> wret CBreak
      end
  end.

(** pct_case.rs:104-131: [expected_char_len], or [None] when the triplet is handled at once. *)
Definition expected_len (b : N) : option nat :=
  if between 194 223 b then Some 2%nat
  else if between 224 239 b then Some 3%nat
  else if between 240 244 b then Some 4%nat
  else None.

(** pct_case.rs:90-224 [<PctCaseNormalized as Display>::fmt]; out of fuel is a panic.  In the [Err]
    branch (lines 186-218) the re-computed [rest] is [&after_first_triplet[(len-1)*3..]]. *)
Fixpoint pct_loop (S : Spec) (fuel : nat) (rest : str) : W unit :=
  match fuel with
  | O => wpanic
  | S fuel =>
      if is_empty rest then wret tt else
      match find_split_hole rest PCT with
      | None => write rest
      | Some (prefix, after_percent) =>
          write prefix >>
          wdo (first, after_first) <- lift (take_xdigits2 after_percent) ;
          if first <? 128 then
            (if is_ascii_unreserved first then write [first] else write (pct_upper first)) >>
            pct_loop S fuel after_first
          else
            match expected_len first with
            | None => write (pct_upper first) >> pct_loop S fuel after_first
            | Some len =>
                wdo r <- read_continue (len - 1) [first] after_first ;
                match r with
                | CBreak => wret tt
                | CNext rest => pct_loop S fuel rest
                | CDone buf rest =>
                    wdo oc <- lift (into_char_trusted buf) ;
                    match oc with
                    | Some c =>
                        (if is_unreserved S c then write [c] else write_triplets buf) >>
                        pct_loop S fuel rest
                    | None =>
                        wdo rest' <- lift (slice_p after_first ((len - 1) * 3) (length after_first)) ;
                        write_triplets buf >> pct_loop S fuel rest'
                    end
                end
            end
      end
  end.
Definition PctCaseNormalized (S : Spec) (s : str) : W unit := pct_loop S (1 + length s)%nat s.
(** pct_case.rs:17-19 *)
Definition is_pct_case_normalized (S : Spec) (s : str) : may bool :=
  eq_str_display s (PctCaseNormalized S s).

(** [chars().try_for_each(|c| f.write_char(c.to_ascii_lowercase()))] *)
Definition write_lower (s : str) : W unit := (map (fun c => [to_lower c]) s, Ret tt).
(** pct_case.rs:251-288 [<NormalizedAsciiOnlyHost as Display>::fmt]; the [assert!] is a panic. *)
Fixpoint ascii_host_loop (fuel : nat) (rest : str) : W unit :=
  match fuel with
  | O => wpanic
  | S fuel =>
      if is_empty rest then wret tt else
      match find_split_hole rest PCT with
      | None => write_lower rest
      | Some (prefix, after_percent) =>
          write_lower prefix >>
          wdo (first, after) <- lift (take_xdigits2 after_percent) ;
          if negb (is_ascii first) then wpanic
          else (if is_ascii_unreserved first then write [to_lower first] else write (pct_upper first)) >>
               ascii_host_loop fuel after
      end
  end.
Definition NormalizedAsciiOnlyHost (s : str) : W unit := ascii_host_loop (1 + length s)%nat s.

(** trusted.rs:465-481 [is_ascii_only_host]. *)
Fixpoint is_ascii_only_host_loop (fuel : nat) (host : str) : may bool :=
  match fuel with
  | O => Panic
  | S fuel =>
      match split_first (fun c => negb (is_ascii c) || (c =? PCT)) host with
      | None => Ok true
      | Some (_, c, after_pct) =>
          if negb (c =? PCT) then Ok false
          else do (byte, rest) <- take_xdigits2 after_pct ;
               if negb (is_ascii byte) then Ok false else is_ascii_only_host_loop fuel rest
      end
  end.
Definition is_ascii_only_host (host : str) : may bool :=
  is_ascii_only_host_loop (1 + length host)%nat host.
