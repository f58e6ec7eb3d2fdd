(** * Properties C32 and C33: formatting writers and search helpers.
    Specification: Utf8.v, SearchSpec.v.  Model: MFormat.v, MWriters.v, MSearch.v, MValidate.v. *)
From Verif Require Import Base Chars Utf8 MValidate MFormat MWriters MSearch SearchSpec PSearch.

(** ** C32.  [d] is any [Display] that returns [Ok], in any chunking; its text is [concat (fst d)]. *)
Theorem C32_write_to_slice_fits : forall A buf (d : W A) a, snd d = Ret a ->
  let out := utf8s (concat (fst d)) in
  (length out <= length buf)%nat ->
  write_to_slice buf d = (Ok (Some out), out ++ skipn (length out) buf).
Proof. exact @slice_ok. Qed.
Print Assumptions C32_write_to_slice_fits.
(** Too small: [CapacityOverflowError]; the buffer then holds a prefix of the text. *)
Theorem C32_write_to_slice_overflow : forall A buf (d : W A) a, snd d = Ret a ->
  let out := utf8s (concat (fst d)) in
  (length buf < length out)%nat ->
  exists k rest, out = k ++ rest /\ (length k <= length buf)%nat /\
    write_to_slice buf d = (Ok None, k ++ skipn (length k) buf).
Proof. exact @slice_over. Qed.
Print Assumptions C32_write_to_slice_overflow.
Definition chunked (cs : list str) : W unit := (cs, Ret tt).
Example C32_ex1 : write_to_slice [9; 9; 9; 9] (chunked [lit "a"; []; [233]]) = (Ok (Some [97; 195; 169]), [97; 195; 169; 9]).
Proof. vm_compute. reflexivity. Qed.
Example C32_ex2 : write_to_slice [9; 9] (chunked [lit "a"; []; [233]]) = (Ok None, [97; 9]).
Proof. vm_compute. reflexivity. Qed.

Theorem C32_append : forall A alloc dest (d : W A) a, snd d = Ret a ->
  (forall i, (i < length (fst d))%nat -> alloc i = true) ->
  try_append_to_string alloc dest d = (Ok tt, dest ++ concat (fst d)).
Proof. exact @append_ok. Qed.
Print Assumptions C32_append.
(** When the [k]-th allocation fails an error is returned (no panic) and the earlier chunks stay. *)
Theorem C32_append_alloc_failure : forall A alloc dest (d : W A) a k, snd d = Ret a ->
  (k < length (fst d))%nat -> alloc k = false -> (forall i, (i < k)%nat -> alloc i = true) ->
  try_append_to_string alloc dest d = (Err AllocFailed, dest ++ concat (firstn k (fst d))).
Proof. exact @append_fail. Qed.
Print Assumptions C32_append_alloc_failure.
Example C32_ex3 : try_append_to_string (fun n => Nat.ltb n 2) (lit "x") (chunked [lit "a"; lit "b"; lit "c"]) = (Err AllocFailed, lit "xab").
Proof. vm_compute. reflexivity. Qed.

(** [try_to_string]: the text, or the error if any allocation fails. *)
Theorem C32_to_string : forall A alloc (d : W A) a, snd d = Ret a ->
  (forall i, (i < length (fst d))%nat -> alloc i = true) -> try_to_string alloc d = Ok (concat (fst d)).
Proof. exact @to_string_ok. Qed.
Print Assumptions C32_to_string.
Theorem C32_to_string_alloc_failure : forall A alloc (d : W A) a k, snd d = Ret a ->
  (k < length (fst d))%nat -> alloc k = false -> try_to_string alloc d = Err AllocFailed.
Proof. exact @to_string_fail. Qed.
Print Assumptions C32_to_string_alloc_failure.
Example C32_ex5 : try_to_string (fun n => Nat.ltb n 3) (chunked [lit "a"; lit "b"; lit "c"]) = Ok (lit "abc") /\
  try_to_string (fun n => Nat.ltb n 2) (chunked [lit "a"; lit "b"; lit "c"]) = Err AllocFailed.
Proof. vm_compute. auto. Qed.

Theorem C32_eq_str_display : forall A s (d : W A) a, snd d = Ret a ->
  exists b, eq_str_display s d = Ok b /\ (b = true <-> s = concat (fst d)).
Proof. exact @eq_ok. Qed.
Print Assumptions C32_eq_str_display.
Example C32_ex4 : eq_str_display (lit "abc") (chunked [lit "a"; []; lit "bc"]) = Ok true /\
  eq_str_display (lit "abc") (chunked [lit "ab"]) = Ok false /\ eq_str_display (lit "ab") (chunked [lit "abc"]) = Ok false.
Proof. vm_compute. auto. Qed.

(** ** C33.  For every implementation of the memchr crate that meets its documentation, the byte-level
    helpers with and without the feature never panic and both give the character-level search that
    the rest of the model uses. *)
Theorem C33_find_split : forall m s n, memchr_contract m -> n < 128 ->
  find_split_p s n = Ok (find_split s n) /\ find_split_m m s n = Ok (find_split s n).
Proof. exact find_split_agree. Qed.
Print Assumptions C33_find_split.
Theorem C33_find_split2 : forall m s a b, memchr_contract m -> a < 128 -> b < 128 ->
  find_split2_p s a b = Ok (find_split2 s a b) /\ find_split2_m m s a b = Ok (find_split2 s a b).
Proof. exact find_split2_agree. Qed.
Print Assumptions C33_find_split2.
Theorem C33_rfind_split2 : forall m s a b, memchr_contract m -> a < 128 -> b < 128 ->
  rfind_split2_p s a b = Ok (rfind_split2 s a b) /\ rfind_split2_m m s a b = Ok (rfind_split2 s a b).
Proof. exact rfind_split2_agree. Qed.
Print Assumptions C33_rfind_split2.
Theorem C33_find_split3 : forall m s a b c, memchr_contract m -> a < 128 -> b < 128 -> c < 128 ->
  find_split3_p s a b c = Ok (find_split3 s a b c) /\ find_split3_m m s a b c = Ok (find_split3 s a b c).
Proof. exact find_split3_agree. Qed.
Print Assumptions C33_find_split3.
Theorem C33_find_split_hole : forall m s n, memchr_contract m -> n < 128 ->
  find_split_hole_p s n = Ok (find_split_hole s n) /\ find_split_hole_m m s n = Ok (find_split_hole s n).
Proof. exact find_split_hole_agree. Qed.
Print Assumptions C33_find_split_hole.
Theorem C33_find_split_hole_bytes : forall m h n, memchr_contract m ->
  find_split_hole_bytes_p h n = Ok (find_split_hole h n) /\ find_split_hole_bytes_m m h n = Ok (find_split_hole h n).
Proof. exact find_split_hole_bytes_agree. Qed.
Print Assumptions C33_find_split_hole_bytes.
Theorem C33_find_split2_hole : forall m s a b, memchr_contract m -> a < 128 -> b < 128 ->
  find_split2_hole_p s a b = Ok (find_split2_hole s a b) /\ find_split2_hole_m m s a b = Ok (find_split2_hole s a b).
Proof. exact find_split2_hole_agree. Qed.
Print Assumptions C33_find_split2_hole.
Theorem C33_find_split4_hole : forall m s a b c d, memchr_contract m -> a < 128 -> b < 128 -> c < 128 -> d < 128 ->
  find_split4_hole_p s a b c d = Ok (find_split4_hole s a b c d) /\
  find_split4_hole_m m s a b c d = Ok (find_split4_hole s a b c d).
Proof. exact find_split4_hole_agree. Qed.
Print Assumptions C33_find_split4_hole.
Theorem C33_rfind_split_hole : forall m s n, memchr_contract m -> n < 128 ->
  rfind_split_hole_p s n = Ok (rfind_split_hole s n) /\ rfind_split_hole_m m s n = Ok (rfind_split_hole s n).
Proof. exact rfind_split_hole_agree. Qed.
Print Assumptions C33_rfind_split_hole.
Theorem C33_prior_byte2 : forall m, memchr_contract m -> forall h a b,
  prior_byte2_m m h a b = Ok (prior_byte2_p h a b).
Proof. exact prior_eq. Qed.
Print Assumptions C33_prior_byte2.
Theorem C33_rfind : forall m, memchr_contract m -> forall n h, rfind_m m h n = rfind_p h n.
Proof. exact memrchr_eq. Qed.
Print Assumptions C33_rfind.
(** What the character-level search means: the split is at the first (last) needle. *)
Theorem C33_first_meaning : forall s n,
  match find_split_hole s n with
  | Some (a, b) => s = a ++ n :: b /\ ~ In n a
  | None => ~ In n s
  end.
Proof. exact find_split_hole_meaning. Qed.
Print Assumptions C33_first_meaning.
Theorem C33_last_meaning : forall s n,
  match rfind_split_hole s n with
  | Some (a, b) => s = a ++ n :: b /\ ~ In n b
  | None => ~ In n s
  end.
Proof. exact rfind_split_hole_meaning. Qed.
Print Assumptions C33_last_meaning.
(** A concrete crate meeting the contract, and a multi-byte haystack. *)
Definition simple_memchr : memchr_crate :=
  {| memchr := fun a => position (is1 a); memchr2 := fun a b => position (is2 a b);
     memchr3 := fun a b c => position (is3 a b c); memrchr := fun a => rposition (is1 a);
     memrchr2 := fun a b => rposition (is2 a b) |}.
Example C33_ex0 : memchr_contract simple_memchr.
Proof. exact simple_contract. Qed.
Example C33_ex1 : find_split4_hole_m simple_memchr ([233; 97] ++ lit "#/?") COLON SLASH QMARK HASH = Ok (Some ([233; 97], HASH, lit "/?")).
Proof. vm_compute. reflexivity. Qed.
(** With a non-ASCII needle the byte position may fall inside a character. *)
Example C33_ex2 : find_split_p [233] 169 = Panic.
Proof. vm_compute. reflexivity. Qed.
