(** * Proofs about MCost3.v. *)
From Verif Require Import Base Chars Utf8 MValidate MTrusted MFormat MSearch MPct MPath MNormalize MEncode MTemplate MCost MCost3 PBase PSearch PCost PCost2 PCost3.
Open Scope nat_scope.

Lemma kwbind_fst : forall A B (x : KW A) (f : A -> KW B), fst (kwbind x f) = wbind (fst x) (fun a => fst (f a)).
Proof. intros A B [[o [a| |]] n] f; reflexivity. Qed.
Lemma kwbind_snd : forall A B (x : KW A) (f : A -> KW B), snd (kwbind x f) = snd x + match snd (fst x) with Ret a => snd (f a) | _ => 0 end.
Proof. intros A B [[o [a| |]] n] f; cbn; lia. Qed.
Lemma wbind_ext : forall A B (x : W A) (f g : A -> W B), (forall a, f a = g a) -> wbind x f = wbind x g.
Proof. intros A B [o [a| |]] f g H; cbn; try reflexivity. rewrite H. reflexivity. Qed.
Lemma wbind_end : forall A B (x : W A) (f : A -> W B), snd (wbind x f) = match snd x with Ret a => snd (f a) | Fail => Fail | Pan => Pan end.
Proof. intros A B [o [a| |]] f; cbn; try reflexivity. destruct (f a); reflexivity. Qed.
Lemma wbind_ret : forall A B (a : A) (f : A -> W B), wbind (wret a) f = f a.
Proof. intros. cbn. destruct (f a); reflexivity. Qed.

(** ** The results *)
Lemma read_continue_fst : forall n buf rest, fst (k_read_continue n buf rest) = read_continue n buf rest.
Proof.
  induction n as [|n IH]; intros buf rest; [reflexivity|]. cbn [k_read_continue read_continue]. destruct rest as [|c after].
  - rewrite kwbind_fst. reflexivity.
  - rewrite kwbind_fst. cbn [kpure fst snd]. rewrite wbind_ret. destruct (c =? PCT)%N.
    + rewrite kwbind_fst. cbn [klift k_take_xdigits2 fst]. apply wbind_ext. intros [b r]. destruct (negb _); [|apply IH]. rewrite kwbind_fst. reflexivity.
    + rewrite kwbind_fst. cbn [k_write_triplets fst]. apply wbind_ext. intros _. rewrite kwbind_fst. reflexivity.
Qed.
Lemma hole_fst : forall s n, fst (k_find_split_hole s n) = find_split_hole s n.
Proof. reflexivity. Qed.
Lemma pct_loop_fst : forall S fuel rest, fst (k_pct_loop S fuel rest) = pct_loop S fuel rest.
Proof.
  intros S. induction fuel as [|fuel IH]; intros rest; [reflexivity|]. cbn [k_pct_loop pct_loop]. destruct (is_empty rest); [reflexivity|].
  rewrite kwbind_fst. cbn [kpure fst]. rewrite wbind_ret, hole_fst. destruct (find_split_hole rest PCT) as [[a b]|]; [|reflexivity].
  rewrite kwbind_fst. cbn [kwrite fst]. apply wbind_ext. intros _. rewrite kwbind_fst. cbn [klift k_take_xdigits2 fst]. apply wbind_ext. intros [f r].
  destruct (f <? 128)%N.
  - rewrite kwbind_fst. destruct (is_ascii_unreserved f); cbn [kwrite fst]; apply wbind_ext; intros _; apply IH.
  - destruct (expected_len f) as [len|].
    + rewrite kwbind_fst, read_continue_fst. apply wbind_ext. intros [r'| |buf r']; [apply IH|reflexivity|].
      rewrite kwbind_fst. cbn [klift kret fst]. apply wbind_ext. intros [c|].
      * rewrite kwbind_fst. destruct (is_unreserved S c); cbn [kwrite k_write_triplets fst]; apply wbind_ext; intros _; apply IH.
      * rewrite kwbind_fst. cbn [klift kret fst]. apply wbind_ext. intros r2. rewrite kwbind_fst. cbn [k_write_triplets fst]. apply wbind_ext. intros _. apply IH.
    + rewrite kwbind_fst. cbn [kwrite fst]. apply wbind_ext. intros _. apply IH.
Qed.
Lemma pct_display_fst : forall S s, fst (k_PctCaseNormalized S s) = PctCaseNormalized S s.
Proof. intros. apply pct_loop_fst. Qed.
Lemma ascii_host_loop_fst : forall fuel rest, fst (k_ascii_host_loop fuel rest) = ascii_host_loop fuel rest.
Proof.
  induction fuel as [|fuel IH]; intros rest; [reflexivity|]. cbn [k_ascii_host_loop ascii_host_loop]. destruct (is_empty rest); [reflexivity|].
  rewrite kwbind_fst. cbn [kpure fst]. rewrite wbind_ret, hole_fst. destruct (find_split_hole rest PCT) as [[a b]|]; [|reflexivity].
  rewrite kwbind_fst. cbn [k_write_lower fst]. apply wbind_ext. intros _. rewrite kwbind_fst. cbn [klift k_take_xdigits2 fst]. apply wbind_ext. intros [f r].
  destruct (negb _); [reflexivity|]. rewrite kwbind_fst. destruct (is_ascii_unreserved f); cbn [kwrite fst]; apply wbind_ext; intros _; apply IH.
Qed.
Lemma ascii_host_fst : forall s, fst (k_NormalizedAsciiOnlyHost s) = NormalizedAsciiOnlyHost s.
Proof. intros. apply ascii_host_loop_fst. Qed.
Lemma ascii_only_loop_fst : forall fuel s, fst (k_ascii_only_loop fuel s) = is_ascii_only_host_loop fuel s.
Proof.
  induction fuel as [|fuel IH]; intros s; [reflexivity|]. cbn [k_ascii_only_loop is_ascii_only_host_loop]. rewrite kbind_fst. cbn [k_first fst].
  destruct (split_first _ s) as [[[a c] b]|]; [|reflexivity]. destruct (negb _); [reflexivity|]. rewrite kand_fst. cbn [k_take_xdigits2 fst].
  destruct (take_xdigits2 b) as [[x r]|e|]; cbn [bind]; try reflexivity. destruct (negb _); [reflexivity|]. apply IH.
Qed.
Lemma ascii_only_fst : forall s, fst (k_is_ascii_only_host s) = is_ascii_only_host s.
Proof. intros. apply ascii_only_loop_fst. Qed.
Lemma is_pct_fst : forall S s, fst (k_is_pct_case_normalized S s) = is_pct_case_normalized S s.
Proof. intros. unfold k_is_pct_case_normalized, k_eq_str_display, is_pct_case_normalized. cbn [fst]. rewrite pct_display_fst. reflexivity. Qed.
Lemma is_normalized_fst : forall S i mode, fst (k_is_normalized S i mode) = is_normalized S i mode.
Proof.
  intros S i mode. unfold k_is_normalized, is_normalized. rewrite kand_fst, colon_fst. destruct (scheme_colon i) as [[i1 sc]|e|]; cbn [bind]; try reflexivity.
  rewrite kbind_fst, slash_fst. destruct (slash_slash_authority_opt i1) as [i2 au]. rewrite kbind_fst, until_fst. destruct (until_query i2) as [i3 pa].
  rewrite kbind_fst. cbn [fst]. destruct (existsb is_upper sc); [reflexivity|]. rewrite kand_fst.
  match goal with |- match fst ?x with _ => _ end = bind ?y _ => assert (E : fst x = y) end.
  { destruct au as [a|]; [|reflexivity]. rewrite kbind_fst, authority_split_fst, kand_fst. cbn [kret fst]. destruct (ac_host (decompose_authority a)) as [h|e|]; cbn [bind]; try reflexivity.
    rewrite kand_fst, ascii_only_fst. destruct (is_ascii_only_host h) as [ao|e|]; cbn [bind]; try reflexivity. rewrite kand_fst.
    destruct ao; [unfold k_eq_str_display; cbn [fst]; rewrite ascii_host_fst; destruct (eq_str_display h (NormalizedAsciiOnlyHost h)) as [hn|e|]
      | rewrite is_pct_fst; destruct (is_pct_case_normalized S h) as [hn|e|]]; cbn [bind]; try reflexivity;
    (destruct (negb hn); [reflexivity|]; rewrite kand_fst; cbn [kret fst]; destruct (ac_userinfo (decompose_authority a)) as [[u|]|e|]; cbn [bind]; try reflexivity; apply is_pct_fst). }
  rewrite E. match goal with |- match ?y with _ => _ end = _ => destruct y as [ok|e|] end; cbn [bind]; try reflexivity. destruct (negb ok); [reflexivity|].
  rewrite kbind_fst. match goal with |- fst (kbind match ?x with _ => _ end _) = (if match ?y with _ => _ end then _ else _) => assert (E2 : x = y) end.
  { destruct (is_some au); [reflexivity|]. destruct mode; try reflexivity. rewrite kbind_fst. cbn [k_starts fst]. destruct (starts_with [SLASH] pa); reflexivity. }
  rewrite E2. match goal with |- context [match ?y with Some p => existsb _ (split_slash p) | None => false end] => destruct y as [p|] end.
  - rewrite kbind_fst. cbn [k_dots fst]. destruct (existsb _ (split_slash p)); [reflexivity|]. apply is_pct_fst.
  - rewrite kbind_fst. cbn [kret fst]. apply is_pct_fst.
Qed.
(** Decoding. *)
Lemma fragments_next_fst : forall b, fst (k_fragments_next b) = fragments_next b.
Proof.
  intros [|c r]; [reflexivity|]. unfold k_fragments_next, fragments_next. rewrite kbind_fst. destruct (c =? PCT)%N.
  - rewrite kand_fst. cbn [k_strip_decode fst]. destruct (strip_decode_xdigits2 r) as [[o x]|e|]; reflexivity.
  - rewrite kbind_fst. reflexivity.
Qed.
Lemma fragments_collect_fst : forall fuel b, fst (k_fragments_collect fuel b) = fragments_collect fuel b.
Proof.
  induction fuel as [|fuel IH]; intros b; [reflexivity|]. cbn [k_fragments_collect fragments_collect]. rewrite kand_fst, fragments_next_fst.
  destruct (fragments_next b) as [[[f r]|]|e|]; cbn [bind]; try reflexivity. rewrite kand_fst, IH. destruct (fragments_collect fuel r); reflexivity.
Qed.
Lemma fragments_fst : forall b, fst (k_bytes_fragments b) = bytes_fragments b.
Proof. intros. apply fragments_collect_fst. Qed.
Lemma non_alloc_fst : forall fuel b, fst (k_non_allocating_loop fuel b) = non_allocating_loop fuel b.
Proof.
  induction fuel as [|fuel IH]; intros b; [reflexivity|]. cbn [k_non_allocating_loop non_allocating_loop]. destruct (is_empty b); [reflexivity|].
  rewrite kbind_fst, hole_fst. destruct (find_split_hole b PCT) as [[x y]|]; [|reflexivity]. rewrite kand_fst. cbn [k_strip_decode fst].
  destruct (strip_decode_xdigits2 y) as [[[d|] r]|e|]; cbn [bind]; try reflexivity. apply IH.
Qed.
Lemma into_loop_fst : forall fuel acc b, fst (k_into_bytes_loop fuel acc b) = into_bytes_loop fuel acc b.
Proof.
  induction fuel as [|fuel IH]; intros acc b; [reflexivity|]. cbn [k_into_bytes_loop into_bytes_loop]. destruct (is_empty b); [reflexivity|].
  rewrite kbind_fst, hole_fst. destruct (find_split_hole b PCT) as [[x y]|]; [|reflexivity]. rewrite kand_fst. cbn [k_strip_decode fst].
  destruct (strip_decode_xdigits2 y) as [[o r]|e|]; cbn [bind]; try reflexivity. rewrite kbind_fst. apply IH.
Qed.
Lemma to_bytes_fst : forall b, fst (k_to_bytes b) = to_bytes b.
Proof. intros. unfold k_to_bytes, to_bytes, try_non_allocating_decode. rewrite kand_fst, non_alloc_fst. destruct (non_allocating_loop _ b); reflexivity. Qed.
Lemma into_bytes_fst : forall b, fst (k_into_bytes b) = into_bytes b.
Proof.
  intros. unfold k_into_bytes, into_bytes, try_non_allocating_decode. rewrite kand_fst, non_alloc_fst. destruct (non_allocating_loop _ b) as [[[[n d] r]|]|e|]; cbn [bind]; try reflexivity.
  rewrite kand_fst. cbn [fst]. destruct (slice_p b 0 n); cbn [bind]; try reflexivity. apply into_loop_fst.
Qed.
