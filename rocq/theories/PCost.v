(** * Proofs about the counting validators (MCost.v). *)
From Verif Require Import Base Chars Utf8 MValidate MTrusted MFormat MSearch MPct MEncode MTemplate MCost PBase.
Open Scope nat_scope.

(** ** The results *)
Lemma kand_fst : forall E A B (x : K (res E A)) (f : A -> K (res E B)),
  fst (kand x f) = match fst x with Ok a => fst (f a) | Err e => Err e | Panic => Panic end.
Proof. intros E A B [[a|e|] n] f; reflexivity. Qed.
Lemma kbind_fst : forall A B (x : K A) (f : A -> K B), fst (kbind x f) = fst (f (fst x)).
Proof. reflexivity. Qed.
Lemma k_satisfy_fst : forall pa pn s, fst (k_satisfy pa pn s) = satisfy_chars_with_pct_encoded pa pn s.
Proof.
  intros pa pn s. remember (length s) as n eqn:En. assert (Hn : length s <= n) by lia. clear En. revert s Hn.
  induction n as [|n IH]; intros [|c r] Hn; cbn [length] in Hn; try reflexivity; try lia.
  cbn [k_satisfy satisfy_chars_with_pct_encoded].
  destruct (is_ascii c); [destruct (c =? PCT)%N|].
  - destruct r as [|u [|l r2]]; cbn [length] in Hn; repeat (destruct (is_hexdigit _)); try reflexivity.
    rewrite kbind_fst. cbn [fst]. apply IH. lia.
  - destruct (pa c); [|reflexivity]. rewrite kbind_fst. cbn [fst]. apply IH. lia.
  - destruct (pn c); [|reflexivity]. rewrite kbind_fst. cbn [fst]. apply IH. lia.
Qed.
Ltac kf := repeat first
  [ rewrite kand_fst | rewrite kbind_fst | rewrite k_satisfy_fst
  | progress unfold vres, tres, kret, k_first, k_last, k_all, k_position, k_wrapped_inner, k_strip_char, k_strip, k_starts, k_find_split, k_find_split_hole,
      k_find_split2_hole, k_rfind_split_hole, k_dec_octet, k_check
  | progress cbn [fst snd andb negb bind] ].
Lemma k_scheme_fst : forall i, fst (k_scheme i) = validate_scheme i.
Proof. intros [|c r]; [reflexivity|]. unfold k_scheme, validate_scheme. kf. destruct (is_alpha c); kf; reflexivity. Qed.
Lemma k_query_fst : forall S i, fst (k_query S i) = validate_query S i.
Proof. intros. unfold k_query, validate_query. kf. reflexivity. Qed.
Lemma k_fragment_fst : forall S i, fst (k_fragment S i) = validate_fragment S i.
Proof. intros. unfold k_fragment, validate_fragment. kf. reflexivity. Qed.
Lemma k_userinfo_fst : forall S i, fst (k_userinfo S i) = validate_userinfo S i.
Proof. intros. unfold k_userinfo, validate_userinfo. kf. reflexivity. Qed.
Lemma k_ipv4address_fst : forall i, fst (k_ipv4address i) = validate_ipv4address i.
Proof.
  intros i. unfold k_ipv4address, validate_ipv4address, find_split_hole. kf.
  destruct (split_first _ i) as [[[a c] b]|]; kf; [|reflexivity]. destruct (is_dec_octet a); kf; [|reflexivity].
  destruct (split_first _ b) as [[[a2 c2] b2]|]; kf; [|reflexivity]. destruct (is_dec_octet a2); kf; [|reflexivity].
  destruct (split_first _ b2) as [[[a3 c3] b3]|]; kf; [|reflexivity]. destruct (is_dec_octet a3); kf; reflexivity.
Qed.
Lemma k_split_v6_fst : forall i, fst (k_split_v6_addr_part i) = split_v6_addr_part i.
Proof.
  intros i. unfold k_split_v6_addr_part, split_v6_addr_part, find_split_hole. kf.
  destruct (split_first _ i) as [[[a c] b]|]; kf.
  - destruct (Nat.leb 5 (blen a)); kf; [reflexivity|]. destruct (is_empty a); kf; [reflexivity|].
    destruct (forallb is_hexdigit a); kf; reflexivity.
  - destruct (Nat.leb 5 (blen i)); kf; [|reflexivity]. rewrite k_ipv4address_fst. destruct (validate_ipv4address i); reflexivity.
Qed.
Lemma k_v6_loop_fst : forall fuel i h o, fst (k_v6_loop fuel i h o) = v6_loop fuel i h o.
Proof.
  induction fuel as [|fuel IH]; intros i h o; [reflexivity|]. cbn [k_v6_loop v6_loop].
  destruct (is_empty i); [reflexivity|]. kf. rewrite k_split_v6_fst.
  destruct (split_v6_addr_part i) as [[rest part]|e|]; try reflexivity.
  cbn [bind]. destruct part; kf; try reflexivity; try destruct o; kf; try reflexivity;
    try (destruct (is_empty rest); kf; try reflexivity);
    match goal with |- context [Nat.ltb 8 ?n] => destruct (Nat.ltb 8 n) end; kf; try reflexivity; apply IH.
Qed.
Lemma k_host_fst : forall S i, fst (k_host S i) = validate_host S i.
Proof.
  intros S i. unfold k_host, validate_host, find_split_hole. kf.
  destruct (get_wrapped_inner i LBRACK RBRACK) as [m|]; kf; [|reflexivity].
  destruct (strip_ascii_char_prefix m 118) as [r|]; kf; [|destruct (strip_ascii_char_prefix m 86) as [r|]; kf; [|apply k_v6_loop_fst]].
  all: destruct (split_first _ r) as [[[a c] b]|]; kf; [|reflexivity].
  all: destruct (is_empty a); cbn [orb]; kf; [reflexivity|]; destruct (forallb is_hexdigit a); cbn [negb]; kf; [|reflexivity].
  all: unfold all_ascii; destruct (is_empty b); kf; [reflexivity|]; destruct (forallb is_ascii b); kf; reflexivity.
Qed.
Lemma k_authority_fst : forall S i, fst (k_authority S i) = validate_authority S i.
Proof.
  intros S i. unfold k_authority, validate_authority, find_split_hole, rfind_split_hole. kf.
  destruct (split_first _ i) as [[[a c] b]|]; kf.
  - rewrite k_userinfo_fst. destruct (validate_userinfo S a); kf; try reflexivity. rewrite k_host_fst. f_equal.
    destruct (split_last _ b) as [[[a2 c2] b2]|]; kf; reflexivity.
  - rewrite k_host_fst. f_equal. destruct (split_last _ i) as [[[a2 c2] b2]|]; kf; reflexivity.
Qed.
Lemma k_path_chars_fst : forall S i, fst (k_path_chars S i) = check (path_chars_ok S i) InvalidPath.
Proof. intros. unfold k_path_chars. kf. reflexivity. Qed.
Lemma k_path_abempty_fst : forall S i, fst (k_path_abempty S i) = validate_path_abempty S i.
Proof.
  intros. unfold k_path_abempty, validate_path_abempty. destruct (is_empty i); kf; [reflexivity|].
  destruct (strip_prefix [SLASH] i); [apply k_path_chars_fst|reflexivity].
Qed.
Lemma k_path_absolute_fst : forall S i, fst (k_path_absolute_authority_absent S i) = validate_path_absolute_authority_absent S i.
Proof.
  intros. unfold k_path_absolute_authority_absent, validate_path_absolute_authority_absent. destruct (is_empty i); kf; [reflexivity|].
  destruct (starts_with _ i); [reflexivity|apply k_path_chars_fst].
Qed.
Lemma k_path_relative_fst : forall S i, fst (k_path_relative_authority_absent S i) = validate_path_relative_authority_absent S i.
Proof.
  intros. unfold k_path_relative_authority_absent, validate_path_relative_authority_absent, find_split2_hole. kf.
  destruct (starts_with _ i); kf; [reflexivity|]. destruct (split_first _ i) as [[[a c] b]|]; [|apply k_path_chars_fst].
  destruct (c =? SLASH)%N; [apply k_path_chars_fst|reflexivity].
Qed.
Lemma k_authority_path_fst : forall S i, fst (k_authority_path_abempty S i) = validate_authority_path_abempty S i.
Proof.
  intros. unfold k_authority_path_abempty, validate_authority_path_abempty, find_split. kf.
  destruct (split_first _ i) as [[[a c] b]|]; kf; rewrite k_authority_fst; destruct (validate_authority S _); try reflexivity; apply k_path_abempty_fst.
Qed.
Lemma k_after_path_fst : forall S c r a, fst (k_after_path S c r a) = validate_after_path S c r a.
Proof.
  intros. unfold k_after_path, validate_after_path, find_split_hole. kf. destruct (c =? QMARK)%N; kf;
    [destruct (split_first _ r) as [[[x y] z]|]; kf|]; rewrite k_query_fst; destruct (validate_query S _); kf; try reflexivity;
    match goal with |- context [if ?b then _ else _] => destruct b end; kf; try reflexivity; apply k_fragment_fst.
Qed.
Lemma k_after_scheme_fst : forall S kp pv a i, (forall x, fst (kp x) = pv x) -> fst (k_after_scheme S kp a i) = validate_after_scheme S pv a i.
Proof.
  intros S kp pv a i H. unfold k_after_scheme, validate_after_scheme, find_split2_hole. kf.
  destruct (strip_prefix [SLASH; SLASH] i) as [j|]; kf.
  - destruct (split_first _ j) as [[[x y] z]|]; kf; rewrite k_authority_path_fst; destruct (validate_authority_path_abempty S _); kf; try reflexivity; apply k_after_path_fst.
  - destruct (split_first _ i) as [[[x y] z]|]; kf; rewrite H; destruct (pv _); kf; try reflexivity; apply k_after_path_fst.
Qed.
Lemma k_relative_ref_fst : forall S i, fst (k_relative_ref S i) = validate_relative_ref S i.
Proof. intros. apply k_after_scheme_fst. apply k_path_relative_fst. Qed.
Lemma k_common_fst : forall S i r, fst (k_uri_reference_common S i r) = validate_uri_reference_common S i r.
Proof.
  intros. unfold k_uri_reference_common, validate_uri_reference_common, find_split_hole. kf.
  destruct (split_first _ i) as [[[x y] z]|]; kf.
  - rewrite k_scheme_fst. destruct (is_err (validate_scheme x)).
    + destruct (is_relative_allowed r); [apply k_relative_ref_fst|reflexivity].
    + apply k_after_scheme_fst. apply k_path_absolute_fst.
  - destruct (is_relative_allowed r); [apply k_relative_ref_fst|reflexivity].
Qed.
Lemma k_validate_fst : forall S t s, fst (k_validate S t s) = validate S t s.
Proof. intros S [] s; solve [apply k_common_fst | apply k_relative_ref_fst | apply k_query_fst | apply k_fragment_fst]. Qed.

Lemma k_literal_fst : forall s o, fst (k_literal s o) = validate_literal s o.
Proof. reflexivity. Qed.
Lemma k_varname_fst : forall s o, fst (k_varname s o) = validate_varname s o.
Proof.
  intros. unfold k_varname, validate_varname. kf.
  match goal with |- match ?x with _ => _ end = _ => destruct x end; kf; reflexivity.
Qed.
Lemma k_varspec_fst : forall s o, fst (k_varspec s o) = validate_varspec s o.
Proof.
  intros. unfold k_varspec, validate_varspec, find_split2_hole. kf.
  destruct (split_first _ s) as [[[x y] z]|]; [|apply k_varname_fst].
  destruct (y =? COLON)%N; kf; [|destruct (y =? STAR)%N; kf; [|reflexivity]]; rewrite k_varname_fst; destruct (validate_varname x o); try reflexivity; kf.
  destruct (Nat.leb 1 (blen z) && Nat.leb (blen z) 5); reflexivity.
Qed.
Lemma k_varspecs_fst : forall l n o, fst (k_varspecs n l o) = validate_varspecs n l o.
Proof.
  induction l as [|v l IH]; intros; [reflexivity|]. cbn [k_varspecs validate_varspecs]. kf. rewrite k_varspec_fst.
  destruct (validate_varspec v _); try reflexivity. apply IH.
Qed.
Lemma k_expr_body_fst : forall s o, fst (k_expr_body s o) = validate_expr_body s o.
Proof.
  intros. unfold k_expr_body, validate_expr_body. destruct (utf8s s) as [|b r]; [reflexivity|]. kf.
  destruct (MaybeOperator_from_byte b) as [[]|]; kf; try reflexivity; [|apply k_varspecs_fst].
  destruct (tlift (str_from s 1)); try reflexivity. apply k_varspecs_fst.
Qed.
Lemma k_template_loop_fst : forall fuel s r o, fst (k_template_loop fuel s r o) = validate_template_loop fuel s r o.
Proof.
  induction fuel as [|fuel IH]; intros; [reflexivity|]. cbn [k_template_loop validate_template_loop].
  destruct (is_empty r); [reflexivity|]. unfold find_split2_hole. kf. destruct (split_first _ r) as [[[x y] z]|]; [|apply k_literal_fst].
  kf. destruct (y =? PCT)%N; kf; [|destruct (y =? LBRACE)%N; kf; [|reflexivity]]; rewrite k_literal_fst; destruct (validate_literal x o); kf; try reflexivity.
  - destruct (Nat.ltb (blen z) 2); kf; [reflexivity|]. destruct (tlift (str_split_at z 2)) as [[p q]| |]; kf; try reflexivity.
    destruct (tlift (byte_at (utf8s p) 0)) as [x0| |]; kf; try reflexivity. destruct (is_hexdigit x0); kf; [|reflexivity].
    destruct (tlift (byte_at (utf8s p) 1)) as [x1| |]; kf; try reflexivity. destruct (is_hexdigit x1); kf; [|reflexivity]. apply IH.
  - unfold find_split_hole. destruct (split_first _ z) as [[[e f] g]|]; kf; [|reflexivity]. rewrite k_expr_body_fst.
    destruct (validate_expr_body e _); kf; try reflexivity. apply IH.
Qed.
Lemma k_template_fst : forall s, fst (k_template s) = validate_template_str s.
Proof. intros. apply k_template_loop_fst. Qed.
