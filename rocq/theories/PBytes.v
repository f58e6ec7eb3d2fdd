(** * Proofs for C78: the validators on bytes. *)
From Verif Require Import Base Chars Rfc3986 Utf8 SearchSpec MValidate MTrusted MFormat MSearch MPct MNormalize MOffset MBytes PBase PSearch PScan PHost PAuth PValidate PAscii PTypes PErr POffset POffset7.

(** ** Bytes and characters *)
Lemma utf8s_cons c r : utf8s (c :: r) = utf8 c ++ utf8s r.
Proof. reflexivity. Qed.
Lemma ascii_bytes s : Forall (fun c => c < 128) s -> utf8s s = s.
Proof. induction 1 as [|c s H _ IH]; [reflexivity|]. rewrite utf8s_cons, utf8_ascii_eq, IH by exact H. reflexivity. Qed.
Lemma bytes_ascii s : Forall (fun c => c < 128) (utf8s s) -> Forall (fun c => c < 128) s.
Proof.
  induction s as [|c s IH]; [constructor|]. rewrite utf8s_cons. intros H. apply Forall_app in H. destruct H as [A B]. constructor; [|now apply IH].
  destruct (c <? 128) eqn:E; [now apply N.ltb_lt|]. apply N.ltb_ge in E. pose proof (utf8_high c E) as F. destruct (utf8 c) as [|b l] eqn:U.
  - pose proof (utf8_len c) as L. rewrite U in L. pose proof (clen_pos c). cbn in L. lia.
  - inversion A. inversion F. lia.
Qed.
Lemma on_bytes (f : list N -> bool) : (forall l, f l = true -> Forall (fun c => c < 128) l) -> forall s, f (utf8s s) = f s.
Proof.
  intros H s. destruct (f (utf8s s)) eqn:E.
  - assert (A := bytes_ascii _ (H _ E)). now rewrite ascii_bytes in E.
  - destruct (f s) eqn:F; [|reflexivity]. now rewrite (ascii_bytes s), F in E by now apply H.
Qed.
Lemma all_on_bytes (p : N -> bool) : (forall c, p c = true -> c < 128) -> forall s, forallb p (utf8s s) = forallb p s.
Proof. intros H. apply on_bytes. intros l E. rewrite forallb_forall in E. apply Forall_forall. auto. Qed.
Lemma hex_ascii c : is_hexdigit c = true -> c < 128.
Proof. unfold is_hexdigit, is_digit, between. rewrite !orb_true_iff, !andb_true_iff, !N.leb_le. lia. Qed.
Lemma digit_ascii c : is_digit c = true -> c < 128.
Proof. unfold is_digit, between. rewrite !andb_true_iff, !N.leb_le. lia. Qed.
Lemma alpha_ascii c : is_alpha c = true -> c < 128.
Proof. unfold is_alpha, is_upper, is_lower, between. rewrite !orb_true_iff, !andb_true_iff, !N.leb_le. lia. Qed.
Lemma octet_bytes s : is_dec_octet (utf8s s) = is_dec_octet s.
Proof.
  apply on_bytes. intros l E. assert (B : forall a b c, b < 128 -> between a b c = true -> c < 128) by (intros a b c Hb; unfold between; rewrite andb_true_iff, !N.leb_le; lia).
  destruct l as [|a [|b [|c [|d l]]]]; try discriminate; cbn [is_dec_octet] in E.
  - repeat constructor. eapply B; [|exact E]. reflexivity.
  - apply andb_true_iff in E. destruct E. repeat constructor; (eapply B; [|eassumption]); reflexivity.
  - rewrite !orb_true_iff, !andb_true_iff, !N.eqb_eq in E. repeat constructor; destruct E as [[[[-> E1] E2]|[[-> E1] E2]]|[[-> E1] E2]]; subst; try reflexivity; (eapply B; [|eassumption]); reflexivity.
Qed.
Lemma all_bytes_look (p : N -> bool) l : Forall (fun c => c < 128) l -> all_bytes (look p) l = Ok (forallb p l).
Proof. induction 1 as [|b l H _ IH]; [reflexivity|]. cbn [all_bytes forallb]. unfold look at 1. rewrite (proj2 (N.ltb_lt _ _) H). cbn [bind]. rewrite IH. now destruct (p b). Qed.
Lemma satisfy_eq pa pn s : b_satisfy pa pn s = Ok (satisfy_chars_with_pct_encoded pa pn s).
Proof.
  remember (length s) as n. revert s Heqn. induction n as [n IH] using (well_founded_induction Nat.lt_wf_0). intros s ->. destruct s as [|c r]; [reflexivity|].
  cbn [b_satisfy satisfy_chars_with_pct_encoded]. unfold is_ascii. destruct (c <? 128) eqn:Ec.
  - destruct (c =? PCT).
    + destruct r as [|u [|l r]]; [reflexivity|now destruct (is_hexdigit u)|]. destruct (is_hexdigit u); [|reflexivity]. destruct (is_hexdigit l); [|reflexivity]. eapply IH; [|reflexivity]. cbn. lia.
    + unfold look. rewrite Ec. cbn [bind]. destruct (pa c); [|reflexivity]. eapply IH; [|reflexivity]. cbn. lia.
  - destruct (pn c); [|reflexivity]. eapply IH; [|reflexivity]. cbn. lia.
Qed.
Lemma chars_eq pa pn k i : b_chars pa pn k i = check (satisfy_chars_with_pct_encoded pa pn i) k.
Proof. unfold b_chars. now rewrite satisfy_eq. Qed.
Lemma strip_eq s p : p < 128 -> b_strip_ascii_char_prefix s p = Ok (strip_ascii_char_prefix s p).
Proof.
  intros Hp. unfold b_strip_ascii_char_prefix. destruct (first_byte_str s) as [[E ->]|(c & r & b & l & Es & E & F)]; [reflexivity|]. rewrite E, F by exact Hp. subst s.
  cbn [strip_ascii_char_prefix]. destruct (c =? p) eqn:Ec; [|reflexivity]. apply N.eqb_eq in Ec. subst c. rewrite (str_from_mid (p :: r) [p] r); [reflexivity|reflexivity|now rewrite blen_ascii].
Qed.
Lemma last_of_bytes x c n : n < 128 -> (last (utf8s (x ++ [c])) 0 =? n) = (c =? n).
Proof.
  intros Hn. rewrite utf8s_app. cbn [utf8s flat_map]. rewrite app_nil_r. change (flat_map utf8 x) with (utf8s x).
  assert (La : forall (u v : list N), v <> [] -> last (u ++ v) 0 = last v 0).
  { induction u as [|a u IH]; intros v Hv; [reflexivity|]. cbn [app]. rewrite <- (IH v Hv). destruct (u ++ v) eqn:E; [|reflexivity]. apply app_eq_nil in E. now destruct E. }
  destruct (c <? 128) eqn:E.
  - apply N.ltb_lt in E. rewrite utf8_ascii_eq, La by (exact E || discriminate). reflexivity.
  - apply N.ltb_ge in E. pose proof (utf8_high c E) as F. assert (U : utf8 c <> []). { intros U. pose proof (utf8_len c) as L. rewrite U in L. pose proof (clen_pos c). cbn in L. lia. }
    rewrite La by exact U. assert (128 <= last (utf8 c) 0). { rewrite Forall_forall in F. apply F. clear - U. induction (utf8 c) as [|a l IH]; [congruence|]. destruct l; [now left|]. right. now apply IH. }
    rewrite (proj2 (N.eqb_neq _ _)), (proj2 (N.eqb_neq c n)); [reflexivity| |]; lia.
Qed.
Lemma wrapped_eq s o c : o < 128 -> c < 128 -> b_get_wrapped_inner s o c = Ok (get_wrapped_inner s o c).
Proof.
  intros Ho Hc. unfold b_get_wrapped_inner, get_wrapped_inner. destruct s as [|p r]; [reflexivity|]. destruct (first_byte p) as (b & l & Eb & F). rewrite utf8s_cons, Eb. cbn [app].
  destruct r as [|q0 r0] using rev_ind; [|clear IHr0].
  - cbn [rev]. cbn [utf8s flat_map]. rewrite app_nil_r. destruct l as [|b' l']; [reflexivity|]. rewrite F by exact Ho. destruct (p =? o) eqn:E; [|reflexivity]. apply N.eqb_eq in E. subst p. rewrite utf8_ascii_eq in Eb by exact Ho. discriminate.
  - rewrite rev_app_distr. cbn [rev app]. rewrite rev_involutive.
    assert (L : exists y z, l ++ utf8s (r0 ++ [q0]) = y :: z).
    { destruct (l ++ utf8s (r0 ++ [q0])) as [|y z] eqn:E; [|eauto]. apply app_eq_nil in E. destruct E as [_ E]. apply (f_equal (@length N)) in E. rewrite utf8s_len, blen_app, blen_cons in E. pose proof (clen_pos q0). cbn in E. lia. }
    destruct L as (y & z & L). rewrite L. rewrite F by exact Ho.
    assert (La : last (y :: z) 0 = last (utf8s (r0 ++ [q0])) 0).
    { rewrite <- L. assert (U : utf8s (r0 ++ [q0]) <> []) by (intros E; apply (f_equal (@length N)) in E; rewrite utf8s_len, blen_app, blen_cons in E; pose proof (clen_pos q0); cbn in E; lia).
      clear - U. induction l as [|a l IH]; [reflexivity|]. cbn [app]. rewrite <- IH. destruct (l ++ utf8s (r0 ++ [q0])) eqn:E; [|reflexivity]. apply app_eq_nil in E. now destruct E. }
    rewrite La, last_of_bytes by exact Hc. destruct (p =? o) eqn:Ep; [|reflexivity]. destruct (q0 =? c) eqn:Eq; [|reflexivity]. apply N.eqb_eq in Ep, Eq. subst p q0. cbn [andb].
    rewrite (bslice_mid (o :: r0 ++ [c]) [o] r0 [c]); [reflexivity|reflexivity|now rewrite blen_ascii|]. rewrite blen_cons, blen_app, !blen_ascii by assumption.
    assert (clen o = 1%nat) as -> by (rewrite <- utf8_len, utf8_ascii_eq by exact Ho; reflexivity). lia.
Qed.
Lemma scheme_eq i : b_validate_scheme i = validate_scheme i.
Proof.
  unfold b_validate_scheme, validate_scheme. destruct i as [|c r]; [reflexivity|]. rewrite utf8s_cons. destruct (is_alpha c) eqn:Ea.
  - rewrite utf8_ascii_eq by now apply alpha_ascii. cbn [app]. rewrite Ea. cbn [andb].
    assert (G : forall l, all_bytes (fun b => if b <? 128 then look is_ascii_scheme_continue b else Ok false) l = Ok (forallb (fun b => is_ascii b && is_ascii_scheme_continue b) l)).
    { induction l as [|b l IH]; [reflexivity|]. cbn [all_bytes forallb]. unfold is_ascii at 1. destruct (b <? 128) eqn:E; [|reflexivity]. unfold look at 1. rewrite E. cbn [bind andb]. rewrite IH. now destruct (is_ascii_scheme_continue b). }
    rewrite G, all_on_bytes; [reflexivity|]. intros b E. apply andb_true_iff in E. now apply N.ltb_lt.
  - cbn [andb]. destruct (first_byte c) as (b & l & Eb & F). rewrite Eb. cbn [app]. destruct (is_alpha b) eqn:E; [|reflexivity]. exfalso.
    assert (B := alpha_ascii _ E). specialize (F b B). rewrite N.eqb_refl in F. symmetry in F. apply N.eqb_eq in F. congruence.
Qed.

Section M.
Context (m : option memchr_crate) (Hm : sound m).
Lemma fs_eq s n : n < 128 -> fs m s n = Ok (find_split s n).
Proof. intros Hn. destruct m as [c|]; [exact (proj2 (find_split_agree c s n Hm Hn))|exact (proj1 (find_split_agree _ s n simple_contract Hn))]. Qed.
Lemma fs2_hole_eq s a b : a < 128 -> b < 128 -> fs2_hole m s a b = Ok (find_split2_hole s a b).
Proof. intros Ha Hb. destruct m as [c|]; [exact (proj2 (find_split2_hole_agree c s a b Hm Ha Hb))|exact (proj1 (find_split2_hole_agree _ s a b simple_contract Ha Hb))]. Qed.
Ltac hole := rewrite (fs_hole_eq m) by (exact Hm || reflexivity); cbn [up bind].

Lemma v4_eq i : b_validate_ipv4address m i = validate_ipv4address i.
Proof.
  unfold b_validate_ipv4address, validate_ipv4address. hole. destruct (find_split_hole i DOT) as [[o0 r]|]; [|reflexivity]. rewrite octet_bytes. destruct (negb _); [reflexivity|].
  hole. destruct (find_split_hole r DOT) as [[o1 r']|]; [|reflexivity]. rewrite octet_bytes. destruct (negb _); [reflexivity|].
  hole. destruct (find_split_hole r' DOT) as [[o2 o3]|]; [|reflexivity]. now rewrite !octet_bytes.
Qed.
Lemma part_eq i : i <> [] -> b_split_v6_addr_part m i = split_v6_addr_part i.
Proof.
  intros Hi. unfold b_split_v6_addr_part, split_v6_addr_part. destruct i as [|c0 i0]; [congruence|]. cbn [is_empty]. set (i := c0 :: i0). hole. destruct (find_split_hole i COLON) as [[p r]|].
  - destruct (Nat.leb 5 (blen p)) eqn:E5; [reflexivity|]. rewrite strip_eq by reflexivity. cbn [up bind]. destruct p as [|c p]; [reflexivity|]. cbn [is_empty].
    assert (1 <= blen (c :: p))%nat by (rewrite blen_cons; pose proof (clen_pos c); lia). apply Nat.leb_gt in E5. rewrite (proj2 (Nat.leb_le 1 _)), (proj2 (Nat.leb_le _ 4)) by lia. cbn [andb negb].
    rewrite all_on_bytes by exact hex_ascii. reflexivity.
  - rewrite v4_eq, all_on_bytes by exact hex_ascii. reflexivity.
Qed.
Lemma v4_rest i r : split_v6_addr_part i = Ok (r, V4) -> r = [].
Proof.
  unfold split_v6_addr_part. destruct (find_split_hole i COLON) as [[p q]|].
  - destruct (Nat.leb 5 _); [discriminate|]. destruct (is_empty p); [destruct (strip_ascii_char_prefix q COLON); discriminate|]. destruct (negb _); [discriminate|]. destruct (strip_ascii_char_prefix q COLON); discriminate.
  - destruct (Nat.leb 5 _); [destruct (validate_ipv4address i); [|discriminate..]; now intros [= <-]|]. destruct (forallb _ i); discriminate.
Qed.
Lemma v6_eq f : forall i h o, b_v6_loop m f i h o = v6_loop f i h o.
Proof.
  induction f as [|f IH]; intros i h o; [reflexivity|]. cbn [b_v6_loop v6_loop]. destruct i as [|c i]; [reflexivity|]. rewrite part_eq by discriminate. cbn [is_empty].
  destruct (split_v6_addr_part (c :: i)) as [[r p]|e|] eqn:E; try reflexivity. cbn [bind]. destruct p; rewrite ?IH; try reflexivity.
  apply v4_rest in E. now subst r.
Qed.
Lemma host_eq S i : b_validate_host m S i = validate_host S i.
Proof.
  unfold b_validate_host, validate_host. rewrite wrapped_eq by reflexivity. cbn [up bind]. destruct (get_wrapped_inner i LBRACK RBRACK) as [a|]; [|apply chars_eq].
  rewrite !strip_eq by reflexivity. cbn [up bind].
  assert (E : (match strip_ascii_char_prefix a 118 with Some r => Ok (Some r) | None => Ok (strip_ascii_char_prefix a 86) end : res ErrorKind (option str)) = Ok (match strip_ascii_char_prefix a 118 with Some r => Some r | None => strip_ascii_char_prefix a 86 end)) by now destruct (strip_ascii_char_prefix a 118).
  rewrite E. cbn [bind]. destruct (match strip_ascii_char_prefix a 118 with Some r => Some r | None => strip_ascii_char_prefix a 86 end) as [r|]; [|apply v6_eq].
  hole. destruct (find_split_hole r DOT) as [[v ad]|]; [|reflexivity]. rewrite all_on_bytes by exact hex_ascii. destruct (is_empty v || negb _); [reflexivity|].
  rewrite (all_on_bytes (fun b => b <? 128)) by (intros c; now apply N.ltb_lt). unfold all_ascii. change (forallb is_ascii ad) with (forallb (fun b => b <? 128) ad).
  destruct (is_empty ad); [reflexivity|]. cbn [negb andb]. destruct (forallb (fun b => b <? 128) ad) eqn:Ea; [|reflexivity]. 
  assert (A : Forall (fun c => c < 128) ad) by (apply Forall_forall; rewrite forallb_forall in Ea; intros c Hc; now apply N.ltb_lt, Ea).
  rewrite (ascii_bytes _ A), all_bytes_look by exact A. reflexivity.
Qed.
Lemma authority_eq S i : b_validate_authority m S i = validate_authority S i.
Proof.
  unfold b_validate_authority, validate_authority. hole. unfold b_validate_userinfo. destruct (find_split_hole i AT) as [[u r]|].
  - rewrite chars_eq. change (check _ _) with (validate_userinfo S u). destruct (validate_userinfo S u); try reflexivity. cbn [bind]. rewrite (rfs_hole_eq m Hm) by reflexivity. cbn [up bind].
    destruct (rfind_split_hole r COLON) as [[h p]|]; [|apply host_eq]. rewrite all_on_bytes by exact digit_ascii. apply host_eq.
  - cbn [bind]. rewrite (rfs_hole_eq m Hm) by reflexivity. cbn [up bind]. destruct (rfind_split_hole i COLON) as [[h p]|]; [|apply host_eq]. rewrite all_on_bytes by exact digit_ascii. apply host_eq.
Qed.
Lemma is_reg_name_eq h : b_is_host_reg_name m h = Ok (is_host_reg_name h).
Proof.
  unfold b_is_host_reg_name, is_host_reg_name. destruct (starts_with _ h); [reflexivity|]. destruct (negb _); [reflexivity|].
  rewrite (fs_hole_eq m) by (exact Hm || reflexivity). cbn [bind]. destruct (find_split_hole h DOT) as [[o0 r]|]; [|reflexivity].
  rewrite (fs_hole_eq m) by (exact Hm || reflexivity). cbn [bind]. destruct (find_split_hole r DOT) as [[o1 r']|]; [|reflexivity].
  rewrite (fs_hole_eq m) by (exact Hm || reflexivity). cbn [bind]. destruct (find_split_hole r' DOT) as [[o2 o3]|]; [|reflexivity]. now rewrite !octet_bytes.
Qed.
Lemma reg_name_eq S i : b_validate_reg_name m S i = validate_reg_name S i.
Proof. unfold b_validate_reg_name, validate_reg_name. rewrite satisfy_eq, is_reg_name_eq. cbn [up bind]. now destruct (satisfy_chars_with_pct_encoded _ _ i). Qed.
Lemma abempty_eq S i : b_validate_path_abempty S i = validate_path_abempty S i.
Proof. unfold b_validate_path_abempty, validate_path_abempty. destruct (is_empty i); [reflexivity|]. destruct (strip_prefix [SLASH] i); [apply chars_eq|reflexivity]. Qed.
Lemma absolute_eq S i : b_validate_path_absolute_authority_absent S i = validate_path_absolute_authority_absent S i.
Proof. unfold b_validate_path_absolute_authority_absent, validate_path_absolute_authority_absent. destruct (is_empty i); [reflexivity|]. destruct (starts_with _ i); [reflexivity|apply chars_eq]. Qed.
Lemma split2_which s a b x c y : find_split2_hole s a b = Some (x, c, y) -> c = a \/ c = b.
Proof. unfold find_split2_hole. intros E. apply split_first_some in E. destruct E as (_ & _ & E). apply orb_true_iff in E. rewrite !N.eqb_eq in E. exact E. Qed.
Lemma relative_eq S i : b_validate_path_relative_authority_absent m S i = validate_path_relative_authority_absent S i.
Proof.
  unfold b_validate_path_relative_authority_absent, validate_path_relative_authority_absent. destruct (starts_with _ i); [reflexivity|]. rewrite fs2_hole_eq by reflexivity. cbn [up bind].
  destruct (find_split2_hole i SLASH COLON) as [[[x c] y]|] eqn:E; [|apply chars_eq]. apply split2_which in E. destruct E as [-> | ->]; [apply chars_eq|reflexivity].
Qed.
Lemma authority_path_eq S i : b_validate_authority_path_abempty m S i = validate_authority_path_abempty S i.
Proof.
  unfold b_validate_authority_path_abempty, validate_authority_path_abempty. rewrite fs_eq by reflexivity. cbn [up bind]. destruct (match find_split i SLASH with Some v => v | None => (i, []) end) as [a p].
  rewrite authority_eq. destruct (validate_authority S a); try reflexivity. cbn [bind]. apply abempty_eq.
Qed.
Lemma after_path_eq S c r f : c = QMARK \/ c = HASH -> b_validate_after_path m S c r f = validate_after_path S c r f.
Proof.
  intros Hc. unfold b_validate_after_path, validate_after_path, b_validate_query, b_validate_fragment. destruct Hc as [-> | ->].
  - change (QMARK =? QMARK) with true. cbv iota. hole. destruct (match find_split_hole r HASH with Some v => v | None => (r, []) end) as [q g]. rewrite !chars_eq. reflexivity.
  - change (HASH =? QMARK) with false. change (HASH =? HASH) with true. cbv iota. cbn [negb bind]. rewrite !chars_eq. reflexivity.
Qed.
Lemma after_scheme_eq S v v' f i : (forall x, v x = v' x) -> b_validate_after_scheme m S v f i = validate_after_scheme S v' f i.
Proof.
  intros Hv. unfold b_validate_after_scheme, validate_after_scheme. destruct (strip_prefix [SLASH; SLASH] i) as [j|]; rewrite fs2_hole_eq by reflexivity; cbn [up bind].
  - destruct (find_split2_hole j QMARK HASH) as [[[a c] r]|] eqn:E; rewrite authority_path_eq.
    + destruct (validate_authority_path_abempty S a); try reflexivity. cbn [bind]. apply after_path_eq. eapply split2_which. exact E.
    + now destruct (validate_authority_path_abempty S j).
  - destruct (find_split2_hole i QMARK HASH) as [[[a c] r]|] eqn:E; rewrite Hv.
    + destruct (v' a); try reflexivity. cbn [bind]. apply after_path_eq. eapply split2_which. exact E.
    + now destruct (v' i).
Qed.
Lemma common_eq S i r : b_validate_uri_reference_common m S i r = validate_uri_reference_common S i r.
Proof.
  unfold b_validate_uri_reference_common, validate_uri_reference_common. hole. unfold b_validate_relative_ref, validate_relative_ref. destruct (find_split_hole i COLON) as [[s x]|].
  - rewrite scheme_eq. rewrite (after_scheme_eq S (b_validate_path_relative_authority_absent m S) (validate_path_relative_authority_absent S)) by apply relative_eq. rewrite (after_scheme_eq S (b_validate_path_absolute_authority_absent S) (validate_path_absolute_authority_absent S)) by apply absolute_eq.
    unfold validate_scheme, check. now destruct (match s with [] => false | _ => _ end).
  - rewrite (after_scheme_eq S (b_validate_path_relative_authority_absent m S) (validate_path_relative_authority_absent S)) by apply relative_eq. reflexivity.
Qed.
Lemma validate_eq S t i : b_validate m S t i = validate S t i.
Proof.
  destruct t; cbn [b_validate validate]; try apply common_eq; try apply chars_eq. apply (after_scheme_eq S _ (validate_path_relative_authority_absent S)), relative_eq.
Qed.
End M.

(** ** The statements of C78 *)
Lemma recog_ext {E A} (f g : str -> res E A) out L : (forall s, f s = g s) -> recognizes g out L -> recognizes f out L.
Proof. intros H G s. rewrite H. apply G. Qed.
Section Statements.
Context (m : option memchr_crate) (Hm : sound m) (S : Spec).
Lemma bytes_type t : recognizes (b_validate m S t) (fun _ => tt) (ty_lang S t).
Proof. apply (recog_ext _ (validate S t)); [now apply validate_eq|]. apply recog_unit; [intros; apply validate_iff|apply validate_np]. Qed.
Lemma bytes_absolute i : b_validate m S TAbsolute i <> Panic /\
  (b_validate m S TAbsolute i = Ok tt <-> absolute_IRI S i \/ exists j, i = j ++ lit "#" /\ absolute_IRI S j).
Proof.
  rewrite (validate_eq m Hm). split; [apply validate_np|]. rewrite <- absolute_new_exact. unfold new. destruct (validate S TAbsolute i) as [[]|e|]; split; try discriminate; reflexivity.
Qed.
Lemma bytes_scheme : recognizes b_validate_scheme (fun _ => tt) scheme.
Proof. apply (recog_ext _ validate_scheme); [apply scheme_eq|]. exact (recog_unit _ _ validate_scheme_iff validate_scheme_np). Qed.
Lemma bytes_authority : recognizes (b_validate_authority m S) (fun _ => tt) (authority S).
Proof. apply (recog_ext _ (validate_authority S)); [now apply authority_eq|]. exact (recog_unit _ _ (validate_authority_iff S) (validate_authority_np S)). Qed.
Lemma bytes_userinfo : recognizes (b_validate_userinfo S) (fun _ => tt) (userinfo S).
Proof. apply (recog_ext _ (validate_userinfo S)); [intros; apply chars_eq|]. exact (recog_unit _ _ (validate_userinfo_iff S) (fun s => check_np _ _)). Qed.
Lemma bytes_host : recognizes (b_validate_host m S) (fun _ => tt) (host S).
Proof. apply (recog_ext _ (validate_host S)); [now apply host_eq|]. exact (recog_unit _ _ (validate_host_iff S) (validate_host_np S)). Qed.
Lemma bytes_reg_name : recognizes (b_validate_reg_name m S) (fun _ => tt) (fun s => reg_name S s /\ ~ IPv4address s).
Proof. apply (recog_ext _ (validate_reg_name S)); [now apply reg_name_eq|]. exact (recog_unit _ _ (validate_reg_name_iff S) (fun s => check_np _ _)). Qed.
Lemma bytes_path : recognizes (b_path_chars S) (fun _ => tt) (path S).
Proof. apply (recog_ext _ (validate_path S)); [intros; apply chars_eq|]. exact (recog_unit _ _ (validate_path_iff S) (fun s => check_np _ _)). Qed.
Lemma bytes_segment : recognizes (b_validate_path_segment S) (fun _ => tt) (segment S).
Proof. apply (recog_ext _ (validate_path_segment S)); [intros; apply chars_eq|]. exact (recog_unit _ _ (validate_path_segment_iff S) (fun s => check_np _ _)). Qed.
End Statements.
