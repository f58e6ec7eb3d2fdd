(** * Proofs for C77: password, host and fragment edits. *)
From Verif Require Import Base Chars Utf8 SearchSpec MValidate MTrusted MFormat MWriters MSearch MPct MPath MNormalize MEdit MOffset PBase PSearch POffset POffset2.

Lemma find_slashes x r : ~ In SLASH x -> find_str [SLASH; SLASH] (x ++ [SLASH; SLASH] ++ r) = Some (length x) /\ o_find_str [SLASH; SLASH] (x ++ [SLASH; SLASH] ++ r) = Some (blen x).
Proof.
  induction x as [|c x IH]; intros H; [split; reflexivity|]. destruct IH as [I1 I2]; [intros K; apply H; now right|].
  assert (SW : starts_with [SLASH; SLASH] ((c :: x) ++ [SLASH; SLASH] ++ r) = false).
  { unfold starts_with. cbn [app strip_prefix]. rewrite (proj2 (N.eqb_neq SLASH c)); [reflexivity|]. intros <-. apply H. now left. }
  split.
  - change ((c :: x) ++ [SLASH; SLASH] ++ r) with (c :: (x ++ [SLASH; SLASH] ++ r)) in *. cbn [find_str]. rewrite SW, I1. reflexivity.
  - change ((c :: x) ++ [SLASH; SLASH] ++ r) with (c :: (x ++ [SLASH; SLASH] ++ r)) in *. cbn [o_find_str]. rewrite SW, I2. reflexivity.
Qed.
Section M.
Variable m : option memchr_crate.
Hypothesis Hm : sound m.
Lemma o_components_eq i : o_authority_components m i = match extract_authority i with Some a => do c <- o_decompose_authority m a ; Ok (Some c) | None => Ok None end.
Proof. unfold o_authority_components. rewrite o_extract_authority_eq by auto. reflexivity. Qed.
Lemma sch_no_slash s : match s with Some s => ~ In SLASH s | None => True end -> ~ In SLASH (sch s).
Proof. destruct s as [s|]; cbn [sch]; [|auto]. intros H K. apply in_app_or in K. destruct K as [K|[K|[]]]; [auto|discriminate K]. Qed.
Lemma ranges i : password_range_to_hide i = Ok None /\ o_password_range_to_hide m i = Ok None \/
  exists x y z, i = x ++ y ++ z /\ x <> [] /\ password_range_to_hide i = Ok (Some (length x, (length x + length y)%nat)) /\
    o_password_range_to_hide m i = Ok (Some (blen x, (blen x + blen y)%nat)).
Proof.
  destruct (scheme_pieces i) as [E1 Ns]. pose proof (authority_pieces (fst (scheme_colon_opt i))) as E2. apply sch_no_slash in Ns.
  unfold password_range_to_hide, o_password_range_to_hide. rewrite o_components_eq. unfold authority_components. unfold extract_authority.
  destruct (snd (slash_slash_authority_opt (fst (scheme_colon_opt i)))) as [a|]; [|now left]. cbn [bind aut] in *.
  set (r := fst (slash_slash_authority_opt _)) in *. set (s := sch _) in *. clearbody s r. rewrite E2 in E1. clear E2.
  destruct (auth_pieces m Hm a) as (ui & h & po & Ea & Ec & Eb & Ui & Po). destruct (auth_accessors m Hm a) as (b & Eb' & _ & Eu & _). rewrite Eb'. cbn [bind]. rewrite Eu. clear Eu b Eb' Eb. rewrite Ec. clear Ec.
  unfold ac_userinfo. cbn [host_start au_str]. destruct Ui as [-> | (u & ->)]; [now left|]. right.
  rewrite app_length. change (length [AT]) with 1%nat. rewrite Nat.add_1_r. rewrite <- app_assoc in Ea. cbn [app] in Ea.
  cbv beta iota. replace (nth_error a (length u)) with (Some AT) by (rewrite Ea; symmetry; apply nth_mid). change (AT =? AT) with true. cbv iota.
  rewrite (slice_mid _ [] u (AT :: h ++ po)) by (auto; rewrite Ea; reflexivity). cbn [bind]. rewrite <- app_assoc in E1.
  assert (FS : find_str [SLASH; SLASH] i = Some (length s) /\ o_find_str [SLASH; SLASH] i = Some (blen s)) by (rewrite E1; now apply find_slashes).
  destruct FS as [-> ->]. unfold find_chr. rewrite o_find_chr_eq by reflexivity. destruct (split_first (N.eqb COLON) u) as [[[u1 c] pw]|] eqn:E.
  - apply split_first_some in E. destruct E as (-> & _ & Ecc). apply N.eqb_eq in Ecc. subst c.
    exists (s ++ [SLASH; SLASH] ++ u1 ++ [COLON]), pw, (AT :: (h ++ po) ++ r). split; [rewrite E1, Ea; repeat (rewrite <- ?app_assoc; cbn [app]); reflexivity|].
    split; [destruct s; discriminate|]. rewrite !app_length, !blen_app. change (blen (COLON :: pw)) with (1 + blen pw)%nat. change (blen [SLASH; SLASH]) with 2%nat. change (blen [COLON]) with 1%nat. cbn [length].
    split; do 3 f_equal; lia.
  - exists (s ++ [SLASH; SLASH] ++ u), [], (AT :: (h ++ po) ++ r). split; [rewrite E1, Ea; repeat (rewrite <- ?app_assoc; cbn [app]); reflexivity|].
    split; [destruct s; discriminate|]. rewrite !app_length, !blen_app. change (blen [SLASH; SLASH]) with 2%nat. change (blen []) with 0%nat. cbn [length].
    split; do 3 f_equal; lia.
Qed.
(** ** Masking and removing passwords *)
Lemma slice_to x y : slice_p (x ++ y) 0 (length x) = Ok x.
Proof. now apply (slice_mid _ [] x y). Qed.
Lemma slice_from x y n : n = length (x ++ y) -> slice_p (x ++ y) (length x) n = Ok y.
Proof. intros ->. apply (slice_mid _ x y []); [now rewrite app_nil_r|reflexivity|apply app_length]. Qed.
Lemma write_masked {A} i x y z (alt : W A) : i = x ++ y ++ z ->
  o_write_with_masked_password i (blen x) (blen x + blen y) alt = write_with_masked_password i (length x) (length x + length y) alt.
Proof.
  intros ->. unfold o_write_with_masked_password, write_with_masked_password.
  rewrite !(proj2 (Nat.leb_le _ _)) by (rewrite ?blen_app, ?app_length; lia).
  rewrite (str_to_mid _ x (y ++ z)), slice_to by auto. rewrite app_assoc, <- blen_app, <- app_length.
  rewrite (str_from_mid _ (x ++ y) z), slice_from by auto. reflexivity.
Qed.
Lemma o_mask_eq i : o_mask_display m i = mask_display i.
Proof. unfold o_mask_display, mask_display. destruct (ranges i) as [[-> ->]|(x & y & z & E & _ & -> & ->)]; [reflexivity|]. cbn [lift wbind wret]. now rewrite (write_masked i x y z). Qed.
Lemma o_replaced_eq {A} i (f : str -> W A) : o_replaced_display m i f = replaced_display i f.
Proof.
  unfold o_replaced_display, replaced_display. destruct (ranges i) as [[-> ->]|(x & y & z & E & _ & -> & ->)]; [reflexivity|]. cbn [lift wbind wret].
  rewrite (bslice_mid i x y z), (slice_mid i x y z) by auto. cbn [lift wbind wret]. now rewrite (write_masked i x y z).
Qed.
Lemma o_mask_dedicated_eq debug alloc S t i : o_mask_to_dedicated_string m debug alloc S t i = mask_to_dedicated_string debug alloc S t i.
Proof.
  unfold o_mask_to_dedicated_string, mask_to_dedicated_string. destruct (ranges i) as [[-> ->]|(x & y & z & E & _ & -> & ->)]; [reflexivity|].
  rewrite (proj2 (Nat.ltb_ge (blen x + blen y) (blen x))) by lia. rewrite (proj2 (Nat.ltb_ge (blen i) _)) by (rewrite E, !blen_app; lia). cbn [orb].
  destruct alloc; [|reflexivity]. cbn [negb]. subst i. rewrite (str_to_mid _ x (y ++ z)) by auto.
  pose proof (slice_to x (y ++ z)) as S1. assert (S2 : slice_p (x ++ y ++ z) (length x + length y) (length (x ++ y ++ z)) = Ok z).
  { rewrite app_assoc, <- app_length. now apply slice_from. }
  unfold slice_p in S1, S2. destruct (slice _ 0 _); [injection S1 as ->|discriminate]. destruct (slice _ (_ + _) _); [injection S2 as ->|discriminate].
  rewrite app_assoc, <- blen_app. rewrite (str_from_mid _ (x ++ y) z) by auto. reflexivity.
Qed.
Lemma o_drain_mid s x y z a b : s = x ++ y ++ z -> a = blen x -> b = (blen x + blen y)%nat -> o_drain s a b = Ok (x ++ z).
Proof.
  intros Es Ea Eb. unfold o_drain. rewrite (bslice_mid s x y z) by auto. cbn [bind]. rewrite (str_to_mid s x (y ++ z)) by auto. cbn [bind].
  rewrite (str_from_mid s (x ++ y) z); [reflexivity|rewrite Es; apply app_assoc|rewrite Eb; symmetry; apply blen_app].
Qed.
Lemma drain_mid s x y z a b : s = x ++ y ++ z -> a = length x -> b = (length x + length y)%nat -> drain s a b = Ok (x ++ z).
Proof.
  intros Es Ea Eb. unfold drain. rewrite (slice_mid s [] x (y ++ z)) by auto. cbn [bind]. rewrite (slice_mid s x y z) by auto. cbn [bind].
  rewrite (slice_mid s (x ++ y) z []); [reflexivity|rewrite Es, app_nil_r; apply app_assoc|rewrite app_length; auto|subst; rewrite !app_length; lia].
Qed.
Lemma split_inside x c y : (1 < clen c)%nat -> str_split_at (x ++ c :: y) (blen x + clen c - 1) = Panic.
Proof.
  intros H. induction x as [|d x IH].
  - change (blen []) with 0%nat. cbn [app Nat.add]. destruct (clen c - 1)%nat as [|k] eqn:E; [lia|]. cbn [str_split_at].
    replace (Nat.ltb (Datatypes.S k) (clen c)) with true by (symmetry; apply Nat.ltb_lt; lia). reflexivity.
  - cbn [app]. rewrite blen_cons. pose proof (clen_pos d). destruct (clen d + blen x + clen c - 1)%nat as [|k] eqn:E; [lia|]. cbn [str_split_at]. rewrite <- E.
    rewrite (proj2 (Nat.ltb_ge _ _)) by lia. replace (clen d + blen x + clen c - 1 - clen d)%nat with (blen x + clen c - 1)%nat by lia. now rewrite IH.
Qed.
Lemma o_remove_password_eq debug S t i : o_remove_password_inline m debug S t i = remove_password_inline debug S t i.
Proof.
  unfold o_remove_password_inline, remove_password_inline. destruct (ranges i) as [[-> ->]|(x & y & z & E & Nx & -> & ->)]; [reflexivity|]. cbn [bind].
  destruct x as [|c x _] using rev_ind; [congruence|]. clear Nx. rewrite blen_app, app_length. change (length [c]) with 1%nat. rewrite Nat.add_1_r. cbn [prev_byte].
  rewrite <- app_assoc in E. cbn [app] in E. replace (nth_error i (length x)) with (Some c) by (rewrite E; symmetry; apply nth_mid). rewrite blen_cons. change (blen []) with 0%nat. pose proof (clen_pos c).
  destruct (Nat.eqb (clen c) 1) eqn:Ec.
  - apply Nat.eqb_eq in Ec. rewrite Ec. rewrite Nat.add_0_r, Nat.add_1_r. cbn [bind].
    rewrite (o_drain_mid i x (c :: y) z), (drain_mid i x (c :: y) z); auto; rewrite ?blen_cons; cbn [length]; lia.
  - apply Nat.eqb_neq in Ec. cbn [bind]. destruct (blen x + (clen c + 0))%nat as [|k] eqn:K; [lia|]. cbn [bind]. unfold o_drain, bslice.
    rewrite (proj2 (Nat.ltb_ge _ _)) by lia. subst i. change (x ++ c :: y ++ z) with (x ++ (c :: y) ++ z). rewrite app_assoc.
    replace (Datatypes.S k + blen y)%nat with (blen (x ++ c :: y)) by (rewrite blen_app, blen_cons; lia). rewrite split_mid. cbn [bind].
    replace k with (blen x + clen c - 1)%nat by lia. rewrite split_inside by lia. reflexivity.
Qed.
Lemma last_byte x c y : nth_error (utf8s (x ++ c :: y)) (blen x + clen c - 1) = Some COLON <-> c = COLON.
Proof.
  rewrite utf8s_app. cbn [utf8s flat_map]. change (flat_map utf8 y) with (utf8s y). rewrite nth_error_app2 by (rewrite utf8s_len; pose proof (clen_pos c); lia).
  rewrite utf8s_len. pose proof (clen_pos c). rewrite nth_error_app1 by (rewrite utf8_len; lia). destruct (c <? 128) eqn:E.
  - apply N.ltb_lt in E. rewrite utf8_ascii_eq by exact E. assert (clen c = 1%nat) as -> by (rewrite <- utf8_len, utf8_ascii_eq by exact E; reflexivity).
    replace (blen x + 1 - 1 - blen x)%nat with 0%nat by lia. cbn. split; [now intros [= ->]|now intros ->].
  - apply N.ltb_ge in E. split; intros H'; [|subst c; vm_compute in E; congruence]. exfalso. pose proof (utf8_high c E) as F. rewrite Forall_forall in F.
    apply nth_error_In in H'. specialize (F _ H'). vm_compute in F. congruence.
Qed.
Lemma o_remove_nonempty_eq debug S t i : o_remove_nonempty_password_inline m debug S t i = remove_nonempty_password_inline debug S t i.
Proof.
  unfold o_remove_nonempty_password_inline, remove_nonempty_password_inline. destruct (ranges i) as [[-> ->]|(x & y & z & E & Nx & -> & ->)]; [reflexivity|]. cbn [bind].
  destruct y as [|d y]. { change (blen []) with 0%nat. cbn [length]. rewrite !Nat.add_0_r, !Nat.ltb_irrefl. reflexivity. }
  pose proof (clen_pos d). rewrite !(proj2 (Nat.ltb_lt _ _)) by (rewrite ?blen_cons; cbn [length]; lia). cbn [negb].
  assert (P : match nth_error (utf8s i) (blen x - 1) with Some c => c =? COLON | None => false end = match nth_error i (length x - 1) with Some c => c =? COLON | None => false end).
  { destruct x as [|c x _] using rev_ind; [congruence|]. rewrite <- app_assoc in E. cbn [app] in E. rewrite E. rewrite blen_app, app_length, blen_cons. change (blen []) with 0%nat. cbn [length].
    replace (length x + 1 - 1)%nat with (length x) by lia. rewrite nth_mid, Nat.add_0_r. pose proof (last_byte x c (d :: y ++ z)) as L.
    destruct (nth_error (utf8s _) _) as [b|]; [|destruct (c =? COLON) eqn:Ec; [|reflexivity]; apply N.eqb_eq in Ec; apply L in Ec; discriminate].
    destruct (b =? COLON) eqn:Eb.
    - apply N.eqb_eq in Eb. subst b. symmetry. apply N.eqb_eq. now apply L.
    - symmetry. apply N.eqb_neq. intros Ec. apply L in Ec. injection Ec as ->. discriminate. }
  rewrite P. rewrite (o_drain_mid i x (d :: y) z), (drain_mid i x (d :: y) z) by auto. reflexivity.
Qed.
(** ** Replacing hosts *)
Lemma o_replace_mid s x y z a b w : s = x ++ y ++ z -> a = blen x -> b = (blen x + blen y)%nat -> o_replace_range s a b w = Ok (x ++ w ++ z).
Proof.
  intros Es Ea Eb. unfold o_replace_range. rewrite (bslice_mid s x y z) by auto. cbn [bind]. rewrite (str_to_mid s x (y ++ z)) by auto. cbn [bind].
  rewrite (str_from_mid s (x ++ y) z); [reflexivity|rewrite Es; apply app_assoc|rewrite Eb; symmetry; apply blen_app].
Qed.
Lemma replace_mid s x y z a b w : s = x ++ y ++ z -> a = length x -> b = (length x + length y)%nat -> replace_range s a b w = Ok (x ++ w ++ z).
Proof.
  intros Es Ea Eb. unfold replace_range. rewrite (slice_mid s [] x (y ++ z)) by auto. cbn [bind]. rewrite (slice_mid s x y z) by auto. cbn [bind].
  rewrite (slice_mid s (x ++ y) z []); [reflexivity|rewrite Es, app_nil_r; apply app_assoc|rewrite app_length; auto|subst; rewrite !app_length; lia].
Qed.
Lemma o_replace_host_eq debug alloc S t i new_host only : o_try_replace_host_impl m debug alloc S t i new_host only = try_replace_host_impl debug alloc S t i new_host only.
Proof.
  unfold o_try_replace_host_impl, try_replace_host_impl, o_replace_domain_impl, replace_domain_impl, o_from_iri_get_offset, from_iri_get_offset, o_extract_authority_and_offset, extract_authority_and_offset.
  destruct (scheme_pieces i) as [E1 _]. pose proof (authority_pieces (fst (scheme_colon_opt i))) as E2.
  rewrite o_scheme_colon_opt_eq by auto. cbn [bind]. destruct (scheme_colon_opt i) as [r s]. cbn [fst snd] in *. rewrite o_slash_slash_eq by auto. cbn [bind].
  destruct (slash_slash_authority_opt r) as [r' [a|]]; cbn [fst snd bind] in *; [|reflexivity].
  destruct (auth_pieces m Hm a) as (ui & h & po & Ea & -> & -> & _ & _). cbn [bind]. unfold o_ac_host, ac_host. cbn [au_str host_start host_end].
  rewrite (bslice_mid a ui h po), (slice_mid a ui h po) by auto. cbn [bind]. destruct (is_err (validate_host S new_host)); [reflexivity|].
  destruct (only && negb (is_host_reg_name h)); [reflexivity|]. destruct (Nat.leb (blen h) (blen new_host) && negb alloc); [reflexivity|].
  assert (Ei : i = (sch s ++ [SLASH; SLASH] ++ ui) ++ h ++ po ++ r') by (rewrite E1, E2, Ea; cbn [aut]; now rewrite <- !app_assoc).
  assert (Eb : (match s with Some s0 => blen s0 + 3 | None => 2 end + blen ui)%nat = blen (sch s ++ [SLASH; SLASH] ++ ui)).
  { destruct s; cbn [sch]; rewrite !blen_app; change (blen [SLASH; SLASH]) with 2%nat; change (blen [COLON]) with 1%nat; change (blen []) with 0%nat; lia. }
  assert (El : (match s with Some s0 => length s0 + 3 | None => 2 end + length ui)%nat = length (sch s ++ [SLASH; SLASH] ++ ui)).
  { destruct s; cbn [sch]; rewrite !app_length; cbn [length]; lia. }
  rewrite Eb, El. set (x := sch s ++ [SLASH; SLASH] ++ ui) in *. rewrite (o_replace_mid i x h (po ++ r')), (replace_mid i x h (po ++ r')) by auto. cbn [bind].
  rewrite (bslice_mid _ x new_host (po ++ r')), (slice_mid _ x new_host (po ++ r')) by auto. reflexivity.
Qed.
(** ** Fragments *)
Lemma o_remove_fragment_eq s : o_remove_fragment s = Ok (remove_fragment s).
Proof.
  unfold o_remove_fragment, remove_fragment, find_chr. rewrite o_find_chr_eq by reflexivity. destruct (split_first _ s) as [[[a c] b]|] eqn:E; [|reflexivity].
  apply split_first_some in E. destruct E as (-> & _). rewrite (str_to_mid _ a (c :: b)) by auto. now rewrite firstn_app, firstn_all, Nat.sub_diag, app_nil_r.
Qed.
Lemma o_set_fragment_eq s f : o_raw_set_fragment s f = Ok (raw_set_fragment s f).
Proof. unfold o_raw_set_fragment, raw_set_fragment. now rewrite o_remove_fragment_eq. Qed.
Lemma o_split_owned_eq s : o_split_fragment_owned m s = split_fragment_owned s.
Proof.
  unfold o_split_fragment_owned, split_fragment_owned. rewrite o_split_fragment_eq by auto. cbn [bind]. unfold split_fragment, find_split_hole.
  destruct (split_first _ s) as [[[a c] b]|] eqn:E; [|reflexivity]. apply split_first_some in E. destruct E as (-> & _ & Ec). apply N.eqb_eq in Ec. subst c.
  change (a ++ HASH :: b) with (a ++ [HASH] ++ b). rewrite app_assoc. replace (blen a + 1)%nat with (blen (a ++ [HASH])) by (rewrite blen_app; reflexivity).
  replace (length a + 1)%nat with (length (a ++ [HASH])) by (rewrite app_length; reflexivity). rewrite split_mid, slice_to. cbn [bind]. rewrite slice_from by auto. cbn [bind].
  unfold pop. rewrite rev_app_distr. cbn [rev app]. rewrite rev_involutive, !Nat.eqb_refl. reflexivity.
Qed.
Lemma o_to_absolute_eq debug S s : o_to_absolute m debug S s = to_absolute debug S s.
Proof.
  unfold o_to_absolute, to_absolute. rewrite o_split_fragment_eq by auto. cbn [bind]. unfold split_fragment, find_split_hole.
  destruct (split_first _ s) as [[[a c] b]|] eqn:E; cbn [fst].
  - apply split_first_some in E. destruct E as (-> & _). rewrite (str_to_mid _ a (c :: b)) by auto. reflexivity.
  - rewrite (str_to_mid s s []); [reflexivity|now rewrite app_nil_r|reflexivity].
Qed.
End M.
