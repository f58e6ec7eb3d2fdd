(** * Percent-encoding normalization (proofs only), part 4: hosts; comparison with a displayed value. *)
From Verif Require Import Base Chars Rfc3986 Utf8 PctSpec MValidate MTrusted MFormat MPct PBase PScan PPath2 PPct PPct2 PPct3.

(** ** [eq_str_display] *)
Lemma strip_prefix_app p s : strip_prefix p (p ++ s) = Some s.
Proof. induction p as [|c p IH]; cbn; auto. now rewrite N.eqb_refl. Qed.
Lemma strip_prefix_inv p s r : strip_prefix p s = Some r -> s = p ++ r.
Proof.
  revert s; induction p as [|c p IH]; intros [|d s]; cbn; try congruence. destruct (N.eqb_spec c d) as [->|]; [|discriminate]. intros H. now rewrite (IH _ H).
Qed.
Lemma run_cmp chunks : forall st e, run cmp_write st chunks e =
  match strip_prefix (concat chunks) st with Some r => (r, e) | None => (fst (run cmp_write st chunks e), OErr) end.
Proof.
  induction chunks as [|c r IH]; intros st e; [reflexivity|]. cbn [run concat]. unfold cmp_write at 1 3.
  destruct (strip_prefix c st) as [st'|] eqn:E.
  - apply strip_prefix_inv in E. subst st. rewrite IH. cbn.
    assert (X : strip_prefix (c ++ concat r) (c ++ st') = strip_prefix (concat r) st').
    { clear. induction c as [|x c IH]; cbn; auto. now rewrite N.eqb_refl. }
    rewrite X. destruct (strip_prefix (concat r) st'); auto.
  - destruct (strip_prefix (c ++ concat r) st) as [x|] eqn:E2; [|reflexivity]. apply strip_prefix_inv in E2. rewrite <- app_assoc in E2. subst st.
    rewrite strip_prefix_app in E. discriminate.
Qed.
Lemma eq_display_ok {A} s (d : W A) t a : outs d = Some (t, a) -> eq_str_display s d = Ok (seqb s t).
Proof.
  destruct d as [cs [x| |]]; cbn; try discriminate. intros [= <- <-]. unfold eq_str_display, run_display. cbn [fst snd end_of].
  rewrite run_cmp. destruct (strip_prefix (concat cs) s) as [r|] eqn:E.
  - apply strip_prefix_inv in E. subst s. f_equal. destruct r; cbn [is_empty].
    + rewrite app_nil_r. symmetry. now apply seqb_eq.
    + symmetry. apply not_true_iff_false. rewrite seqb_eq. intros X. apply (f_equal (@length N)) in X. rewrite app_length in X. cbn in X. lia.
  - f_equal. symmetry. apply not_true_iff_false. rewrite seqb_eq. intros ->. rewrite <- (app_nil_r (concat cs)) in E at 2. rewrite strip_prefix_app in E. discriminate.
Qed.
Lemma is_pct_normalized_ok Sp s : pct_wf s -> exists b, is_pct_case_normalized Sp s = Ok b /\ (b = true <-> pct_normal Sp s s).
Proof.
  intros H. destruct (pct_normalized_ok Sp s H) as (t & E & P). unfold is_pct_case_normalized. rewrite (eq_display_ok _ _ _ _ E).
  eexists. split; [reflexivity|]. rewrite seqb_eq. split; [now intros <-|]. intros P2. eapply pn_fun; eauto.
Qed.

(** ** ASCII-only hosts *)
Lemma utf8_ascii c : Forall (fun x => x < 128) (utf8 c) <-> c < 128.
Proof.
  unfold utf8. destruct (N.ltb_spec c 128) as [L|L]; [split; auto; now inversion 1|].
  split; [|lia]. intros F. exfalso. destruct (c <? 2048); [|destruct (c <? 65536)]; apply Forall_inv in F; revert F; generalize (c / 64), (c / 4096), (c / 262144); cbv beta; lia.
Qed.
Lemma ascii_only_nil : ascii_only [].
Proof. exists []. split; constructor. Qed.
Lemma ascii_only_raw c s : c <> 37 -> ascii_only (c :: s) <-> c < 128 /\ ascii_only s.
Proof.
  intros Hc. split.
  - intros (b & D & F). inversion D; subst; try congruence. apply Forall_app in F. destruct F as [F1 F2]. apply utf8_ascii in F1. split; auto. eexists; eauto.
  - intros (L & b & D & F). exists (utf8 c ++ b). split; [now apply dn_raw|]. apply Forall_app. split; auto. now apply utf8_ascii.
Qed.
Lemma ascii_only_trip u l s : is_hexdigit u = true -> is_hexdigit l = true -> ascii_only (37 :: u :: l :: s) <-> bval u l < 128 /\ ascii_only s.
Proof.
  intros Hu Hl. split.
  - intros (b & D & F). inversion D; subst; try congruence. unfold bval. split; [now inversion F|]. exists b0. split; auto. now inversion F.
  - intros (L & b & D & F). exists (bval u l :: b). split; [now apply dn_trip|]. constructor; auto.
Qed.
Lemma ascii_only_app a s : none (fun c => negb (is_ascii c) || (c =? PCT)) a = true -> ascii_only (a ++ s) <-> ascii_only s.
Proof.
  induction a as [|c a IH]; [reflexivity|]. rewrite none_cons. intros H. apply andb_prop in H. destruct H as [H H0]. cbn [app]. rewrite negb_true_iff, orb_false_iff in H.
  destruct H as [H1 H2]. rewrite ascii_only_raw by (now apply N.eqb_neq). rewrite IH by assumption. unfold is_ascii in H1. split; [now intros [_ ?]|split; auto; lia].
Qed.
Lemma none_weaken (p q : N -> bool) s : (forall c, q c = true -> p c = true) -> none p s = true -> none q s = true.
Proof. intros H. unfold none. rewrite !forallb_forall. intros X c Hc. specialize (X c Hc). destruct (q c) eqn:Q; auto. now rewrite (H c Q) in X. Qed.
Lemma ascii_host_dec_ok fuel : forall s, pct_wf s -> (length s < fuel)%nat -> exists b, is_ascii_only_host_loop fuel s = Ok b /\ (b = true <-> ascii_only s).
Proof.
  induction fuel as [|fuel IH]; intros s W Hf; [lia|]. cbn [is_ascii_only_host_loop].
  destruct (split_first _ s) as [[[a c] b]|] eqn:E.
  2:{ exists true. split; auto. split; auto. intros _. apply split_first_none in E. rewrite <- (app_nil_r s). apply ascii_only_app; auto. apply ascii_only_nil. }
  apply split_first_some in E. destruct E as (-> & Na & Hc). rewrite app_length in Hf. cbn [length] in Hf.
  assert (Wc : pct_wf (c :: b)). { apply (wf_prefix a); auto. eapply none_weaken; [|exact Na]. cbv beta. intros x Hx. apply N.eqb_eq in Hx. subst x. reflexivity. }
  destruct (N.eqb_spec c PCT) as [->|Hn].
  - destruct (wf_pct_inv _ Wc) as (u & l & r & -> & Hu & Hl & Wr). cbn [negb]. rewrite take_x by assumption. cbn [bind].
    assert (Q : ascii_only (a ++ PCT :: u :: l :: r) <-> bval u l < 128 /\ ascii_only r).
    { rewrite ascii_only_app by exact Na. apply ascii_only_trip; assumption. }
    unfold is_ascii.
    destruct (N.ltb_spec (bval u l) 128) as [L|L]; cbn [negb].
    + destruct (IH r Wr) as (b & -> & Hb); [cbn in Hf; lia|]. exists b. split; auto. rewrite Hb, Q. split; [auto|now intros [_ ?]].
    + exists false. split; auto. split; [discriminate|]. rewrite Q. intros [X _]. lia.
  - cbn [negb]. exists false. split; auto. split; [discriminate|]. rewrite ascii_only_app, ascii_only_raw by auto. rewrite orb_false_r in Hc. unfold is_ascii in Hc. intros [X _]. lia.
Qed.
Lemma is_ascii_only_host_ok s : pct_wf s -> exists b, is_ascii_only_host s = Ok b /\ (b = true <-> ascii_only s).
Proof. intros W. apply ascii_host_dec_ok; auto. Qed.

Lemma outs_lower s : outs (write_lower s) = Some (map lower s, tt).
Proof.
  unfold write_lower. cbn. f_equal. f_equal. induction s as [|c s IH]; cbn; auto. now rewrite IH.
Qed.
Lemma lower_raw_app a s : none (N.eqb 37) a = true -> lower_raw (a ++ s) = map lower a ++ lower_raw s.
Proof.
  induction a as [|c a IH]; [reflexivity|]. rewrite none_cons. intros H. apply andb_prop in H. destruct H as [H H0]. cbn [app lower_raw map]. rewrite N.eqb_sym in H. apply negb_true_iff in H. rewrite H. now rewrite IH.
Qed.
Lemma lower_raw_trip u l s : lower_raw (37 :: u :: l :: s) = 37 :: u :: l :: lower_raw s.
Proof. reflexivity. Qed.
Lemma lower_raw_raw c s : c <> 37 -> lower_raw (c :: s) = lower c :: lower_raw s.
Proof. intros H. apply N.eqb_neq in H. cbn [lower_raw]. now rewrite H. Qed.

Lemma ascii_host_ok Sp fuel : forall s, ascii_only s -> (length s < fuel)%nat -> exists t, outs (ascii_host_loop fuel s) = Some (lower_raw t, tt) /\ pct_normal Sp s t.
Proof.
  induction fuel as [|fuel IH]; intros s A Hf; [lia|]. cbn [ascii_host_loop].
  destruct (is_empty s) eqn:Em. { apply is_empty_iff in Em. subst. exists []. split; [reflexivity|constructor]. }
  unfold find_split_hole. destruct (split_first (N.eqb PCT) s) as [[[a c] b]|] eqn:E.
  2:{ apply split_first_none in E. exists s. split.
      - rewrite outs_lower. rewrite <- (app_nil_r s) at 2. rewrite lower_raw_app by exact E. cbn. now rewrite app_nil_r.
      - rewrite <- (app_nil_r s). apply raw_prefix; auto. constructor. }
  apply split_first_some in E. destruct E as (-> & Na & Hc). apply N.eqb_eq in Hc. subst c.
  assert (W : pct_wf (a ++ PCT :: b)) by (destruct A as (x & D & _); eapply denotes_wf; eauto).
  assert (W2 := wf_prefix a (37 :: b) Na W). destruct (wf_pct_inv _ W2) as (u & l & r & -> & Hu & Hl & Wr).
  rewrite app_length in Hf. cbn [length] in Hf.
  assert (A2 : ascii_only (37 :: u :: l :: r)).
  { clear - A Na. change PCT with 37 in *. induction a as [|c a IH]; auto. rewrite none_cons in Na. bdestr. cbn [app] in A. rewrite ascii_only_raw in A; [|intros ->; discriminate]. apply IH; tauto. }
  apply ascii_only_trip in A2; auto. destruct A2 as [L A2].
  destruct (IH r A2) as (t & Et & Pt); [lia|].
  cut (exists t, outs (wdo (first, after) <- lift (take_xdigits2 (u :: l :: r)); (if negb (is_ascii first) then wpanic
          else (if is_ascii_unreserved first then write [to_lower first] else write (pct_upper first)) >> ascii_host_loop fuel after)) = Some (lower_raw t, tt)
     /\ pct_normal Sp (37 :: u :: l :: r) t).
  { intros (t' & E & P). exists (a ++ t'). split; [|now apply raw_prefix]. rewrite lower_raw_app by exact Na. eapply outs_bind; [apply outs_lower|exact E]. }
  rewrite take_x by assumption. rewrite lift_bind. unfold is_ascii. replace (bval u l <? 128) with true by lia. cbn [negb].
  rewrite (ascii_unreserved_spec Sp) by exact L.
  assert (S1 : spelled [bval u l] [37; u; l]) by (repeat constructor; auto).
  destruct (unreserved Sp (bval u l)) eqn:U.
  - exists (bval u l :: t). split.
    + rewrite lower_raw_raw by now apply (unres_not_pct Sp). change (lower (bval u l) :: lower_raw t) with ([to_lower (bval u l)] ++ lower_raw t). eapply outs_bind; [apply outs_write|exact Et].
    + change (37 :: u :: l :: r) with ([37; u; l] ++ r). apply pn_decode; auto. unfold utf8. now replace (bval u l <? 128) with true by lia.
  - exists (pct_upper (bval u l) ++ t). split.
    + rewrite pct_upper_bval by assumption. cbn [app]. rewrite lower_raw_trip. change (37 :: upper_hex u :: upper_hex l :: lower_raw t) with ([37; upper_hex u; upper_hex l] ++ lower_raw t).
      eapply outs_bind; [apply outs_write|exact Et].
    + change (37 :: u :: l :: r) with ([37; u; l] ++ r). apply keep_one; auto. eapply no_unres_intro; eauto. intros c t0 Uc Ec _ _ _ _.
      assert (c = bval u l); [|congruence]. symmetry. apply utf8_prefix with (t := t0); [unfold is_scalar; lia|eapply unreserved_scalar; eauto|].
      rewrite Ec. unfold utf8. now replace (bval u l <? 128) with true by lia.
Qed.
Lemma ascii_only_host_ok Sp s : ascii_only s -> exists t, outs (NormalizedAsciiOnlyHost s) = Some (lower_raw t, tt) /\ pct_normal Sp s t.
Proof. intros W. apply ascii_host_ok; auto. Qed.
