(** * Percent-encoding normalization (proofs only), part 3: laws of the specification relation. *)
From Verif Require Import Base Chars Rfc3986 Utf8 PctSpec MValidate MTrusted MFormat MPct PBase PScan PPath2 PPct PPct2.

Lemma unres_not_pct Sp c : unreserved Sp c = true -> c <> 37.
Proof. intros H ->. destruct Sp; discriminate. Qed.
Lemma utf8_nonnil c : utf8 c <> [].
Proof. unfold utf8. destruct (c <? 128), (c <? 2048), (c <? 65536); discriminate. Qed.
Lemma spelled_head bs s : bs <> [] -> spelled bs s -> exists u l s', s = 37 :: u :: l :: s' /\ is_hexdigit u = true /\ is_hexdigit l = true.
Proof. intros Hb H. destruct H; [easy|]. exists u, l, s. auto. Qed.

(** Encodings are prefix free. *)
Lemma utf8_prefix c1 c2 t : is_scalar c1 = true -> is_scalar c2 = true -> utf8 c2 = utf8 c1 ++ t -> c1 = c2.
Proof.
  intros H1 H2 E. destruct (utf8_shape c1 H1) as (f & ks & E1 & F1 & D1). destruct (utf8_shape c2 H2) as (f2 & ks2 & E2 & F2 & D2).
  rewrite E1, E2 in E. cbn in E. injection E as -> ->.
  destruct D1 as [(L & -> & ->)|(L & _)].
  - destruct D2 as [(_ & _ & ->)|(D2 & _)]; auto. unfold expected_len, between in D2.
    replace ((194 <=? f) && (f <=? 223)) with false in D2 by lia. replace ((224 <=? f) && (f <=? 239)) with false in D2 by lia.
    replace ((240 <=? f) && (f <=? 244)) with false in D2 by lia. discriminate.
  - destruct D2 as [(L2 & _)|(D2 & _)].
    { unfold expected_len, between in L.
    replace ((194 <=? f) && (f <=? 223)) with false in L by lia. replace ((224 <=? f) && (f <=? 239)) with false in L by lia.
    replace ((240 <=? f) && (f <=? 244)) with false in L by lia. discriminate. }
    assert (t = []). { rewrite L in D2. injection D2 as D2. rewrite app_length in D2. destruct t; auto. cbn in D2; lia. } subst t. rewrite app_nil_r in *.
    destruct (into_char_ok f ks _ L) as (oc & _ & Ho & _); auto; [lia|].
    apply Ho in E1; auto. apply Ho in E2; auto. congruence.
Qed.
Lemma spelled_same c1 c2 b1 b2 r1 r2 : is_scalar c1 = true -> is_scalar c2 = true ->
  spelled (utf8 c1) b1 -> spelled (utf8 c2) b2 -> b1 ++ r1 = b2 ++ r2 -> c1 = c2 /\ b1 = b2 /\ r1 = r2.
Proof.
  intros S1 S2 H1 H2 E. assert (C : c1 = c2).
  { destruct (Nat.le_ge_cases (length (utf8 c1)) (length (utf8 c2))) as [L|L].
    - destruct (spelled_prefix _ _ _ _ _ _ H1 H2 E L) as (b3 & s3 & Eb & _). eapply utf8_prefix; eauto.
    - destruct (spelled_prefix _ _ _ _ _ _ H2 H1 (eq_sym E) L) as (b3 & s3 & Eb & _). symmetry. eapply utf8_prefix; eauto. }
  subst c2. split; auto. destruct (spelled_prefix _ _ _ _ _ _ H1 H2 E ltac:(lia)) as (b3 & s3 & Eb & -> & S3 & ->).
  assert (b3 = []) by (destruct b3; auto; apply (f_equal (@length N)) in Eb; rewrite app_length in Eb; cbn in Eb; lia). subst b3.
  apply spelled_nil_inv in S3. subst s3. now rewrite app_nil_r.
Qed.

(** Inversion. *)
Lemma pn_nil_inv Sp t : pct_normal Sp [] t -> t = [].
Proof.
  remember [] as s eqn:E. destruct 1 as [|c0 s0 t0 Hc Hp|c0 bs0 s0 t0 Hs Hu Hp|u0 l0 s0 t0 Hu0 Hl0 Hn Hp]; auto; try discriminate. destruct (spelled_head _ _ (utf8_nonnil c0) Hs) as (u & l & s' & -> & _). discriminate.
Qed.
Lemma pn_raw_inv Sp c s t : c <> 37 -> pct_normal Sp (c :: s) t -> exists t', t = c :: t' /\ pct_normal Sp s t'.
Proof.
  intros Hc. remember (c :: s) as s0 eqn:E. destruct 1 as [|c0 s0 t0 Hc0 Hp|c0 bs0 s0 t0 Hs Hu Hp|u0 l0 s0 t0 Hu0 Hl0 Hn Hp]; try discriminate.
  - injection E as -> ->. eauto.
  - destruct (spelled_head _ _ (utf8_nonnil c0) Hs) as (u & l & s' & -> & _). injection E as <- _. congruence.
  - injection E as <- _. congruence.
Qed.
Lemma pn_pct_inv Sp u l s t : pct_normal Sp (37 :: u :: l :: s) t ->
  (exists c bs s' t', 37 :: u :: l :: s = bs ++ s' /\ spelled (utf8 c) bs /\ unreserved Sp c = true /\ t = c :: t' /\ pct_normal Sp s' t') \/
  (is_hexdigit u = true /\ is_hexdigit l = true /\ no_unreserved_here Sp (37 :: u :: l :: s) /\
   exists t', t = 37 :: upper_hex u :: upper_hex l :: t' /\ pct_normal Sp s t').
Proof.
  remember (37 :: u :: l :: s) as s0 eqn:E. destruct 1 as [|c0 s0 t0 Hc0 Hp|c0 bs0 s0 t0 Hs Hu Hp|u0 l0 s0 t0 Hu0 Hl0 Hn Hp]; try discriminate.
  - injection E as -> _. congruence.
  - left. exists c0, bs0, s0, t0. auto.
  - right. injection E as -> -> ->. repeat split; auto. exists t0. auto.
Qed.

Lemma pn_wf_l Sp s t : pct_normal Sp s t -> pct_wf s.
Proof. induction 1; [constructor|apply wf_raw; auto|eapply spelled_wf; eauto|apply wf_trip; auto]. Qed.
Lemma pn_wf_r Sp s t : pct_normal Sp s t -> pct_wf t.
Proof.
  induction 1; [constructor|apply wf_raw; auto|apply wf_raw; auto; now apply (unres_not_pct Sp)|].
  apply wf_trip; auto; now apply upper_hex_ok.
Qed.
(** The normal form is unique. *)
Lemma pn_fun Sp s t1 : pct_normal Sp s t1 -> forall t2, pct_normal Sp s t2 -> t1 = t2.
Proof.
  induction 1 as [|c s t Hc Hp IH|c bs s t Hs Hu Hp IH|u l s t Hu Hl Hn Hp IH]; intros t2 H2.
  - symmetry. now apply pn_nil_inv in H2.
  - apply pn_raw_inv in H2; auto. destruct H2 as (t' & -> & H2). f_equal. auto.
  - destruct (spelled_head _ _ (utf8_nonnil c) Hs) as (u & l & s' & E & _). subst bs. cbn [app] in H2.
    apply pn_pct_inv in H2. destruct H2 as [(c' & bs' & s'' & t' & E' & Hs' & Hu' & -> & H2)|(_ & _ & Hn & _)].
    + change (37 :: u :: l :: s' ++ s) with ((37 :: u :: l :: s') ++ s) in E'.
      destruct (spelled_same _ _ _ _ _ _ (unreserved_scalar _ _ Hu) (unreserved_scalar _ _ Hu') Hs Hs' E') as (-> & _ & <-). f_equal. auto.
    + specialize (Hn c (37 :: u :: l :: s') s eq_refl Hs). congruence.
  - apply pn_pct_inv in H2. destruct H2 as [(c' & bs' & s'' & t' & E' & Hs' & Hu' & -> & H2)|(_ & _ & _ & t' & -> & H2)].
    + specialize (Hn c' bs' s'' E' Hs'). congruence.
    + repeat f_equal. auto.
Qed.
(** Every well-formed string has a normal form (also without the code). *)
Lemma pn_ex Sp s : pct_wf s -> exists t, pct_normal Sp s t.
Proof. intros H. destruct (pct_normalized_ok Sp s H) as (t & _ & P). eauto. Qed.

(** A raw delimiter separates. *)
Lemma spelled_stop bs x y s0 d b : spelled bs x -> pct_wf s0 -> d <> 37 -> s0 ++ d :: b = x ++ y -> exists s1, s0 = x ++ s1.
Proof.
  intros H. revert s0. induction H as [|u l bs s Hu Hl Hs IH]; intros s0 W Hd E; [exists s0; auto|].
  destruct W as [|c s0 Hc W|u' l' s0 Hu' Hl' W]; cbn [app] in E.
  - injection E as -> _. congruence.
  - injection E as -> _. congruence.
  - injection E as -> -> E. destruct (IH s0 W Hd E) as (s1 & ->). exists s1. reflexivity.
Qed.
Lemma pn_app_delim Sp a ta d b tb : pct_normal Sp a ta -> d <> 37 -> pct_normal Sp b tb -> pct_normal Sp (a ++ d :: b) (ta ++ d :: tb).
Proof.
  intros Ha Hd Hb. induction Ha as [|c s t Hc Hp IH|c bs s t Hs Hu Hp IH|u l s t Hu Hl Hn Hp IH]; cbn [app].
  - now apply pn_raw.
  - now apply pn_raw.
  - rewrite <- app_assoc. now apply pn_decode.
  - apply pn_keep; auto. intros c bs s' E Hs.
    change (37 :: u :: l :: s ++ d :: b) with ((37 :: u :: l :: s) ++ d :: b) in E.
    assert (Wk : pct_wf (37 :: u :: l :: s)) by (apply wf_trip; auto; eapply pn_wf_l; eauto).
    destruct (spelled_stop _ _ _ _ _ _ Hs Wk Hd E) as (s1 & E1).
    eapply Hn; eauto.
Qed.
(** Nothing is left to normalize in the result. *)
Lemma pn_back Sp ks x : spelled ks x -> forall s t t', pct_normal Sp s t -> t = x ++ t' -> exists y s', s = y ++ s' /\ spelled ks y.
Proof.
  induction 1 as [|u l bs x Hu Hl Hs IH]; intros s t t' P E.
  - exists [], s. split; auto. constructor.
  - cbn [app] in E. destruct P as [|c s t Hc Hp|c cs s t Hc Hcu Hp|u' l' s t Hu' Hl' Hn Hp]; try discriminate.
    + injection E as -> _. congruence.
    + injection E as -> _. destruct (unres_not_pct _ _ Hcu); reflexivity.
    + injection E as <- <- E. destruct (IH s t t' Hp E) as (y & s' & -> & Hy). exists (37 :: u' :: l' :: y), s'. split; auto.
      destruct (upper_hex_ok u' Hu') as (_ & -> & _). destruct (upper_hex_ok l' Hl') as (_ & -> & _). now constructor.
Qed.
Lemma pn_idem Sp s t : pct_normal Sp s t -> pct_normal Sp t t.
Proof.
  induction 1 as [|c s t Hc Hp IH|c bs s t Hs Hu Hp IH|u l s t Hu Hl Hn Hp IH].
  - constructor.
  - now apply pn_raw.
  - apply pn_raw; auto. now apply (unres_not_pct Sp).
  - destruct (upper_hex_ok u Hu) as (Hu1 & Hu2 & Hu3). destruct (upper_hex_ok l Hl) as (Hl1 & Hl2 & Hl3).
    rewrite <- Hu3 at 2. rewrite <- Hl3 at 2. apply pn_keep; auto. intros c bs s' E Hs.
    destruct (pn_back Sp _ _ Hs (37 :: u :: l :: s) (37 :: upper_hex u :: upper_hex l :: t) s') as (y & s2 & E2 & Hy); auto.
    + now apply pn_keep.
    + eapply Hn; eauto.
Qed.
(** Denoted bytes. *)
Lemma denotes_fun s b1 : denotes s b1 -> forall b2, denotes s b2 -> b1 = b2.
Proof.
  induction 1; intros b2 H2; inversion H2; subst; try congruence; try reflexivity; f_equal; auto.
Qed.
Lemma denotes_ex s : pct_wf s -> exists b, denotes s b.
Proof.
  induction 1 as [|c s Hc H (b & IH)|u l s Hu Hl H (b & IH)]; eexists; [apply dn_nil|apply dn_raw; eauto|apply dn_trip; eauto].
Qed.
Lemma denotes_wf s b : denotes s b -> pct_wf s.
Proof. induction 1; [constructor|apply wf_raw; auto|apply wf_trip; auto]. Qed.
Lemma denotes_spelled bs x s b : spelled bs x -> denotes s b -> denotes (x ++ s) (bs ++ b).
Proof. induction 1; cbn [app]; auto. intros. apply dn_trip; auto. Qed.
Lemma pn_denotes Sp s t b : pct_normal Sp s t -> denotes s b -> denotes t b.
Proof.
  intros P. revert b. induction P as [|c s t Hc Hp IH|c bs s t Hs Hu Hp IH|u l s t Hu Hl Hn Hp IH]; intros b D.
  - exact D.
  - inversion D; subst; try congruence. apply dn_raw; auto.
  - destruct (denotes_ex s) as (b' & D'); [eapply pn_wf_l; eauto|].
    rewrite (denotes_fun _ _ D _ (denotes_spelled _ _ _ _ Hs D')). apply dn_raw; auto. now apply (unres_not_pct Sp).
  - destruct (denotes_ex s) as (b' & D'); [eapply pn_wf_l; eauto|].
    rewrite (denotes_fun _ _ D _ (dn_trip _ _ _ _ Hu Hl D')).
    destruct (upper_hex_ok u Hu) as (Hu1 & <- & Hu3). destruct (upper_hex_ok l Hl) as (Hl1 & <- & Hl3). apply dn_trip; auto.
Qed.
(** Character classes are preserved when they contain the unreserved characters. *)
Lemma pn_scan Sp f s t : (forall c, unreserved Sp c = true -> f c = true) -> pct_normal Sp s t -> scan f s = true -> scan f t = true.
Proof.
  intros Hf P. induction P as [|c s t Hc Hp IH|c bs s t Hs Hu Hp IH|u l s t Hu Hl Hn Hp IH]; auto.
  - rewrite !scan_cons by exact Hc. intros H. bdestr. rewrite H. cbn. auto.
  - intros H. rewrite scan_cons by now apply (unres_not_pct Sp). rewrite (Hf c Hu). cbn. apply IH.
    clear - H Hs. induction Hs; auto. cbn [app] in H. change 37 with PCT in H. rewrite scan_pct in H. bdestr. auto.
  - change 37 with PCT. rewrite !scan_pct. intros H. bdestr.
    destruct (upper_hex_ok u Hu) as (-> & _). destruct (upper_hex_ok l Hl) as (-> & _). cbn. auto.
Qed.
Lemma pn_empty Sp s t : pct_normal Sp s t -> t = [] <-> s = [].
Proof.
  intros P. destruct P as [|c s t Hc Hp|c bs s t Hs Hu Hp|u l s t Hu Hl Hn Hp]; try easy.
  split; [discriminate|]. destruct (spelled_head _ _ (utf8_nonnil c) Hs) as (u & l & s' & -> & _). discriminate.
Qed.
(** A reserved raw character occurs in the result exactly where it occurs raw in the input. *)
Lemma pn_split Sp d a b t : pct_normal Sp (a ++ d :: b) t -> d <> 37 -> pct_wf a ->
  exists ta tb, t = ta ++ d :: tb /\ pct_normal Sp a ta /\ pct_normal Sp b tb.
Proof.
  intros P Hd Wa. assert (Wb : pct_wf b).
  { apply pn_wf_l in P. clear - P Wa Hd. induction Wa; cbn [app] in *.
    - now apply wf_raw_inv in P.
    - apply wf_raw_inv in P; auto.
    - apply wf_pct_inv in P. destruct P as (? & ? & ? & E & _ & _ & P). injection E as -> -> <-. auto. }
  destruct (pn_ex Sp a Wa) as (ta & Pa). destruct (pn_ex Sp b Wb) as (tb & Pb). exists ta, tb. split; auto.
  eapply pn_fun; eauto. now apply pn_app_delim.
Qed.
