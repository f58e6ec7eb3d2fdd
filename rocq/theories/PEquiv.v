(** * Normalization decides equivalence (proofs). *)
From Verif Require Import Base Chars Rfc3986 Utf8 CompSpec PctSpec RfcResolve NormSpec EquivSpec MValidate MTrusted MFormat MPct MPath MNormalize
  PBase PScan PHost PAuth PValidate PTrusted PComps PAscii PTypes PPath PPath2 PPath3 PPath4 PPct PPct2 PPct3 PPct4 PPath5 PResolve PRds PNorm PNorm2 PNorm3 PNorm4 PNorm5 PNorm7 PNorm8 PBuild3.
From Coq Require Import Lia.
Open Scope string_scope. Open Scope N_scope. Open Scope list_scope.

(** ** Spelling *)
(** The same text, with other hex digits in the triplets. *)
Inductive sp_eq : str -> str -> Prop :=
| se_nil : sp_eq [] []
| se_raw : forall c s s', c <> 37 -> sp_eq s s' -> sp_eq (c :: s) (c :: s')
| se_trip : forall u l u' l' s s', HEXDIG u = true -> HEXDIG l = true -> HEXDIG u' = true -> HEXDIG l' = true ->
    hex_value u = hex_value u' -> hex_value l = hex_value l' -> sp_eq s s' -> sp_eq (37 :: u :: l :: s) (37 :: u' :: l' :: s').
Lemma se_refl s : pct_wf s -> sp_eq s s.
Proof. induction 1; [apply se_nil|now apply se_raw|now apply se_trip]. Qed.
Lemma se_sym s s' : sp_eq s s' -> sp_eq s' s.
Proof. induction 1; [apply se_nil|now apply se_raw|now apply se_trip]. Qed.
Lemma se_app a b a' b' : sp_eq a a' -> sp_eq b b' -> sp_eq (a ++ b) (a' ++ b').
Proof. induction 1; intros; cbn [app]; [auto|apply se_raw; auto|apply se_trip; auto]. Qed.
Lemma se_spelled ks x : spelled ks x -> forall s s', sp_eq (x ++ s) s' -> exists x' s2, s' = x' ++ s2 /\ spelled ks x' /\ sp_eq s s2.
Proof.
  induction 1 as [|u l ks x Hu Hl Sp IH]; intros s s' E; [exists [], s'; repeat split; auto; constructor|]. cbn [app] in E.
  inversion E as [|c r r' Hc E' X Y|u0 l0 u' l' r r' A1 A2 A3 A4 V1 V2 E' X Y]; subst; [now elim Hc|].
  destruct (IH _ _ E') as (x' & s2 & -> & Sp' & E2). exists (37 :: u' :: l' :: x'), s2. split; [reflexivity|]. split; auto. rewrite V1, V2. now constructor.
Qed.
Lemma se_no_unres S s s' : sp_eq s s' -> no_unreserved_here S s -> no_unreserved_here S s'.
Proof.
  intros E H c x r -> Sp. apply se_sym in E. destruct (se_spelled _ _ Sp _ _ E) as (x' & s2 & -> & Sp' & _). eapply H; eauto.
Qed.
Lemma upper_hex_val u v : HEXDIG u = true -> HEXDIG v = true -> hex_value u = hex_value v -> upper_hex u = upper_hex v.
Proof.
  intros Hu Hv E. assert (X := hex_pair (fun u v => negb (hex_value u =? hex_value v) || (upper_hex u =? upper_hex v)) ltac:(vm_compute; reflexivity) u v Hu Hv). cbv beta in X.
  rewrite E, N.eqb_refl in X. cbn [negb orb] in X. now apply N.eqb_eq.
Qed.
Lemma se_pn S s t : pct_normal S s t -> forall s', sp_eq s s' -> pct_normal S s' t.
Proof.
  induction 1 as [|c s t Hc P IH|c bs s t Sp U P IH|u l s t Hu Hl N P IH]; intros s' E.
  - inversion E. constructor.
  - inversion E; subst; [apply pn_raw; auto|now elim Hc].
  - destruct (se_spelled _ _ Sp _ _ E) as (x' & s2 & -> & Sp' & E2). apply pn_decode; auto.
  - assert (N' := se_no_unres _ _ _ E N). inversion E as [|c0 r r' Hc E' X Y|u0 l0 u' l' r r' A1 A2 A3 A4 V1 V2 E' X Y]; subst; [now elim Hc|].
    rewrite (upper_hex_val u u'), (upper_hex_val l l') by assumption. apply pn_keep; auto.
Qed.
(** A spelled character does not join what precedes it. *)
Lemma spelled_span ks x y s0 b : spelled ks x -> pct_wf s0 -> s0 ++ b = x ++ y ->
  (exists s1, s0 = x ++ s1) \/ (exists k1 k2 x2, ks = k1 ++ k2 /\ k2 <> [] /\ spelled k1 s0 /\ spelled k2 x2 /\ b = x2 ++ y).
Proof.
  intros H. revert s0. induction H as [|u l bs s Hu Hl Hs IH]; intros s0 W E; [left; exists s0; auto|].
  destruct W as [|c s0 Hc W|u' l' s0 Hu' Hl' W]; cbn [app] in E.
  - right. exists [], (16 * hex_value u + hex_value l :: bs), (37 :: u :: l :: s). repeat split; auto; try discriminate; constructor; auto.
  - injection E as -> _. congruence.
  - injection E as -> -> E. destruct (IH s0 W E) as [(s1 & ->)|(k1 & k2 & x2 & -> & Hk & S1 & S2 & ->)]; [left; exists s1; reflexivity|right].
    exists (16 * hex_value u + hex_value l :: k1), k2, x2. repeat split; auto. now constructor.
Qed.
Lemma pn_app_char S a ta c x b tb : pct_normal S a ta -> spelled (utf8 c) x -> unreserved S c = true -> pct_normal S b tb -> pct_normal S (a ++ x ++ b) (ta ++ c :: tb).
Proof.
  intros Ha Sp U Hb. induction Ha as [|c0 s t Hc Hp IH|c0 bs s t Hs Hu Hp IH|u l s t Hu Hl Hn Hp IH]; cbn [app].
  - now apply pn_decode.
  - now apply pn_raw.
  - rewrite <- app_assoc. now apply pn_decode.
  - apply pn_keep; auto. intros c' bs s' E Hs. destruct (unreserved S c') eqn:U'; [exfalso|reflexivity].
    change (37 :: u :: l :: s ++ x ++ b) with ((37 :: u :: l :: s) ++ x ++ b) in E.
    assert (Wk : pct_wf (37 :: u :: l :: s)) by (apply wf_trip; auto; eapply pn_wf_l; eauto).
    destruct (spelled_span _ _ _ _ _ Hs Wk E) as [(s1 & E1)|(k1 & k2 & x2 & Ek & Hk & S1 & S2 & E2)].
    + rewrite (Hn _ _ _ E1 Hs) in U'. discriminate.
    + destruct (utf8_shape c' (unreserved_scalar _ _ U')) as (f' & ks' & Eu' & F' & _). destruct (utf8_shape c (unreserved_scalar _ _ U)) as (f & ks & Eu & _ & D).
      destruct k1 as [|k k1]; [inversion S1|]. rewrite Eu' in Ek. cbn [app] in Ek. injection Ek as <- ->. apply Forall_app in F'. destruct F' as (_ & F').
      destruct k2 as [|k2 k2']; [now elim Hk|]. apply Forall_inv in F'. rewrite Eu in Sp. destruct (spelled_inv _ _ _ Sp) as (u1 & l1 & r1 & -> & -> & _). destruct (spelled_inv _ _ _ S2) as (u2 & l2 & r2 & -> & -> & _).
      cbn [app] in E2. injection E2 as <- <- _. eapply cont_not_first; [exact (unreserved_scalar _ _ U)|exact F'|exact Eu].
Qed.
Lemma respell_pn S s s' t : respell S s s' -> pct_normal S s t <-> pct_normal S s' t.
Proof.
  intros H. destruct H as [a u l u' l' b Wa Wb Hu Hl Hu' Hl' V1 V2|a x c b Wa Wb U Sp].
  - assert (E : sp_eq (a ++ [37; u; l] ++ b) (a ++ [37; u'; l'] ++ b)).
    { apply se_app; [now apply se_refl|]. apply se_app; [apply se_trip; auto; apply se_nil|now apply se_refl]. }
    split; intros P; [exact (se_pn _ _ _ P _ E)|exact (se_pn _ _ _ P _ (se_sym _ _ E))].
  - destruct (pn_ex S a Wa) as (ta & Pa). destruct (pn_ex S b Wb) as (tb & Pb). assert (P1 := pn_app_char S a ta c x b tb Pa Sp U Pb).
    assert (P2 := pn_app_delim S a ta c b tb Pa (unres_not_pct _ _ U) Pb). change (a ++ c :: b) with (a ++ [c] ++ b) in P2.
    split; intros P; [rewrite (pn_fun _ _ _ P _ P1)|rewrite (pn_fun _ _ _ P _ P2)]; assumption.
Qed.
Lemma wf_app a b : pct_wf a -> pct_wf b -> pct_wf (a ++ b).
Proof. induction 1; intros; cbn [app]; [auto|apply wf_raw; auto|apply wf_trip; auto]. Qed.
Lemma wf_one c : c <> 37 -> pct_wf [c].
Proof. intros. apply wf_raw; auto. constructor. Qed.
Lemma wf_three u l : HEXDIG u = true -> HEXDIG l = true -> pct_wf [37; u; l].
Proof. intros. apply wf_trip; auto. constructor. Qed.
Lemma respell_wf S s s' : respell S s s' -> pct_wf s /\ pct_wf s'.
Proof.
  intros [a u l u' l' b Wa Wb Hu Hl Hu' Hl' V1 V2|a x c b Wa Wb U Sp].
  - split; apply wf_app; auto; apply wf_trip; auto.
  - split; apply wf_app; auto; [now apply (spelled_wf _ _ b Sp)|]. apply wf_raw; auto. exact (unres_not_pct _ _ U).
Qed.
(** Contexts *)
Lemma respell_ctx S a s s' b : pct_wf a -> pct_wf b -> respell S s s' -> respell S (a ++ s ++ b) (a ++ s' ++ b).
Proof.
  intros Wa Wb [a0 u l u' l' b0 Wa0 Wb0 Hu Hl Hu' Hl' V1 V2|a0 x c b0 Wa0 Wb0 U Sp]; rewrite <- !app_assoc; rewrite !(app_assoc a a0); constructor; auto using wf_app.
Qed.
Lemma spell_pn S s s' t : same_spelling S s s' -> pct_normal S s t <-> pct_normal S s' t.
Proof. induction 1 as [x y H|x|x y H IH|x y z H1 IH1 H2 IH2]; [exact (respell_pn S x y t H)|tauto|tauto|tauto]. Qed.
Lemma spell_ctx S a s s' b : pct_wf a -> pct_wf b -> same_spelling S s s' -> same_spelling S (a ++ s ++ b) (a ++ s' ++ b).
Proof.
  intros Wa Wb. induction 1 as [x y H|x|x y H IH|x y z H1 IH1 H2 IH2]; [apply rst_step; now apply respell_ctx|apply rst_refl|now apply rst_sym|eapply rst_trans; eauto].
Qed.
Lemma spell_l S s s' b : pct_wf b -> same_spelling S s s' -> same_spelling S (s ++ b) (s' ++ b).
Proof. intros W H. exact (spell_ctx S [] s s' b wf_nil W H). Qed.
Lemma spell_r S a s s' : pct_wf a -> same_spelling S s s' -> same_spelling S (a ++ s) (a ++ s').
Proof. intros W H. assert (X := spell_ctx S a s s' [] W wf_nil H). now rewrite !app_nil_r in X. Qed.
Lemma pn_same S s t : pct_normal S s t -> same_spelling S s t.
Proof.
  induction 1 as [|c s t Hc P IH|c bs s t Sp U P IH|u l s t Hu Hl N P IH].
  - apply rst_refl.
  - apply (spell_r S [c]); auto. now apply wf_one.
  - eapply rst_trans; [apply rst_step, (rs_decode S [] bs c s); auto; [constructor|eapply pn_wf_l; eauto]|]. apply (spell_r S [c]); auto. apply wf_one. exact (unres_not_pct _ _ U).
  - destruct (upper_hex_ok u Hu) as (A1 & A2 & _). destruct (upper_hex_ok l Hl) as (B1 & B2 & _).
    eapply rst_trans; [apply rst_step, (rs_case S [] u l (upper_hex u) (upper_hex l) s); auto; [constructor|eapply pn_wf_l; eauto]|]. apply (spell_r S [37; upper_hex u; upper_hex l]); auto. now apply wf_three.
Qed.
Lemma pct_iff S s s' t t' : pct_normal S s t -> pct_normal S s' t' -> (t = t' <-> same_spelling S s s').
Proof.
  intros P P'. split.
  - intros <-. eapply rst_trans; [exact (pn_same _ _ _ P)|]. apply rst_sym. exact (pn_same _ _ _ P').
  - intros E. apply (spell_pn _ _ _ _ E) in P. eapply pn_fun; eauto.
Qed.
Lemma opt_pct_iff S x x' y y' : opt_rel (pct_normal S) x y -> opt_rel (pct_normal S) x' y' -> (y = y' <-> opt_rel (same_spelling S) x x').
Proof.
  destruct x, y, x', y'; cbn; try tauto; try (intros; split; intros; try congruence; now auto). intros P P'. rewrite <- (pct_iff _ _ _ _ _ P P'). split; congruence.
Qed.

(** ** Hosts *)
Lemma lower_pct c : lower c = 37 <-> c = 37.
Proof. unfold lower, between. destruct ((65 <=? c) && (c <=? 90)) eqn:E; lia. Qed.
Lemma lower_lower c : lower (lower c) = lower c.
Proof. unfold lower, between. destruct ((65 <=? c) && (c <=? 90)) eqn:E; [|now rewrite E]. replace ((65 <=? c + 32) && (c + 32 <=? 90)) with false by lia. reflexivity. Qed.
Lemma lr_raw c s : c <> 37 -> lower_raw (c :: s) = lower c :: lower_raw s.
Proof. intros H. cbn [lower_raw]. now rewrite (proj2 (N.eqb_neq c 37) H). Qed.
Lemma lr_trip u l s : lower_raw (37 :: u :: l :: s) = 37 :: u :: l :: lower_raw s.
Proof. reflexivity. Qed.
Lemma lr_spelled ks x s : spelled ks x -> lower_raw (x ++ s) = x ++ lower_raw s.
Proof. induction 1 as [|u l ks x Hu Hl Sp IH]; [reflexivity|]. cbn [app]. now rewrite lr_trip, IH. Qed.
Lemma lr_wf s : pct_wf s -> pct_wf (lower_raw s).
Proof. induction 1; [constructor|rewrite lr_raw by auto; apply wf_raw; auto; now rewrite lower_pct|rewrite lr_trip; now apply wf_trip]. Qed.
Lemma lr_idem s : pct_wf s -> lower_raw (lower_raw s) = lower_raw s.
Proof.
  induction 1 as [|c s Hc W IH|u l s Hu Hl W IH]; [reflexivity| |rewrite !lr_trip; now rewrite IH]. rewrite lr_raw by auto. rewrite lr_raw by (now rewrite lower_pct). now rewrite lower_lower, IH.
Qed.
Lemma lr_spelled_inv ks x : spelled ks x -> forall s r, pct_wf s -> lower_raw s = x ++ r -> exists s', s = x ++ s' /\ lower_raw s' = r /\ pct_wf s'.
Proof.
  induction 1 as [|u l ks x Hu Hl Sp IH]; intros s r W E; [exists s; auto|]. destruct W as [|c s Hc W|u' l' s Hu' Hl' W]; [discriminate| |].
  - rewrite lr_raw in E by auto. cbn [app] in E. injection E as E _. now apply (proj1 (lower_pct _)) in E.
  - rewrite lr_trip in E. cbn [app] in E. injection E as -> -> E. destruct (IH _ _ W E) as (s' & -> & E' & W'). exists s'. auto.
Qed.
Lemma lr_no_unres S s s' : pct_wf s -> pct_wf s' -> lower_raw s = lower_raw s' -> no_unreserved_here S s -> no_unreserved_here S s'.
Proof.
  intros W W' E H c x r -> Sp. rewrite (lr_spelled _ _ _ Sp) in E. destruct (lr_spelled_inv _ _ Sp _ _ W E) as (s2 & -> & _). eapply H; eauto.
Qed.
(** Case changes of raw letters are still case changes after percent-encoding normalization. *)
Lemma lr_pn S s t : pct_normal S s t -> forall s', pct_wf s' -> lower_raw s = lower_raw s' -> exists t', pct_normal S s' t' /\ lower_raw t = lower_raw t'.
Proof.
  induction 1 as [|c s t Hc P IH|c bs s t Sp U P IH|u l s t Hu Hl N P IH]; intros s' W E.
  - destruct W as [|c s Hc W|u' l' s Hu' Hl' W]; [exists []; split; auto; constructor|rewrite lr_raw in E by auto; discriminate|discriminate].
  - rewrite lr_raw in E by auto. destruct W as [|c' s' Hc' W|u' l' s' Hu' Hl' W]; [discriminate| |rewrite lr_trip in E; injection E as E _; now apply (proj1 (lower_pct _)) in E].
    rewrite lr_raw in E by auto. injection E as E E'. destruct (IH _ W E') as (t' & P' & L). exists (c' :: t'). split; [now apply pn_raw|]. rewrite !lr_raw by auto. now rewrite E, L.
  - rewrite (lr_spelled _ _ _ Sp) in E. destruct (lr_spelled_inv _ _ Sp _ _ W (eq_sym E)) as (s2 & -> & E2 & W2). destruct (IH _ W2 (eq_sym E2)) as (t' & P' & L).
    exists (c :: t'). split; [now apply pn_decode|]. assert (c <> 37) by exact (unres_not_pct _ _ U). rewrite !lr_raw by auto. now rewrite L.
  - assert (W0 : pct_wf (37 :: u :: l :: s)) by (apply wf_trip; auto; eapply pn_wf_l; eauto). assert (N' := lr_no_unres S _ _ W0 W E N). rewrite lr_trip in E.
    destruct W as [|c' s' Hc' W|u' l' s' Hu' Hl' W]; [discriminate|rewrite lr_raw in E by auto; injection E as E _; symmetry in E; now apply (proj1 (lower_pct _)) in E|].
    rewrite lr_trip in E. injection E as <- <- E. destruct (IH _ W E) as (t' & P' & L). exists (37 :: upper_hex u :: upper_hex l :: t'). split; [now apply pn_keep|]. rewrite !lr_trip. now rewrite L.
Qed.
(** ASCII-only is kept. *)
Lemma lower_ascii c : c < 128 <-> lower c < 128.
Proof. unfold lower, between. destruct ((65 <=? c) && (c <=? 90)) eqn:E; lia. Qed.
Lemma utf8_low c : Forall (fun x => x < 128) (utf8 c) <-> c < 128.
Proof.
  split; intros H.
  - destruct (N.ltb_spec c 128) as [L|L]; [exact L|]. unfold utf8 in H. rewrite (proj2 (N.ltb_ge c 128) L) in H.
    destruct (c <? 2048) eqn:E1; [|destruct (c <? 65536) eqn:E2]; apply Forall_inv in H; lia.
  - unfold utf8. rewrite (proj2 (N.ltb_lt c 128) H). constructor; auto.
Qed.
Lemma lr_ascii s b : denotes s b -> Forall (fun x => x < 128) b -> forall s', pct_wf s' -> lower_raw s = lower_raw s' -> ascii_only s'.
Proof.
  induction 1 as [|c s b Hc D IH|u l s b Hu Hl D IH]; intros F s' W E.
  - destruct W as [|c s Hc W|u' l' s Hu' Hl' W]; [exists []; split; constructor|rewrite lr_raw in E by auto; discriminate|discriminate].
  - rewrite lr_raw in E by auto. destruct W as [|c' s' Hc' W|u' l' s' Hu' Hl' W]; [discriminate| |rewrite lr_trip in E; injection E as E _; now apply (proj1 (lower_pct _)) in E].
    rewrite lr_raw in E by auto. injection E as E E'. apply Forall_app in F. destruct F as (F1 & F2). destruct (IH F2 _ W E') as (b' & D' & F'). exists (utf8 c' ++ b'). split; [now apply dn_raw|].
    apply Forall_app. split; auto. apply utf8_low. apply utf8_low in F1. apply lower_ascii. rewrite <- E. now apply lower_ascii in F1.
  - rewrite lr_trip in E. destruct W as [|c' s' Hc' W|u' l' s' Hu' Hl' W]; [discriminate|rewrite lr_raw in E by auto; injection E as E _; symmetry in E; now apply (proj1 (lower_pct _)) in E|].
    rewrite lr_trip in E. injection E as <- <- E. destruct (IH (Forall_inv_tail F) _ W E) as (b' & D' & F'). eexists. split; [apply dn_trip; eauto|]. constructor; auto. exact (Forall_inv F).
Qed.
Lemma respell_denotes S s s' b : respell S s s' -> (denotes s b <-> denotes s' b).
Proof.
  intros H. destruct (respell_wf _ _ _ H) as (W & W'). destruct (pn_ex S s W) as (t & P). assert (P' := proj1 (respell_pn S s s' t H) P). rewrite (c18_denotes S s t b P), (c18_denotes S s' t b P'). tauto.
Qed.
Lemma respell_ascii S s s' : respell S s s' -> (ascii_only s <-> ascii_only s').
Proof. intros H. split; intros (b & D & F); exists b; split; auto; apply (respell_denotes S s s' b H); auto. Qed.
Lemma host_step_normal S h h' t : host_step S h h' -> host_normal S h t <-> host_normal S h' t.
Proof.
  intros [x y H|x y W W' A E].
  - assert (A := respell_ascii _ _ _ H). split; intros [u B P|u B P]; [apply hn_ascii|apply hn_other|apply hn_ascii|apply hn_other]; try tauto; apply (respell_pn S x y u H); auto.
  - assert (A' : ascii_only y) by (destruct A as (b & D & F); eapply lr_ascii; eauto).
    split; intros [u B P|u B P]; try tauto.
    + destruct (lr_pn S _ _ P y W' E) as (u' & P' & ->). now apply hn_ascii.
    + destruct (lr_pn S _ _ P x W (eq_sym E)) as (u' & P' & ->). now apply hn_ascii.
Qed.
Lemma host_normal_fun S h t t' : host_normal S h t -> host_normal S h t' -> t = t'.
Proof. intros [u A P|u A P] [u' A' P'|u' A' P']; try tauto; rewrite (pn_fun _ _ _ P _ P'); reflexivity. Qed.
Lemma host_same S h t : host_normal S h t -> same_host S h t.
Proof.
  assert (G : forall x y, same_spelling S x y -> same_host S x y).
  { induction 1 as [x y H|x|x y H IH|x y z H1 IH1 H2 IH2]; [apply rst_step; now constructor|apply rst_refl|now apply rst_sym|eapply rst_trans; eauto]. }
  intros [u A P|u A P]; [|apply G; now apply pn_same]. eapply rst_trans; [apply G, (pn_same _ _ _ P)|]. apply rst_step. assert (W := pn_wf_r _ _ _ P). apply hs_letters; auto using lr_wf.
  - destruct A as (b & D & F). exists b. split; auto. eapply pn_denotes; eauto.
  - symmetry. now apply lr_idem.
Qed.
Lemma host_iff S h h' t t' : host_normal S h t -> host_normal S h' t' -> (t = t' <-> same_host S h h').
Proof.
  intros H H'. split.
  - intros <-. eapply rst_trans; [exact (host_same _ _ _ H)|]. apply rst_sym. exact (host_same _ _ _ H').
  - intros E. assert (X : host_normal S h t <-> host_normal S h' t).
    { clear H H'. induction E as [x y H|x|x y H IH|x y z H1 IH1 H2 IH2]; [now apply host_step_normal|tauto|tauto|tauto]. }
    apply X in H. eapply host_normal_fun; eauto.
Qed.

(** ** Paths *)
Lemma starts_slash_cons s : starts_with (lit "/") s = true <-> exists r, s = 47 :: r.
Proof.
  unfold starts_with. change (lit "/") with [47]. destruct s as [|c s]; cbn [strip_prefix]; [split; [discriminate|intros (r & E); discriminate]|].
  destruct (N.eqb_spec 47 c) as [<-|H]; split; intros; eauto; try discriminate. destruct H0 as (r & E). injection E as -> _. now elim H.
Qed.
Lemma pn_slash_start S s t : pct_normal S s t -> starts_with (lit "/") s = starts_with (lit "/") t.
Proof.
  intros P. apply eq_true_iff_eq. rewrite !starts_slash_cons. split; intros (r & ->).
  - apply pn_raw_inv in P; [|discriminate]. destruct P as (t' & -> & _). eauto.
  - destruct (pn_slash_head _ _ _ r P eq_refl) as (r' & -> & _). eauto.
Qed.

Lemma respell_start S p p' : respell S p p' -> starts_with (lit "/") p = starts_with (lit "/") p'.
Proof.
  intros H. destruct (respell_wf _ _ _ H) as (W & _). destruct (pn_ex S p W) as (t & P). assert (P' := proj1 (respell_pn S p p' t H) P).
  now rewrite (pn_slash_start _ _ _ P), (pn_slash_start _ _ _ P').
Qed.
Lemma pathn_cases S keep h p t : path_normal S keep h p t <->
  (keep && negb h = true /\ starts_with (lit "/") p = false /\ pct_normal S p t) \/
  ((keep && negb h = false \/ starts_with (lit "/") p = true) /\ path_normal S false h p t).
Proof.
  unfold path_normal at 1 2. cbn [andb]. destruct (keep && negb h), (starts_with (lit "/") p); cbn [andb negb]; intuition discriminate.
Qed.
Lemma step_path S keep h p p' t : path_step S (keep && negb h) p p' -> path_normal S keep h p t <-> path_normal S keep h p' t.
Proof.
  intros [x y H|x y W O R].
  - unfold path_normal. rewrite (respell_start _ _ _ H). destruct (keep && negb h && negb (starts_with (lit "/") y)); [exact (respell_pn S x y t H)|].
    split; intros (q & P & R); exists q; split; auto; apply (respell_pn S x y q H); auto.
  - assert (D : starts_with (lit "/") x = true -> starts_with (lit "/") y = true) by (intros X; apply starts_slash_cons; exact (rds_abs _ _ R X)).
    assert (E : path_normal S false h x t <-> path_normal S false h y t).
    { rewrite !path_normal_alt. split; intros (q & R' & P & W').
      - rewrite (rds_fun _ _ _ R' R) in P. exists y. split; [exact (rds_idem _ _ R)|]. split; auto. eapply pn_wf_l; eauto.
      - rewrite (rds_fun _ _ _ R' (rds_idem _ _ R)) in P. exists y. auto. }
    rewrite (pathn_cases S keep h x t), (pathn_cases S keep h y t). rewrite E. assert (O' : keep && negb h = false \/ starts_with (lit "/") y = true) by tauto.
    destruct (keep && negb h); [destruct O as [O|O]; [discriminate|]; destruct O' as [O'|O']; [discriminate|]; rewrite O, O'|]; intuition discriminate.
Qed.
Lemma path_same S keep h p t : path_normal S keep h p t -> same_path S (keep && negb h) p t.
Proof.
  assert (G : forall b x y, same_spelling S x y -> same_path S b x y).
  { intros b. induction 1 as [x y H|x|x y H IH|x y z H1 IH1 H2 IH2]; [apply rst_step; now constructor|apply rst_refl|now apply rst_sym|eapply rst_trans; eauto]. }
  rewrite pathn_cases, path_normal_alt. intros [(_ & _ & P)|(O & q & R & P & W)]; [apply G; now apply pn_same|].
  eapply rst_trans; [apply rst_step, (ps_dots S _ p q W O R)|]. apply G. now apply pn_same.
Qed.
Lemma path_iff S keep h p p' t t' : path_normal S keep h p t -> path_normal S keep h p' t' -> (t = t' <-> same_path S (keep && negb h) p p').
Proof.
  intros H H'. split.
  - intros <-. eapply rst_trans; [exact (path_same _ _ _ _ _ H)|]. apply rst_sym. exact (path_same _ _ _ _ _ H').
  - intros E. assert (X : path_normal S keep h p t <-> path_normal S keep h p' t).
    { clear H H'. induction E as [x y H|x|x y H IH|x y z H1 IH1 H2 IH2]; [now apply step_path|tauto|tauto|tauto]. }
    apply X in H. eapply path_normal_fun; eauto.
Qed.

(** ** Authorities and components *)
Lemma authority_iff S a b a' b' : authority_normal S a a' -> authority_normal S b b' -> (a' = b' <-> same_authority S a b).
Proof.
  intros Na Nb. split.
  - intros <-. destruct Na as (u & h & p & u' & h' & -> & Hu & Hh & Hp & Pu & Ph & E). destruct Nb as (v & k & r & v' & k' & -> & Hv & Hk & Hr & Pv & Pk & E').
    rewrite E in E'. apply (authority_unique S) in E'; eauto using userinfo_normal_ok, host_normal_ok, drop_port. injection E' as <- <- E'.
    exists u, h, p, v, k, r. repeat (split; [now auto|]). split; [now apply (opt_pct_iff S _ _ _ _ Pu Pv)|]. split; auto. now apply (host_iff S _ _ _ _ Ph Pk).
  - intros (u0 & h0 & p0 & v0 & k0 & r0 & E1 & X1 & X2 & X3 & E2 & Y1 & Y2 & Y3 & Pu & Ph & Pp).
    destruct Na as (u & h & p & u' & h' & -> & Hu & Hh & Hp & Ru & Rh & ->). destruct Nb as (v & k & r & v' & k' & -> & Hv & Hk & Hr & Rv & Rk & ->).
    apply (authority_unique S) in E1; auto. injection E1 as <- <- <-. apply (authority_unique S) in E2; auto. injection E2 as <- <- <-.
    apply (opt_pct_iff S _ _ _ _ Ru Rv) in Pu. apply (host_iff S _ _ _ _ Rh Rk) in Ph. subst. now rewrite Pp.
Qed.
Lemma comps_iff S keep C D T U : comps_normal S keep C T -> comps_normal S keep D U -> (T = U <-> equivalent S keep C D).
Proof.
  destruct T as [s a p q f], U as [s' a' p' q' f']. intros (Hs & Ha & Hp & Hq & Hf) (Ks & Ka & Kp & Kq & Kf). cbn [c_s c_a c_p c_q c_f] in *. unfold equivalent.
  assert (Es : s = s' <-> opt_rel (fun x y => map lower x = map lower y) (c_s C) (c_s D)).
  { destruct (c_s C), (c_s D), s, s'; cbn in *; try tauto; try (split; intros; try congruence; now auto). }
  assert (Ea : a = a' <-> opt_rel (same_authority S) (c_a C) (c_a D)).
  { destruct (c_a C), (c_a D), a, a'; cbn in *; try tauto; try (split; intros; try congruence; now auto). rewrite <- (authority_iff S _ _ _ _ Ha Ka). split; congruence. }
  rewrite <- Es, <- Ea, <- (opt_pct_iff S _ _ _ _ Hq Kq), <- (opt_pct_iff S _ _ _ _ Hf Kf).
  assert (Ed : a = a' -> (p = p' <-> same_path S (keep && negb (defined (c_a C))) (c_p C) (c_p D))).
  { intros E. assert (X : defined (c_a C) = defined (c_a D)) by (destruct (c_a C), (c_a D), a, a'; cbn in *; try tauto; try discriminate; auto). rewrite <- X in Kp. now apply path_iff. }
  split.
  - injection 1 as -> -> -> -> ->. repeat split; auto. now apply Ed.
  - intros (-> & -> & X & -> & ->). apply (Ed eq_refl) in X. now subst.
Qed.

(** ** The text determines the normal components *)
Lemma unparse_inj S keep C D T U : loose_ok S C -> loose_ok S D -> comps_normal S keep C T -> comps_normal S keep D U -> unparse T = unparse U -> T = U.
Proof.
  intros LC LD NT NU E. destruct (reread_reads S T (normal_loose _ _ _ _ LC NT)) as (RT & _). destruct (reread_reads S U (normal_loose _ _ _ _ LD NU)) as (RU & _).
  rewrite E in RT. assert (X := reads_unique _ _ _ _ RT RU). destruct T as [s a p q f], U as [s' a' p' q' f']. unfold reread in X. cbn [c_s c_a c_p c_q c_f] in X. injection X as -> -> X -> ->. f_equal.
  destruct a' as [a'|]; cbn [safe_path] in X; [exact X|].
  assert (G : forall W r x, comps_normal S keep W (mkC s' None r q' f') -> r = lit "/." ++ x -> starts_with (lit "//") x = true -> False).
  { intros W r x (_ & _ & Hp & _) -> Hx. cbn [c_p] in Hp. apply starts_slash_iff in Hx. destruct Hx as (x' & ->). apply pathn_cases in Hp. destruct Hp as [(_ & Z & P)|(_ & P)].
    - apply pn_slash_start in P. rewrite Z in P. discriminate.
    - destruct (path_normal_is _ _ _ _ P) as (Dl & Pn). apply (dots_iff S) in Dl; auto. exact (guard_not_clean x' Dl). }
  destruct (starts_with (lit "//") p) eqn:B1, (starts_with (lit "//") p') eqn:B2; auto.
  - now apply app_inv_head in X.
  - exfalso. exact (G _ _ _ NU (eq_sym X) B1).
  - exfalso. exact (G _ _ _ NT X B2).
Qed.
Lemma c46_decides S (keep : bool) i j C D : reads S i C -> reads S j D -> defined (c_s C) = true -> defined (c_s D) = true ->
  exists n m out out', (if keep then normalize_preserve i else normalize i) = Ok n /\ display S n = Ok out /\
    (if keep then normalize_preserve j else normalize j) = Ok m /\ display S m = Ok out' /\ (out = out' <-> equivalent S keep C D).
Proof.
  intros RC RD DC DD. destruct (c15_components S keep i C RC DC) as (n & T & E1 & N1 & _ & X1). destruct (c15_components S keep j D RD DD) as (m & U & E2 & N2 & _ & X2).
  exists n, m, (unparse T), (unparse U). repeat (split; [assumption|]). rewrite <- (comps_iff _ _ _ _ _ _ N1 N2). split; [|now intros ->].
  apply (unparse_inj S keep C D); auto; apply comps_loose; auto; [apply RC|apply RD].
Qed.
Lemma c46_applies S i : IRI S i -> exists C, reads S i C /\ defined (c_s C) = true /\ forall C', reads S i C' -> C' = C.
Proof. intros H. apply iri_reads in H. destruct H as (C & R & D). exists C. repeat split; auto; try apply R. intros C' R'. exact (reads_unique _ _ _ _ R' R). Qed.
Lemma c46_text S s s' : pct_wf s -> pct_wf s' -> exists t t', text (PctCaseNormalized S s) = Ok t /\ text (PctCaseNormalized S s') = Ok t' /\ (t = t' <-> same_spelling S s s').
Proof.
  intros W W'. destruct (c18_display S s W) as (t & E & P & _). destruct (c18_display S s' W') as (t' & E' & P' & _). exists t, t'. repeat (split; [assumption|]). exact (pct_iff _ _ _ _ _ P P').
Qed.
Lemma c46_sound S (keep : bool) i C : reads S i C -> defined (c_s C) = true ->
  exists n out T, (if keep then normalize_preserve i else normalize i) = Ok n /\ display S n = Ok out /\ reads S out T /\ equivalent S keep C T.
Proof.
  intros R D. destruct (c15_components S keep i C R D) as (n & T & E & N & _ & X). assert (L : loose_ok S T) by (eapply normal_loose; eauto; apply comps_loose; auto; apply R).
  destruct (reread_reads S T L) as (RT & DT). exists n, (unparse T), (reread T). repeat (split; [assumption|]).
  assert (V : IRI S i) by (eapply reads_iri; eauto). destruct (norm_idem S keep i V) as (n0 & out & n' & E0 & X0 & E1 & X1). unfold norm_input in E0, E1. rewrite E in E0. injection E0 as <-. rewrite X in X0. injection X0 as <-.
  destruct (c46_decides S keep i (unparse T) C (reread T) R RT D) as (n1 & m & o & o' & F1 & G1 & F2 & G2 & I); [exact DT|]. rewrite E in F1. injection F1 as <-. rewrite X in G1. injection G1 as <-. rewrite E1 in F2. injection F2 as <-. rewrite X1 in G2. injection G2 as <-. now apply I.
Qed.
