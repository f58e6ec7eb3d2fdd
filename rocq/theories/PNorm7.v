(** * Lemmas behind PropResolve.v and PropNormalize.v (proofs only). *)
From Verif Require Import Base Chars Rfc3986 Utf8 CompSpec RfcResolve PctSpec NormSpec MValidate MTrusted MFormat MPct MPath MNormalize
  PBase PScan PHost PAuth PValidate PTrusted PComps PAscii PTypes PTypes2 PPath PPath2 PPath3 PPath4 PPct PPct2 PPct3 PPct4 PPath5 PResolve PRds PNorm PNorm2 PNorm3 PNorm4 PNorm5 PNorm6.

Ltac rd C H := destruct C as [? ? ? ? ?]; unfold reads, comps_ok in H; cbn [c_s c_a c_p c_q c_f] in H; destruct H as [? ->].
Lemma reads_reference S i C : reads S i C -> IRI_reference S i.
Proof. intros [H ->]. apply reference_comps. do 5 eexists. split; [reflexivity|exact H]. Qed.
Lemma reads_iri S i C : reads S i C -> defined (c_s C) = true -> IRI S i.
Proof. destruct C as [[s|] a p q f]; [|discriminate]. intros [H ->] _. apply IRI_comps. do 5 eexists. split; [reflexivity|exact H]. Qed.
Lemma iri_reads S i : IRI S i -> exists C, reads S i C /\ defined (c_s C) = true.
Proof. intros H. apply IRI_comps in H. destruct H as (s & a & p & q & f & -> & H). exists (mkC (Some s) a p q f). repeat split; auto; apply H. Qed.
Lemma reference_reads S i : IRI_reference S i -> exists C, reads S i C.
Proof. intros H. apply reference_comps in H. destruct H as (s & a & p & q & f & -> & H). exists (mkC s a p q f). repeat split; auto; apply H. Qed.
Lemma reads_unique S i C D : reads S i C -> reads S i D -> C = D.
Proof.
  destruct C as [s a p q f], D as [s' a' p' q' f']. intros [H ->] [H' E]. cbn [c_s c_a c_p c_q c_f] in *.
  apply recompose_inj in E; [|eapply components_weak; exact H|eapply components_weak; exact H']. destruct E as (-> & -> & -> & -> & ->). reflexivity.
Qed.
Lemma reads_major S i C : reads S i C -> to_major i = Ok (c_s C, c_a C, c_p C, c_q C, c_f C).
Proof. intros [H ->]. apply (recompose_valid S). exact H. Qed.
Lemma reread_reads S C : loose_ok S C -> reads S (unparse C) (reread C) /\ defined (c_s C) = true.
Proof. intros L. destruct (loose_target _ _ L) as [O D]. split; auto. split; auto. Qed.
Lemma dedicated_ok debug S n out : display S n = Ok out -> IRI S out -> to_dedicated_string debug S TIri n = Ok out.
Proof. intros E H. unfold to_dedicated_string. rewrite E. cbn [bind]. apply unchecked_ok. now apply (validate_iff S TIri). Qed.
(** ** Resolution *)
Lemma target_loose S B R T : comps_ok S B -> defined (c_s B) = true -> comps_ok S R -> transform B R T -> loose_ok S T.
Proof.
  intros HB DB HR Tr. destruct B as [[bs|] ba bp bq bf]; [|discriminate]. assert (LB : loose_ok S (mkC (Some bs) ba bp bq bf)) by now apply comps_loose.
  destruct R as [rs ra rp rq rf]. 
  destruct (resolve_pre S bs ba bp bq bf rs ra rp rq rf HB HR) as (n & M & _ & P & L & _).
  destruct (pre_transform_rds _ _ _ _ P Tr) as (E1 & E2 & E3 & E4 & E5). unfold loose_ok. rewrite E1, E2, E3, E4. destruct L as (L1 & L2 & L3 & L4 & L5 & L6). repeat split; auto.
  - destruct E5 as [E5|E5]; [|now rewrite E5]. unfold path_class in *. eapply rds_scan; eauto. apply f_pchar_slash_char.
  - intros X. destruct E5 as [E5|E5]; [|rewrite E5; auto]. eapply rds_slashy; eauto.
Qed.
Lemma resolve_spec S base ref B R : reads S base B -> defined (c_s B) = true -> reads S ref R ->
  exists n T, resolve base ref = Ok n /\ transform B R T /\ (forall T', transform B R T' -> T' = T) /\ display S n = Ok (unparse T) /\ reads S (unparse T) (reread T) /\ IRI S (unparse T).
Proof.
  intros HB DB HR. destruct B as [[bs|] ba bp bq bf]; [|discriminate]. destruct R as [rs ra rp rq rf]. destruct HB as [HB ->], HR as [HR ->]. cbn [c_s c_a c_p c_q c_f] in *.
  assert (WB := components_weak _ _ _ _ _ _ HB). assert (WR := components_weak _ _ _ _ _ _ HR).
  destruct (resolve_transform S bs ba bp bq bf rs ra rp rq rf WB WR) as (T & Tr & DT & E). exists (input_of bs ba bp bq rs ra rp rq rf), T. split; [now apply resolve_rec|]. split; auto.
  split; [intros T' Tr'; eapply transform_fun; eauto|]. split; [eapply outs_text; exact E|].
  destruct (reread_reads S T (target_loose S _ _ T HB eq_refl HR Tr)) as [X Y]. split; auto. eapply reads_iri; eauto.
Qed.
Lemma resolve_norm_spec S k base ref B R : reads S base B -> defined (c_s B) = true -> reads S ref R ->
  exists n M T, resolve base ref = Ok n /\ pre_transform B R M /\ comps_normal S k M T /\ display S (set_mode n (mode_keep k)) = Ok (unparse T) /\ reads S (unparse T) (reread T) /\ IRI S (unparse T).
Proof.
  intros HB DB HR. destruct B as [[bs|] ba bp bq bf]; [|discriminate]. destruct R as [rs ra rp rq rf]. destruct HB as [HB ->], HR as [HR ->]. cbn [c_s c_a c_p c_q c_f] in *.
  destruct (resolve_normal S k bs ba bp bq bf rs ra rp rq rf HB HR) as (n & M & T & E1 & P & L & N & E2). exists n, M, T. split; auto. split; auto. split; auto. split; [eapply outs_text; exact E2|].
  destruct (reread_reads S T (normal_loose _ _ _ _ L N)) as [X Y]. split; auto. eapply reads_iri; eauto.
Qed.
Lemma resolve_valid S base ref mode debug : IRI S base -> IRI_reference S ref ->
  exists n out, resolve base ref = Ok n /\ display S (set_mode n mode) = Ok out /\ IRI S out /\ to_dedicated_string debug S TIri (set_mode n mode) = Ok out.
Proof.
  intros HB HR. apply iri_reads in HB. destruct HB as (B & HB & DB). apply reference_reads in HR. destruct HR as (R & HR).
  assert (G : exists n out, resolve base ref = Ok n /\ display S (set_mode n mode) = Ok out /\ IRI S out).
  { destruct mode.
    - destruct (resolve_spec S base ref B R HB DB HR) as (n & T & E & _ & _ & D & _ & I). exists n, (unparse T). split; auto. split; auto.
      assert (Z : set_mode n MNone = n); [|now rewrite Z]. clear - E HB HR DB. destruct B as [[bs|] ba bp bq bf]; [|discriminate]. destruct R as [rs ra rp rq rf]. destruct HB as [HB ->], HR as [HR ->]. cbn [c_s c_a c_p c_q c_f] in *.
      rewrite resolve_rec in E by (eapply components_weak; eauto). injection E as <-. unfold input_of. destruct rs, ra; auto. destruct (is_empty rp); reflexivity.
    - destruct (resolve_norm_spec S false base ref B R HB DB HR) as (n & M & T & E & _ & _ & D & _ & I). exists n, (unparse T). auto.
    - destruct (resolve_norm_spec S true base ref B R HB DB HR) as (n & M & T & E & _ & _ & D & _ & I). exists n, (unparse T). auto. }
  destruct G as (n & out & E & D & I). exists n, out. repeat split; auto. now apply dedicated_ok.
Qed.
(** ** RFC algorithm to the letter when no dot is percent-encoded. *)
Lemma no_2e_app a b : no_2e (a ++ SLASH :: b) <-> no_2e a /\ no_2e b.
Proof.
  split.
  - intros H. split; intros x y; split; intros ->.
    + apply (proj1 (H x (y ++ SLASH :: b))). now rewrite <- !app_assoc.
    + apply (proj2 (H x (y ++ SLASH :: b))). now rewrite <- !app_assoc.
    + apply (proj1 (H (a ++ SLASH :: x) y)). now rewrite <- !app_assoc.
    + apply (proj2 (H (a ++ SLASH :: x) y)). now rewrite <- !app_assoc.
  - intros [Ha Hb].
    assert (G : forall d, ~ In SLASH d -> d <> [] -> (forall x y, a <> x ++ d ++ y) -> (forall x y, b <> x ++ d ++ y) -> forall x y, a ++ SLASH :: b <> x ++ d ++ y).
    { intros d Nd Hd A0 B0 x y E. apply app_eq_app in E. destruct E as (l & [[E1 E2]|[E1 E2]]).
      - apply app_eq_app in E2. destruct E2 as (l2 & [[E2 E3]|[E2 E3]]).
        + subst d. destruct l2 as [|z l2]; [rewrite app_nil_r in A0; apply (A0 x []); now rewrite app_nil_r|]. cbn in E3. injection E3 as <- _. apply Nd. apply in_or_app. right. now left.
        + subst l. now apply (A0 x l2).
      - destruct l as [|z l]; cbn in E2.
        + destruct d as [|z d]; [easy|]. injection E2 as <- _. apply Nd. now left.
        + injection E2 as <- E2. now apply (B0 l y). }
    intros x y. split; apply G; try (intros [X|[X|[X|[]]]]; discriminate); try discriminate; intros u v; try apply Ha; apply Hb.
Qed.
Lemma rds_with_literal B R T : no_2e (c_p B) -> no_2e (c_p R) -> transform B R T -> transform_with rds_literal B R T.
Proof.
  intros HB HR Tr. destruct Tr as [p A1 R1|p A1 A2 R1|A1 A2 A3|r p A1 A2 A3 R1|m p A1 A2 A3 A4 M1 R1].
  - apply tr_scheme; auto. now apply rds_is_literal.
  - apply tr_authority; auto. now apply rds_is_literal.
  - now apply tr_empty_path.
  - apply (tr_abs_path _ _ _ r); auto. now apply rds_is_literal.
  - apply (tr_rel_path _ _ _ m); auto. apply rds_is_literal; auto. destruct M1 as [_ _|dir last _ E _|_ _]; auto.
    + apply (no_2e_app []). split; auto. intros a b. split; intros X; destruct a; discriminate.
    + apply no_2e_app. split; auto. rewrite E in HB. now apply no_2e_app in HB.
Qed.
(** ** Normalization *)
Lemma norm_spec S k i C : reads S i C -> defined (c_s C) = true ->
  exists n T, norm_input k i = Ok n /\ comps_normal S k C T /\ (forall T', comps_normal S k C T' -> T' = T) /\ display S n = Ok (unparse T) /\ reads S (unparse T) (reread T) /\ IRI S (unparse T).
Proof.
  intros [H ->] D. destruct C as [[s|] a p q f]; [|discriminate]. cbn [c_s c_a c_p c_q c_f] in *. destruct (normalize_ok S k s a p q f H) as (n & T & E1 & N & E2).
  exists n, T. split; auto. split; auto. split; [intros T' N'; eapply comps_normal_fun; eauto|]. split; [eapply outs_text; exact E2|].
  assert (L := comps_loose S (mkC (Some s) a p q f) H eq_refl). destruct (reread_reads S T (normal_loose _ _ _ _ L N)) as [X Y]. split; auto. eapply reads_iri; eauto.
Qed.
Lemma norm_valid S k i debug : IRI S i -> exists n out, norm_input k i = Ok n /\ display S n = Ok out /\ IRI S out /\ to_dedicated_string debug S TIri n = Ok out.
Proof.
  intros H. apply iri_reads in H. destruct H as (C & H & D). destruct (norm_spec S k i C H D) as (n & T & E & _ & _ & Di & _ & I). exists n, (unparse T). repeat split; auto. now apply dedicated_ok.
Qed.
Lemma norm_valid_absolute S k i debug : new S TAbsolute i = Ok i -> exists n out, norm_input k i = Ok n /\ display S n = Ok out /\ new S TAbsolute out = Ok out /\ to_dedicated_string debug S TAbsolute n = Ok out.
Proof.
  intros H. apply new_ok in H. apply absolute_code_comps in H. destruct H as (s & a & p & q & f & -> & H & Hf).
  destruct (norm_spec S k _ (mkC (Some s) a p q f) (conj H eq_refl) eq_refl) as (n & T & E & N & _ & Di & R & I). exists n, (unparse T). split; auto. split; auto.
  assert (X : ty_lang S TAbsolute (unparse T)).
  { apply absolute_code_comps. destruct T as [s' a' p' q' f']. destruct R as [R _]. unfold reread in R. cbn [c_s c_a c_p c_q c_f] in *. destruct N as (Ns & _ & _ & _ & Nf). cbn [c_s c_f] in *. destruct s' as [s'|]; [|contradiction].
    exists s', a', (safe_path a' p'), q', f'. split; [reflexivity|]. split; [exact R|]. destruct Hf as [-> | ->], f' as [f'|]; try contradiction; auto. cbn in Nf. apply pn_nil_inv in Nf. subst. auto. }
  split; [now apply new_ok|]. unfold to_dedicated_string. rewrite Di. cbn [bind]. apply unchecked_ok. now apply (validate_iff S TAbsolute).
Qed.
Lemma norm_idem S k i : IRI S i -> exists n out n', norm_input k i = Ok n /\ display S n = Ok out /\ norm_input k out = Ok n' /\ display S n' = Ok out.
Proof.
  intros H. apply iri_reads in H. destruct H as (C & H & D). destruct (norm_spec S k i C H D) as (n & T & E & N & _ & Di & R & I).
  destruct (norm_spec S k (unparse T) (reread T) R) as (n' & T' & E' & N' & U & Di' & _); [change (defined (c_s T) = true); destruct N as (Ns & _); destruct (c_s C), (c_s T); try contradiction; try discriminate; reflexivity|].
  exists n, (unparse T), n'. repeat split; auto. rewrite Di'. f_equal. f_equal. symmetry. apply U. eapply comps_normal_idem; eauto.
Qed.
(** ** Resolution with normalization is normalization of the resolution. *)
Lemma normal_reread S B R T0 T : transform B R T0 -> comps_ok S B -> comps_normal S false T0 T -> comps_normal S false (reread T0) T.
Proof.
  intros Tr HB N. assert (G : dotless (c_p T0) \/ fb (c_a T0) (c_p T0) = false).
  { destruct Tr as [p A1 R1|p A1 A2 R1|A1 A2 A3|r p A1 A2 A3 R1|m p A1 A2 A3 A4 M1 R1]; cbn [c_a c_p]; try (left; eapply rds_dotless; eauto; fail). right.
    assert (W := components_weak _ _ _ _ _ _ HB). destruct W as (_ & X & _). unfold fb. destruct (c_a B); auto. }
  destruct T0 as [s a p q f], N as (N1 & N2 & N3 & N4 & N5). unfold reread. cbn [c_s c_a c_p c_q c_f] in *. repeat split; cbn [c_s c_a c_p c_q c_f]; auto.
  destruct a as [a|]; auto. unfold safe_path. unfold fb in G. destruct (starts_with (lit "//") p) eqn:E; auto. destruct G as [G|]; [|discriminate].
  apply path_normal_alt in N3. destruct N3 as (x & R1 & P & Wp). rewrite (rds_fun _ _ _ R1 (dotless_rds _ G)) in P. apply path_normal_alt. exists p. apply starts_slash_iff in E. destruct E as (r & ->). split; [|split; auto].
  - apply rds_guarded; auto; [right; eauto|discriminate].
  - change (lit "/." ++ 47 :: 47 :: r) with (47 :: 46 :: 47 :: 47 :: r). constructor; [discriminate|]. constructor; [discriminate|auto].
Qed.
Lemma resolve_then_normalize S base ref : IRI S base -> IRI_reference S ref -> exists n r n' out,
  resolve base ref = Ok n /\ display S n = Ok r /\ normalize r = Ok n' /\ display S n' = Ok out /\ display S (set_mode n MDefault) = Ok out.
Proof.
  intros HB HR. apply iri_reads in HB. destruct HB as (B & HB & DB). apply reference_reads in HR. destruct HR as (R & HR).
  destruct (resolve_spec S base ref B R HB DB HR) as (n & T0 & E & Tr & _ & D & R0 & I0).
  destruct (resolve_norm_spec S false base ref B R HB DB HR) as (n2 & M & T & E2 & P & N & D2 & _). rewrite E in E2. injection E2 as <-.
  destruct (norm_spec S false (unparse T0) (reread T0) R0) as (n' & T' & E' & N' & U & D' & _).
  { apply iri_reads in I0. destruct I0 as (C & HC & DC). now rewrite (reads_unique _ _ _ _ R0 HC). }
  exists n, (unparse T0), n', (unparse T). repeat split; auto. rewrite D'. f_equal. f_equal. symmetry. apply U. eapply normal_reread; eauto; [apply HB|]. eapply normal_target; eauto.
Qed.
(** ** is_normalized *)
Lemma is_normalized_spec S i C mode : reads S i C -> defined (c_s C) = true -> (forall x, c_a C <> Some (x ++ lit ":")) ->
  exists n out b, norm_input (ck_keep mode) i = Ok n /\ display S n = Ok out /\ is_normalized S i mode = Ok b /\
    (b = true <-> out = i /\ (mode = CkRfc3986 -> ensure_rfc3986_normalizable n = Ok true)).
Proof.
  intros [H ->] D NC. destruct C as [[s|] a p q f]; [|discriminate]. cbn [c_s c_a c_p c_q c_f] in *.
  destruct (is_normalized_fixpoint S s a p q f mode H NC) as (b & T & Eb & N & Hb).
  destruct (norm_spec S (ck_keep mode) _ (mkC (Some s) a p q f) (conj H eq_refl) eq_refl) as (n & T' & En & N' & _ & Di & _). cbn [c_s c_a c_p c_q c_f] in En. rewrite (comps_normal_fun _ _ _ _ _ N' N) in Di.
  exists n, (unparse T), b. repeat split; auto; try (apply Hb; auto; fail).
  - intros ->. destruct (ensure_normalize S false s a p q f H) as (n2 & b2 & T2 & E2 & Ee & N2 & Hb2). cbn [ck_keep] in *. rewrite En in E2. injection E2 as <-. rewrite Ee. f_equal. apply Hb2. rewrite (comps_normal_fun _ _ _ _ _ N2 N). apply Hb; auto.
  - intros [E1 E2]. apply Hb. split; auto. intros ->. specialize (E2 eq_refl). destruct (ensure_normalize S false s a p q f H) as (n2 & b2 & T2 & E3 & Ee & N2 & Hb2). cbn [ck_keep] in *. rewrite En in E3. injection E3 as <-. rewrite Ee in E2. injection E2 as ->.
    rewrite <- (comps_normal_fun _ _ _ _ _ N2 N). now apply Hb2.
Qed.
(** ** Laws *)
Lemma resolve_scheme S base base' ref : IRI S base -> IRI S base' -> IRI S ref -> exists n n' out,
  resolve base ref = Ok n /\ resolve base' ref = Ok n' /\ display S n = Ok out /\ display S n' = Ok out.
Proof.
  intros HB HB' HR. apply iri_reads in HB. destruct HB as (B & HB & DB). apply iri_reads in HB'. destruct HB' as (B' & HB' & DB'). apply iri_reads in HR. destruct HR as (R & HR & DR).
  destruct (resolve_spec S base ref B R HB DB HR) as (n & T & E & Tr & _ & D & _). destruct (resolve_spec S base' ref B' R HB' DB' HR) as (n' & T' & E' & Tr' & U & D' & _).
  exists n, n', (unparse T). repeat split; auto. rewrite D'. f_equal. f_equal. symmetry. apply U. destruct Tr; try congruence. now apply tr_scheme.
Qed.
Lemma resolve_frag_only S base B (f : option str) : reads S base B -> defined (c_s B) = true -> opt_in (fragment S) f -> exists n,
  resolve base (recompose None None [] None f) = Ok n /\ display S n = Ok (recompose (c_s B) (c_a B) (c_p B) (c_q B) f).
Proof.
  intros HB DB Hf. assert (HR : reads S (recompose None None [] None f) (mkC None None [] None f)). { split; auto. repeat split; auto. cbn. right. now right. }
  destruct (resolve_spec S base _ B _ HB DB HR) as (n & T & E & Tr & U & D & _). exists n. split; auto. rewrite D. f_equal.
  rewrite <- (U (mkC (c_s B) (c_a B) (c_p B) (c_q B) f)); [|now apply (tr_empty_path rds B (mkC None None [] None f))]. unfold unparse. cbn [c_s c_a c_p c_q c_f]. f_equal.
  unfold safe_path. destruct HB as [HB _]. destruct (components_weak _ _ _ _ _ _ HB) as (_ & X & _). destruct (c_a B); auto. change (starts_with (lit "//") (c_p B) = false) in X. now rewrite X.
Qed.
Lemma resolve_query_only S base B q (f : option str) : reads S base B -> defined (c_s B) = true -> query S q -> opt_in (fragment S) f -> exists n,
  resolve base (recompose None None [] (Some q) f) = Ok n /\ display S n = Ok (recompose (c_s B) (c_a B) (c_p B) (Some q) f).
Proof.
  intros HB DB Hq Hf. assert (HR : reads S (recompose None None [] (Some q) f) (mkC None None [] (Some q) f)). { split; auto. repeat split; auto. cbn. right. now right. }
  destruct (resolve_spec S base _ B _ HB DB HR) as (n & T & E & Tr & U & D & _). exists n. split; auto. rewrite D. f_equal.
  rewrite <- (U (mkC (c_s B) (c_a B) (c_p B) (Some q) f)); [|now apply (tr_empty_path rds B (mkC None None [] (Some q) f))]. unfold unparse. cbn [c_s c_a c_p c_q c_f]. f_equal.
  unfold safe_path. destruct HB as [HB _]. destruct (components_weak _ _ _ _ _ _ HB) as (_ & X & _). destruct (c_a B); auto. change (starts_with (lit "//") (c_p B) = false) in X. now rewrite X.
Qed.
(** The fragment of the base does not matter. *)
Lemma transform_frag rm s a p q f f' R T : transform_with rm (mkC s a p q f) R T -> transform_with rm (mkC s a p q f') R T.
Proof.
  intros Tr. destruct Tr as [t A1 R1|t A1 A2 R1|A1 A2 A3|r t A1 A2 A3 R1|m t A1 A2 A3 A4 M1 R1].
  - now apply (tr_scheme rm (mkC s a p q f')).
  - now apply (tr_authority rm (mkC s a p q f')).
  - now apply (tr_empty_path rm (mkC s a p q f')).
  - now apply (tr_abs_path rm (mkC s a p q f') R r).
  - now apply (tr_rel_path rm (mkC s a p q f') R m).
Qed.
Lemma resolve_base_fragment S s a p q f f' ref : components_ok S (Some s) a p q f -> components_ok S (Some s) a p q f' -> IRI_reference S ref -> exists n n' out,
  resolve (recompose (Some s) a p q f) ref = Ok n /\ resolve (recompose (Some s) a p q f') ref = Ok n' /\ display S n = Ok out /\ display S n' = Ok out.
Proof.
  intros H H' HR. apply reference_reads in HR. destruct HR as (R & HR).
  destruct (resolve_spec S _ ref (mkC (Some s) a p q f) R (conj H eq_refl) eq_refl HR) as (n & T & E & Tr & _ & D & _). destruct (resolve_spec S _ ref (mkC (Some s) a p q f') R (conj H' eq_refl) eq_refl HR) as (n' & T' & E' & Tr' & U & D' & _).
  exists n, n', (unparse T). repeat split; auto. rewrite D'. f_equal. f_equal. symmetry. apply U. eapply transform_frag; eauto.
Qed.
(** Re-resolving the result. *)
Lemma resolve_again S base base' ref R : IRI S base -> IRI S base' -> reads S ref R -> defined (c_s R) = true \/ defined (c_a R) = true \/ c_p R <> [] -> exists n out n',
  resolve base ref = Ok n /\ display S n = Ok out /\ resolve base' out = Ok n' /\ display S n' = Ok out.
Proof.
  intros HB HB' HR Ne. apply iri_reads in HB. destruct HB as (B & HB & DB). apply iri_reads in HB'. destruct HB' as (B' & HB' & DB').
  destruct (resolve_spec S base ref B R HB DB HR) as (n & T & E & Tr & _ & D & RT & IT).
  destruct (resolve_spec S base' (unparse T) B' (reread T) HB' DB' RT) as (n' & T' & E' & Tr' & U & D' & _). exists n, (unparse T), n'. repeat split; auto. rewrite D'. f_equal. f_equal. symmetry. apply U.
  assert (DT : defined (c_s T) = true). { apply iri_reads in IT. destruct IT as (C & HC & DC). rewrite <- (reads_unique _ _ _ _ RT HC) in DC. exact DC. }
  assert (Dl : dotless (c_p T)).
  { destruct Tr as [p A1 R1|p A1 A2 R1|A1 A2 A3|r p A1 A2 A3 R1|m p A1 A2 A3 A4 M1 R1]; cbn [c_p]; try (eapply rds_dotless; eauto; fail). exfalso. destruct Ne as [X|[X|X]]; congruence. }
  assert (X : rds (safe_path (c_a T) (c_p T)) (c_p T)).
  { unfold safe_path. destruct (c_a T); [now apply dotless_rds|]. destruct (starts_with (lit "//") (c_p T)) eqn:E2; [|now apply dotless_rds]. apply starts_slash_iff in E2. destruct E2 as (r & Er). apply rds_guarded; auto; [right; eauto|]. rewrite Er. discriminate. }
  destruct T as [s a p q f]. unfold reread. cbn [c_s c_a c_p c_q c_f] in *. change (transform_with rds B' (mkC s a (safe_path a p) q f) (mkC (c_s (mkC s a (safe_path a p) q f)) (c_a (mkC s a (safe_path a p) q f)) p (c_q (mkC s a (safe_path a p) q f)) (c_f (mkC s a (safe_path a p) q f)))). apply tr_scheme; auto.
Qed.
