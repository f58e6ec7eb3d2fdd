(** * What a resolution depends on (C67). *)
From Verif Require Import Base Chars Rfc3986 CompSpec RfcResolve PctSpec NormSpec ConfineSpec DependSpec.
From Verif Require Import MValidate MTrusted MFormat MPct MPath MNormalize PBase PTrusted PPath5 PResolve PNorm2 PNorm3 PNorm6 PNorm7 PNorm8 PRds PBaseNorm PSteps2 PConfine PChild.

Lemma merge_agree B B' d r m : directory B d -> directory B' d -> merge (defined (c_a B)) (c_p B) r m -> merge (defined (c_a B')) (c_p B') r m.
Proof.
  intros H H' M. destruct (merge_directory B d r H) as [(dir & E & M1)|(E & M1)], (merge_directory B' d r H') as [(dir' & E' & M2)|(E' & M2)];
    rewrite (merge_fun _ _ _ _ _ M M1).
  - rewrite E in E'. apply app_inv_tail in E'. now subst dir'.
  - rewrite E' in E. now destruct dir.
  - rewrite E in E'. now destruct dir'.
  - exact M2.
Qed.
Lemma transform_agree B B' R T : agree R B B' -> transform B R T -> transform B' R T.
Proof.
  intros G H. destruct H as [p X P|p X Y P|X Y Z|r p X Y Z P|m p X Y Z U M P].
  - now apply tr_scheme.
  - destruct G; try congruence; match goal with E : c_s B = c_s B' |- _ => rewrite E; now apply tr_authority end.
  - destruct G as [K|K _|r K|d K|K E1 E2 E3|E1 E2 E3 E4]; try congruence.
    + rewrite Z in K. discriminate.
    + rewrite K, E1, E2, E3. pose proof (tr_empty_path rds B' R X Y Z) as W. now rewrite K in W.
    + rewrite E1, E2, E3, E4. now apply tr_empty_path.
  - destruct G as [K|K _|r' K E1 E2|d K E1 E2|K E1 E2 E3|E1 E2 E3 E4]; try congruence; rewrite E1, E2; now apply (tr_abs_path rds B' R r).
  - destruct G as [K|K _|r' K E1 E2|d K E1 E2 D1 D2|K E1 E2 E3|E1 E2 E3 E4]; try congruence.
    + pose proof (merge_agree _ _ _ _ _ D1 D2 M) as M'. rewrite E1, E2. now apply (tr_rel_path rds B' R m).
    + rewrite E1, E2. apply (tr_rel_path rds B' R m); auto. now rewrite <- E2, <- E3.
    + rewrite E1, E2. apply (tr_rel_path rds B' R m); auto. now rewrite <- E2, <- E3.
Qed.
Lemma pre_agree B B' R T : agree R B B' -> pre_transform B R T -> pre_transform B' R T.
Proof.
  intros G H. destruct H as [X|X Y|X Y Z|r X Y Z|m X Y Z U M].
  - now apply pt_scheme.
  - destruct G; try congruence; match goal with E : c_s B = c_s B' |- _ => rewrite E; now apply pt_authority end.
  - destruct G as [K|K _|r K|d K|K E1 E2 E3|E1 E2 E3 E4]; try congruence.
    + rewrite Z in K. discriminate.
    + rewrite K, E1, E2, E3. pose proof (pt_empty_path B' R X Y Z) as W. now rewrite K in W.
    + rewrite E1, E2, E3, E4. now apply pt_empty_path.
  - destruct G as [K|K _|r' K E1 E2|d K E1 E2|K E1 E2 E3|E1 E2 E3 E4]; try congruence; rewrite E1, E2; now apply (pt_abs_path B' R r).
  - destruct G as [K|K _|r' K E1 E2|d K E1 E2 D1 D2|K E1 E2 E3|E1 E2 E3 E4]; try congruence.
    + pose proof (merge_agree _ _ _ _ _ D1 D2 M) as M'. rewrite E1, E2. now apply (pt_rel_path B' R m).
    + rewrite E1, E2. apply (pt_rel_path B' R m); auto. now rewrite <- E2, <- E3.
    + rewrite E1, E2. apply (pt_rel_path B' R m); auto. now rewrite <- E2, <- E3.
Qed.
Lemma pre_fun B R T T' : pre_transform B R T -> pre_transform B R T' -> T = T'.
Proof.
  intros H H'. destruct H as [X|X Y|X Y Z|r X Y Z|m X Y Z U M], H' as [X'|X' Y'|X' Y' Z'|r' X' Y' Z'|m' X' Y' Z' U' M']; try congruence; auto;
    try (rewrite Z in Z'; discriminate); try (now elim (U r')); try (now elim (U' r)).
  now rewrite (merge_fun _ _ _ _ _ M M').
Qed.
Lemma mode_none S base ref B R n : reads S base B -> defined (c_s B) = true -> reads S ref R -> resolve base ref = Ok n -> set_mode n MNone = n.
Proof.
  intros HB DB HR E. destruct B as [[bs|] ba bp bq bf]; [|discriminate]. destruct R as [rs ra rp rq rf]. destruct HB as [HB ->], HR as [HR ->]. cbn [c_s c_a c_p c_q c_f] in *.
  rewrite resolve_rec in E; [|apply (components_weak S _ _ _ _ bf); exact HB|apply (components_weak S _ _ _ _ rf); exact HR]. injection E as <-.
  unfold input_of. destruct rs, ra, rp; reflexivity.
Qed.
Lemma c67_depends S base base' ref B B' R : reads S base B -> defined (c_s B) = true -> reads S base' B' -> defined (c_s B') = true -> reads S ref R ->
  agree R B B' -> exists n n', resolve base ref = Ok n /\ resolve base' ref = Ok n' /\
    forall mode, exists out, display S (set_mode n mode) = Ok out /\ display S (set_mode n' mode) = Ok out.
Proof.
  intros HB DB HB' DB' HR G.
  destruct (resolve_spec S base ref B R HB DB HR) as (n & T & H1 & Tr & _ & H2 & _). destruct (resolve_spec S base' ref B' R HB' DB' HR) as (n' & T' & H1' & _ & U & H2' & _).
  exists n, n'. split; [exact H1|]. split; [exact H1'|].
  assert (K : forall k, exists out, display S (set_mode n (mode_keep k)) = Ok out /\ display S (set_mode n' (mode_keep k)) = Ok out).
  { intros k. destruct (resolve_norm_spec S k base ref B R HB DB HR) as (m & M & N & E1 & P & Nn & Dn & _). destruct (resolve_norm_spec S k base' ref B' R HB' DB' HR) as (m' & M' & N' & E1' & P' & Nn' & Dn' & _).
    rewrite H1 in E1. injection E1 as <-. rewrite H1' in E1'. injection E1' as <-. rewrite <- (pre_fun _ _ _ _ (pre_agree _ _ _ _ G P) P') in Nn'. rewrite (comps_normal_fun _ _ _ _ _ Nn' Nn) in Dn'. eauto. }
  intros [| |].
  - rewrite (mode_none _ _ _ _ _ _ HB DB HR H1), (mode_none _ _ _ _ _ _ HB' DB' HR H1'). rewrite <- (U _ (transform_agree _ _ _ _ G Tr)) in H2'. eauto.
  - exact (K false).
  - exact (K true).
Qed.
Lemma c67_needed S base base' ref B B' R n n' out : reads S base B -> defined (c_s B) = true -> reads S base' B' -> defined (c_s B') = true -> reads S ref R ->
  resolve base ref = Ok n -> resolve base' ref = Ok n' -> display S n = Ok out -> display S n' = Ok out ->
  (defined (c_s R) = false -> c_s B = c_s B') /\ (defined (c_s R) = false -> defined (c_a R) = false -> c_a B = c_a B') /\
  (defined (c_s R) = false -> defined (c_a R) = false -> c_p R = [] -> defined (c_q R) = false -> c_q B = c_q B').
Proof.
  intros HB DB HB' DB' HR E E' D D'.
  destruct (resolve_spec S base ref B R HB DB HR) as (m & T & H1 & Tr & _ & H2 & H3 & _). destruct (resolve_spec S base' ref B' R HB' DB' HR) as (m' & T' & H1' & Tr' & _ & H2' & H3' & _).
  rewrite E in H1. injection H1 as <-. rewrite E' in H1'. injection H1' as <-. rewrite D in H2. injection H2 as X. rewrite D' in H2'. injection H2' as X'. rewrite <- X in H3. rewrite <- X' in H3'.
  pose proof (reads_unique _ _ _ _ H3 H3') as Q. unfold reread in Q.
  assert (Es : c_s T = c_s T') by congruence. assert (Ea : c_a T = c_a T') by congruence. assert (Eq : c_q T = c_q T') by congruence.
  clear - Tr Tr' Es Ea Eq. split; [|split].
  - intros X. destruct Tr, Tr'; cbn [c_s] in *; congruence.
  - intros X Y. destruct Tr, Tr'; cbn [c_a] in *; congruence.
  - intros X Y Z W. destruct Tr, Tr'; cbn [c_q] in *; rewrite ?W in Eq; try congruence; match goal with K : c_p R = lit _ ++ _ |- _ => rewrite Z in K; discriminate end.
Qed.
