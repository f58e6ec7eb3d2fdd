(** * Resolution respects equivalence (proofs). *)
From Verif Require Import Base Chars Rfc3986 Utf8 CompSpec PctSpec RfcResolve NormSpec EquivSpec MValidate MTrusted MFormat MPct MPath MNormalize
  PBase PScan PHost PAuth PValidate PTrusted PComps PAscii PTypes PPath PPath2 PPath3 PPath4 PPct PPct2 PPct3 PPct4 PPath5 PResolve PRds PNorm PNorm2 PNorm3 PNorm4 PNorm5 PNorm7 PNorm8 PBuild3 PEquiv PRound PBaseNorm.
From Coq Require Import Lia.
Open Scope string_scope. Open Scope N_scope. Open Scope list_scope.

Lemma same_path_mono S (o : bool) p p' : same_path S true p p' -> same_path S o p p'.
Proof.
  induction 1 as [x y [x0 y0 H|x0 y0 W O R]|x|x y H IH|x y z H1 IH1 H2 IH2]; [apply rst_step; now apply ps_respell| |apply rst_refl|now apply rst_sym|eapply rst_trans; eauto].
  apply rst_step, ps_dots; auto. right. now destruct O.
Qed.
(** With [opaque], an absolute path is equivalent to absolute paths only, and another path only to other spellings of it. *)
Lemma same_path_true S p p' : same_path S true p p' -> starts_with (lit "/") p = starts_with (lit "/") p' /\ (starts_with (lit "/") p = false -> same_spelling S p p').
Proof.
  induction 1 as [x y [x0 y0 H|x0 y0 W [O|O] R]|x|x y H (IH & IH')|x y z H1 (IH1 & IH1') H2 (IH2 & IH2')]; try discriminate.
  - split; [now apply (respell_start S)|]. intros _. now apply rst_step.
  - assert (O' : starts_with (lit "/") y0 = true) by (apply starts_slash_cons; exact (rds_abs _ _ R O)). split; [congruence|rewrite O; discriminate].
  - split; [reflexivity|]. intros _. apply rst_refl.
  - split; [now symmetry|]. rewrite <- IH. intros X. apply rst_sym. exact (IH' X).
  - split; [congruence|]. intros X. eapply rst_trans; [exact (IH1' X)|]. apply IH2'. congruence.
Qed.
Lemma pn_empty S s t : pct_normal S s t -> s = [] <-> t = [].
Proof.
  intros P. split; intros ->; inversion P; subst; auto; try discriminate.
  exfalso. match goal with H : unreserved S ?c = true |- _ => assert (X := unreserved_scalar _ _ H); destruct (utf8_shape c X) as (f & ks & Y & _) end.
  match goal with H : _ ++ _ = [] |- _ => apply app_eq_nil in H; destruct H as (-> & _) end.
  match goal with H : spelled _ [] |- _ => rewrite Y in H; inversion H end.
Qed.
Lemma spell_empty S s s' : same_spelling S s s' -> s = [] <-> s' = [].
Proof.
  induction 1 as [x y H|x|x y H IH|x y z H1 IH1 H2 IH2]; [|tauto|tauto|tauto].
  destruct (respell_wf _ _ _ H) as (W & _). destruct (pn_ex S x W) as (t & P). assert (P' := proj1 (respell_pn S x y t H) P). rewrite (pn_empty _ _ _ P), (pn_empty _ _ _ P'). tauto.
Qed.
Lemma merge_spell S h p r r' m m' : pct_wf p -> same_spelling S r r' -> merge h p r m -> merge h p r' m' -> same_spelling S m m'.
Proof.
  intros W E M M'. inversion M as [Hx Hy|dir last Hn E1 Nl|Hn Nl]; subst.
  - rewrite (merge_fun _ _ _ _ _ M' (merge_empty true [] r' eq_refl eq_refl)). apply spell_r; auto. apply (wf_one 47). discriminate.
  - rewrite (merge_fun _ _ _ _ _ M' (merge_last h _ r' dir last Hn eq_refl Nl)). change (dir ++ lit "/" ++ last) with (dir ++ 47 :: last) in W. apply wf_slash_dir in W.
    apply spell_r; [tauto|]. apply spell_r; auto. apply (wf_one 47). discriminate.
  - rewrite (merge_fun _ _ _ _ _ M' (merge_noslash h p r' Hn Nl)). exact E.
Qed.
Lemma slash_prefix s : (exists r, s = lit "/" ++ r) <-> starts_with (lit "/") s = true.
Proof. rewrite starts_slash_cons. reflexivity. Qed.
Lemma same_ref S (keep : bool) base ref ref' B R R' : reads S base B -> defined (c_s B) = true -> reads S ref R -> reads S ref' R' ->
  equivalent S (keep || negb (defined (c_s R))) R R' -> exists n n' out,
    resolve base ref = Ok n /\ display S (set_mode n (if keep then MPreserve else MDefault)) = Ok out /\
    resolve base ref' = Ok n' /\ display S (set_mode n' (if keep then MPreserve else MDefault)) = Ok out.
Proof.
  intros RB DB RR RR' (Es & Ea & Ep & Eq & Ef). destruct (resolve_norm_spec S keep base ref B R RB DB RR) as (n & M1 & T1 & E1 & P1 & N1 & X1 & _).
  destruct (resolve_norm_spec S keep base ref' B R' RB DB RR') as (n' & M2 & T2 & E2 & P2 & N2 & X2 & _).
  exists n, n', (unparse T1). do 3 (split; [assumption|]). assert (F : T1 = T2); [|now rewrite F].
  apply (equal_normals S keep M1 M2 T1 T2 N1 N2). clear E1 X1 E2 X2 N1 N2 T1 T2 n n'. assert (OB := proj1 RB).
  assert (Ds : defined (c_s R) = defined (c_s R')) by (destruct (c_s R), (c_s R'); cbn in *; easy). assert (Da : defined (c_a R) = defined (c_a R')) by (destruct (c_a R), (c_a R'); cbn in *; easy).
  assert (Dq : defined (c_q R) = defined (c_q R')) by (destruct (c_q R), (c_q R'); cbn in *; easy).
  assert (Rs : opt_rel (fun x y => map lower x = map lower y) (c_s B) (c_s B)) by (destruct (c_s B); cbn; auto). assert (Ra := opt_authority_refl S (c_a B) (proj1 (proj2 OB))).
  assert (Z : defined (c_s R) = false -> defined (c_a R) = false -> same_path S true (c_p R) (c_p R')) by (intros X Y; rewrite X, Y in Ep; cbn [negb andb] in Ep; now rewrite orb_true_r in Ep).
  assert (Z0 : defined (c_s R) = false -> defined (c_a R) = false -> (c_p R = [] <-> c_p R' = []) /\ ((exists r, c_p R = lit "/" ++ r) <-> (exists r, c_p R' = lit "/" ++ r))).
  { intros X Y. specialize (Z X Y). destruct (same_path_true _ _ _ Z) as (K & K'). rewrite !slash_prefix, <- K. split; [|tauto]. destruct (starts_with (lit "/") (c_p R)) eqn:G.
    - split; intros H; [rewrite H in G|rewrite H in K]; discriminate.
    - apply (spell_empty S); auto. }
  destruct P1 as [Q1|Q1 Q2|Q1 Q2 Q3|r Q1 Q2 Q3|m Q1 Q2 Q3 Q4 Q5]; inversion P2 as [K1|K1 K2|K1 K2 K3|r' K1 K2 K3|m' K1 K2 K3 K4 K5]; subst; try congruence;
    try (assert (Z1 := Z0 Q1 Q2); destruct Z1 as (Z1 & Z2)); try (exfalso; tauto).
  - rewrite Q1 in Ep. cbn [negb] in Ep. rewrite orb_false_r in Ep. split; [exact Es|]. do 2 (split; [assumption|]). now split.
  - unfold equivalent. cbn [c_s c_a c_p c_q c_f]. split; [exact Rs|]. split; [exact Ea|]. split; [|now split]. rewrite Q2 in *. cbn [negb] in *. rewrite !andb_false_r in *. exact Ep.
  - unfold equivalent. cbn [c_s c_a c_p c_q c_f]. split; [exact Rs|]. split; [exact Ra|]. split; [apply rst_refl|]. split; [|exact Ef]. rewrite <- Dq. destruct (defined (c_q R)); [exact Eq|apply spelling_refl].
  - exfalso. assert (X := proj1 Z1 Q3). rewrite X in K3. discriminate.
  - exfalso. assert (X := proj2 Z1 K3). rewrite X in Q3. discriminate.
  - unfold equivalent. cbn [c_s c_a c_p c_q c_f]. split; [exact Rs|]. split; [exact Ra|]. split; [|now split]. apply same_path_mono. auto.
  - exfalso. destruct (proj1 Z2) as (x & X); [eauto|]. eapply K4; eauto.
  - exfalso. destruct (proj2 Z2) as (x & X); [eauto|]. eapply Q4; eauto.
  - unfold equivalent. cbn [c_s c_a c_p c_q c_f]. split; [exact Rs|]. split; [exact Ra|]. split; [|now split]. apply spell_path. eapply merge_spell; eauto; [exact (comps_path_wf S B OB)|].
    apply same_path_true; auto. apply not_true_is_false. intros X. apply slash_prefix in X. destruct X as (x & X). eapply Q4; eauto.
Qed.
Lemma congruence S (keep : bool) base base' ref ref' B B' R R' : reads S base B -> defined (c_s B) = true -> reads S base' B' -> defined (c_s B') = true ->
  reads S ref R -> reads S ref' R' -> equivalent S keep B B' -> equivalent S (keep || negb (defined (c_s R))) R R' ->
  (forall dir last, c_p B = dir ++ lit "/" ++ last -> ~ double_dot last) -> (forall dir last, c_p B' = dir ++ lit "/" ++ last -> ~ double_dot last) ->
  exists n n' out, resolve base ref = Ok n /\ display S (set_mode n (if keep then MPreserve else MDefault)) = Ok out /\
    resolve base' ref' = Ok n' /\ display S (set_mode n' (if keep then MPreserve else MDefault)) = Ok out.
Proof.
  intros RB DB RB' DB' RR RR' EB ER Nd Nd'. destruct (same_ref S keep base' ref ref' B' R R' RB' DB' RR RR' ER) as (n1 & n2 & out & E1 & X1 & E2 & X2).
  assert (HR : IRI_reference S ref) by (eapply reads_reference; eauto).
  destruct (base_normal S keep base ref B RB DB HR Nd) as (nb & b1 & n3 & n4 & out3 & F1 & F2 & F3 & F4 & F5 & F6).
  destruct (base_normal S keep base' ref B' RB' DB' HR Nd') as (nb' & b2 & n5 & n6 & out5 & G1 & G2 & G3 & G4 & G5 & G6).
  destruct (c46_decides S keep base base' B B' RB RB' DB DB') as (m1 & m2 & o1 & o2 & H1 & H2 & H3 & H4 & H5). apply H5 in EB.
  rewrite F1 in H1. injection H1 as <-. rewrite F2 in H2. injection H2 as <-. rewrite G1 in H3. injection H3 as <-. rewrite G2 in H4. injection H4 as <-. subst b2.
  rewrite F5 in G5. injection G5 as <-. rewrite F6 in G6. injection G6 as <-. rewrite G3 in E1. injection E1 as <-. rewrite G4 in X1. injection X1 as <-.
  exists n3, n2, out3. auto.
Qed.
Lemma congr_applies :
  let R := mkC None None (lit "%2e./%7eb") (Some (lit "%c3%A9")) None in let R' := mkC None None (lit "../~b") (Some [233]) None in
  reads IriSpec (unparse R) R /\ reads IriSpec (unparse R') R' /\ equivalent IriSpec true R R'.
Proof.
  cbv zeta. split; [apply reads_of_major; reflexivity|]. split; [apply reads_of_major; reflexivity|]. split; [exact I|]. split; [exact I|]. unfold equivalent. cbn [c_s c_a c_p c_q c_f]. split; [|split; [|exact I]].
  - eapply rst_trans; apply rst_step, ps_respell.
    + apply (rs_decode IriSpec [] (lit "%2e") 46 (lit "./%7eb")); [apply pct_wf_scan; reflexivity|apply pct_wf_scan; reflexivity|reflexivity|exact (spelled_cons 50 101 [] [] eq_refl eq_refl spelled_nil)].
    + apply (rs_decode IriSpec (lit "../") (lit "%7e") 126 (lit "b")); [apply pct_wf_scan; reflexivity|apply pct_wf_scan; reflexivity|reflexivity|exact (spelled_cons 55 101 [] [] eq_refl eq_refl spelled_nil)].
  - apply rst_step. apply (rs_decode IriSpec [] (lit "%c3%A9") 233 []); [constructor|constructor|reflexivity|].
    exact (spelled_cons 99 51 [169] (lit "%A9") eq_refl eq_refl (spelled_cons 65 57 [] [] eq_refl eq_refl spelled_nil)).
Qed.
