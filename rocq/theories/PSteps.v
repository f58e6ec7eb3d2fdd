(** * Resolving step by step (proofs). *)
From Verif Require Import Base Chars Rfc3986 Utf8 CompSpec RfcResolve NormSpec MValidate MTrusted MFormat MPct MPath MNormalize
  PBase PScan PTrusted PComps PTypes PPath PPath4 PResolve PRds PNorm7 PEdit PBaseNorm PEditNorm.
From Coq Require Import Lia.
Open Scope string_scope. Open Scope N_scope. Open Scope list_scope.

Definition joined (R1 R2 : comps) : comps := mkC (c_s R1) (c_a R1) (c_p R1 ++ c_p R2) (c_q R2) (c_f R2).
Lemma path_scan S C : comps_ok S C -> scan (f_pchar_slash S) (c_p C) = true.
Proof.
  intros (_ & _ & _ & _ & H). destruct C as [s a p q f]. cbn [c_s c_a c_p c_q c_f] in *. destruct a, s.
  1,2: apply path_abempty_scan in H; destruct H as [->|(r & -> & H)]; [reflexivity|rewrite scan_cons by discriminate; now rewrite f_pchar_slash_char].
  - apply path_noauth_abs in H. tauto.
  - apply path_noauth_rel in H. tauto.
Qed.
Lemma starts_dir p x r : p = x ++ [47] -> (forall w, r <> 47 :: w) -> starts_with [SLASH; SLASH] (p ++ r) = starts_with [SLASH; SLASH] p.
Proof.
  intros -> H. destruct x as [|c [|d x]].
  - destruct r as [|c r]; [reflexivity|]. apply Bool.eq_iff_eq_true. rewrite !starts_with_iff. split; intros (w & E); cbn in E; [|discriminate]. injection E as -> _. now elim (H r).
  - apply Bool.eq_iff_eq_true. rewrite !starts_with_iff. split; intros (w & E); cbn in E; injection E as -> _; eexists; reflexivity.
  - apply Bool.eq_iff_eq_true. rewrite !starts_with_iff. split; intros (w & E); cbn in E; injection E as -> -> _; eexists; reflexivity.
Qed.
Lemma colon_dir p x r : p = x ++ [47] -> first_is_colon (p ++ r) = first_is_colon p.
Proof.
  intros ->. rewrite <- app_assoc. cbn [app]. unfold first_is_colon, find_split2_hole.
  destruct (split_first (fun c => (c =? SLASH) || (c =? COLON)) x) as [[[u c] v]|] eqn:E.
  - destruct (split_first_some _ _ _ _ _ E) as (-> & Hc & Hu). rewrite <- !app_assoc. cbn [app]. rewrite !split_first_app by assumption. reflexivity.
  - apply split_first_none in E. rewrite !split_first_app by (assumption || reflexivity). reflexivity.
Qed.
Lemma joined_ok S R1 R2 x : comps_ok S R1 -> comps_ok S R2 -> c_p R1 = x ++ [47] -> (forall w, c_p R2 <> 47 :: w) -> comps_ok S (joined R1 R2).
Proof.
  intros H1 H2 E Hr. assert (P1 := path_scan _ _ H1). assert (P2 := path_scan _ _ H2). destruct H1 as (A1 & A2 & _ & _ & A5), H2 as (_ & _ & B3 & B4 & _).
  unfold comps_ok, components_ok, joined. cbn [c_s c_a c_p c_q c_f]. do 4 (split; [assumption|]).
  assert (P : scan (f_pchar_slash S) (c_p R1 ++ c_p R2) = true) by now apply scan_app_true.
  destruct (c_a R1), (c_s R1).
  1,2: apply path_abempty_scan in A5; apply path_abempty_scan; right; destruct A5 as [A5|(w & A5 & _)]; [rewrite A5 in E; destruct x; discriminate|]; rewrite A5 in *; exists (w ++ c_p R2); split; [reflexivity|]; cbn [app] in P; rewrite scan_cons in P by discriminate; now rewrite f_pchar_slash_char in P.
  - apply path_noauth_abs in A5. apply path_noauth_abs. split; [exact P|]. rewrite (starts_dir _ x) by assumption. tauto.
  - apply path_noauth_rel in A5. apply path_noauth_rel. split; [exact P|]. rewrite (starts_dir _ x), (colon_dir _ x) by assumption. tauto.
Qed.
Lemma rds_abs_nonempty x t : rds (x ++ [47]) t -> starts_with (lit "/") (x ++ [47]) = true -> t <> [].
Proof.
  intros H P. apply starts_with_iff in P. destruct P as (w & P). change (lit "/" ++ w) with (47 :: w) in P. unfold rds, remove_dot_segments in H. destruct x as [|c x].
  - cbn [app] in H. apply steps_one in H. subst. discriminate.
  - cbn [app] in *. injection P as -> _. destruct (rds_prefix_abs [] (length x) x [] t (le_n _) H) as (o & -> & _). destruct o; discriminate.
Qed.
Lemma rds_guard i z : rds (lit "/./" ++ i) z <-> rds (lit "/" ++ i) z.
Proof.
  assert (St : rds_steps single_dot double_dot (lit "/./" ++ i, []) (lit "/" ++ i, [])).
  { eapply rds_next; [|apply rds_refl]. apply (rds_B single_dot double_dot (lit ".") i []). now left. }
  unfold rds, remove_dot_segments. split; [exact (steps_det _ _ _ St)|]. intros X. eapply steps_app; eauto.
Qed.
Lemma merge_joined h b p r m : merge h b p m -> merge h b (p ++ r) (m ++ r).
Proof. intros [A1 A2|dir last A1 A2 A3|A1 A2]; rewrite <- ?app_assoc; econstructor; eauto. Qed.
(** The path of the target of a directory. *)
Lemma merge_dir h b p x m : merge h b p m -> p = x ++ [47] -> exists y, m = y ++ [47].
Proof. intros [A1 A2|dir last A1 A2 A3|A1 A2] ->; [exists (lit "/" ++ x)|exists (dir ++ lit "/" ++ x)|exists x]; now rewrite ?app_assoc. Qed.
Lemma safe_dir a t : (t = [] \/ exists o, t = o ++ [47]) -> forall r z, rds (safe_path a t ++ r) z <-> rds (t ++ r) z.
Proof.
  intros H r z. unfold safe_path. destruct a; [tauto|]. destruct (starts_with (lit "//") t) eqn:E; [|tauto]. apply starts_with_iff in E. destruct E as (w & ->). exact (rds_guard (lit "/" ++ w ++ r) z).
Qed.
Lemma two_steps S base ref1 ref2 B R1 R2 x : reads S base B -> defined (c_s B) = true -> reads S ref1 R1 -> reads S ref2 R2 ->
  c_p R1 = x ++ lit "/" -> defined (c_s R2) = false -> defined (c_a R2) = false -> (forall w, c_p R2 <> lit "/" ++ w) -> (c_p R2 = [] -> defined (c_q R2) = false -> c_q R1 = None) ->
  let ref := recompose (c_s R1) (c_a R1) (c_p R1 ++ c_p R2) (c_q R2) (c_f R2) in
  IRI_reference S ref /\ exists n1 out1 n2 n out, resolve base ref1 = Ok n1 /\ display S n1 = Ok out1 /\ resolve out1 ref2 = Ok n2 /\ display S n2 = Ok out /\
  resolve base ref = Ok n /\ display S n = Ok out.
Proof.
  intros HB DB H1 H2 E DS DA Hr Hq ref. change (lit "/") with [47] in E. assert (HJ : reads S ref (joined R1 R2)). { split; [|reflexivity]. apply (joined_ok S R1 R2 x); [apply H1|apply H2|exact E|exact Hr]. }
  split; [exact (reads_reference _ _ _ HJ)|].
  destruct (resolve_spec S base ref1 B R1 HB DB H1) as (n1 & T1 & E1 & Tr1 & _ & X1 & RT1 & VT1).
  destruct (resolve_spec S base ref B _ HB DB HJ) as (n & T & En & Tr & U & X & RT & _).
  assert (DT1 : defined (c_s (reread T1)) = true). { cbn [reread c_s]. destruct Tr1; cbn [c_s]; auto. }
  destruct (resolve_spec S (unparse T1) ref2 (reread T1) R2 RT1 DT1 H2) as (n2 & T2 & E2 & Tr2 & U2 & X2 & _).
  exists n1, (unparse T1), n2, n, (unparse T). do 3 (split; [assumption|]). split; [|auto]. rewrite X2. f_equal. clear X X1 X2 E1 E2 En n n1 n2.
  assert (NE : c_p R1 <> []) by (rewrite E; destruct x; discriminate).
  (* the path of [T1] is that of a directory, and that of [T] is obtained from it *)
  assert (Fact : exists y t, rds (y ++ [47]) t /\ c_p T1 = t /\ (defined (c_a T1) = true -> starts_with (lit "/") (y ++ [47]) = true) /\
    forall z, rds (y ++ 47 :: c_p R2) z -> transform B (joined R1 R2) (mkC (c_s T1) (c_a T1) z (c_q R2) (c_f R2))).
  { assert (AB : forall C, comps_ok S C -> c_p C <> [] -> defined (c_a C) = true -> starts_with (lit "/") (c_p C) = true).
    { intros C (_ & _ & _ & _ & H) N D. destruct (c_a C); [|discriminate]. apply path_abempty_scan in H. destruct H as [H|(w & -> & _)]; [easy|]. apply starts_with_iff. now exists w. }
    destruct Tr1 as [p A1 A2|p A1 A2 A3|A1 A2 A3|w p A1 A2 A3 A4|m p A1 A2 A3 A4 A5 A6]; cbn [c_s c_a c_p c_q c_f].
    - exists x, p. rewrite E in *. split; [exact A2|]. split; [reflexivity|]. split; [intros D; rewrite <- E; apply AB; [apply H1|rewrite E; exact NE|exact D]|].
      intros z Z. apply (tr_scheme rds B (joined R1 R2)); [exact A1|]. cbn [joined c_p]. rewrite E, <- app_assoc. exact Z.
    - exists x, p. rewrite E in *. split; [exact A3|]. split; [reflexivity|]. split; [intros D; rewrite <- E; apply AB; [apply H1|rewrite E; exact NE|exact D]|].
      intros z Z. apply (tr_authority rds B (joined R1 R2)); [exact A1|exact A2|]. cbn [joined c_p]. rewrite E, <- app_assoc. exact Z.
    - contradiction.
    - exists x, p. pose proof E as E'. rewrite A3 in E'. rewrite A3, E' in A4. split; [exact A4|]. split; [reflexivity|]. split; [intros _; rewrite <- E'; apply starts_with_iff; eauto|].
      intros z Z. apply (tr_abs_path rds B (joined R1 R2) (w ++ c_p R2)); [exact A1|exact A2| |]; cbn [joined c_p]; [now rewrite A3|]. rewrite A3, E', <- app_assoc. exact Z.
    - destruct (merge_dir _ _ _ _ _ A5 E) as (y & ->). exists y, p. split; [exact A6|]. split; [reflexivity|]. split.
      { intros D. destruct A5 as [_ _|dir last _ Eb _|Na Ns]; [reflexivity| |].
        - assert (starts_with (lit "/") (c_p B) = true) as Q by (apply AB; [apply HB|rewrite Eb; destruct dir; discriminate|exact D]). rewrite Eb in Q. destruct dir as [|c dir]; [reflexivity|]. apply starts_with_iff in Q. destruct Q as (w & Q). injection Q as -> _. reflexivity.
        - exfalso. destruct (c_p B) as [|c b] eqn:Z; [now apply Na|]. assert (starts_with (lit "/") (c_p B) = true) as Q by (apply AB; [apply HB|now rewrite Z|exact D]). rewrite Z in Q. apply starts_with_iff in Q. destruct Q as (w & Q). injection Q as -> _. apply Ns. now left. }
      intros z Z. apply (tr_rel_path rds B (joined R1 R2) ((y ++ [47]) ++ c_p R2)); [exact A1|exact A2| | | |].
      + cbn [joined c_p]. intros K. apply app_eq_nil in K. tauto.
      + cbn [joined c_p]. intros w K. rewrite E in *. destruct x as [|c x]; [now apply (A4 [])|]. injection K as -> K. now apply (A4 (x ++ [47])).
      + exact (merge_joined _ _ _ (c_p R2) _ A5).
      + now rewrite <- app_assoc. }
  destruct Fact as (y & t & Ry & Et & Ab & Tj). destruct (rds_dir y t (c_p R2) Ry) as (Dt & Eq).
  destruct Tr2 as [p A1 A2|p A1 A2 A3|A1 A2 A3|w p A1 A2 A3 A4|m p A1 A2 A3 A4 A5 A6]; try congruence.
  - (* only query and fragment *) rewrite A3 in *. rewrite app_nil_r in Eq. assert (Z : rds (y ++ [47]) t) by exact Ry. apply Tj in Z. apply U in Z. subst T.
    unfold unparse. cbn [reread c_s c_a c_p c_q c_f]. rewrite Et. f_equal.
    + unfold safe_path. destruct (c_a T1); [reflexivity|]. destruct (starts_with (lit "//") t) eqn:Q; [reflexivity|now rewrite Q].
    + destruct (defined (c_q R2)) eqn:Q; [reflexivity|]. specialize (Hq eq_refl eq_refl). assert (c_q T1 = c_q R1). { destruct Tr1; cbn [c_q]; auto. contradiction. } destruct (c_q R2); [discriminate|congruence].
  - assert (M : m = safe_path (c_a T1) t ++ c_p R2).
    { cbn [reread c_a c_p] in A5. rewrite Et in A5. assert (Sf : safe_path (c_a T1) t = [] /\ t = [] \/ exists o, safe_path (c_a T1) t = o ++ [47]).
      { unfold safe_path. destruct Dt as [->|(o & ->)]; [left; destruct (c_a T1); auto|right]. destruct (c_a T1); [eauto|]. destruct (starts_with (lit "//") (o ++ [47])); [exists (lit "/." ++ o); now rewrite app_assoc|eauto]. }
      destruct Sf as [(S1 & S2)|(o & S1)]; rewrite S1 in *.
      - subst t. destruct A5 as [D _|dir last _ Eb _|_ _]; [|destruct dir; discriminate|reflexivity]. now elim (rds_abs_nonempty y _ Ry (Ab D)).
      - destruct A5 as [_ D|dir last _ Eb Hl|_ D]; [destruct o; discriminate| |elim D; apply in_app_iff; right; now left].
        destruct (exists_last (l := lit "/" ++ last)) as (l' & c & El); [discriminate|]. rewrite El, app_assoc in Eb. apply app_inj_tail in Eb. destruct Eb as (-> & <-).
        destruct l' as [|d l']; [injection El as ->|injection El as _ El; rewrite El in Hl; elim Hl; apply in_app_iff; right; now left]. now rewrite app_nil_r, <- app_assoc. }
    subst m. rewrite (safe_dir _ _ Dt) in A6. apply Eq in A6. apply Tj in A6. apply U in A6. now subst T.
Qed.
