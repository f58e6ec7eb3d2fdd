(** * The composition of references (proofs). *)
From Verif Require Import Base Chars Rfc3986 Utf8 CompSpec RfcResolve NormSpec StepSpec MValidate MTrusted MFormat MPct MPath MNormalize
  PBase PScan PTrusted PComps PTypes PPath PPath4 PPath5 PResolve PRds PNorm2 PNorm7 PEdit PBaseNorm PEditNorm PSteps.
From Coq Require Import Lia.
Open Scope string_scope. Open Scope N_scope. Open Scope list_scope.

(** ** A last segment ".." *)
Lemma cut_slash a i x seg : no_slash seg -> a ++ 47 :: i = x ++ seg -> exists x', x = a ++ 47 :: x' /\ i = x' ++ seg.
Proof.
  intros N. revert x. induction a as [|c a IH]; intros x E.
  - destruct x as [|d x]; cbn [app] in E; [elim N; rewrite <- E; now left|]. injection E as <- E. now exists x.
  - destruct x as [|d x]; cbn [app] in E.
    + elim N. rewrite <- E. right. apply in_app_iff. right. now left.
    + injection E as <- E. destruct (IH _ E) as (x' & -> & ->). now exists x'.
Qed.
Definition dirlike (x : str) : Prop := x = [] \/ exists y, x = y ++ [47].
Lemma dirlike_tail a x : dirlike (a ++ 47 :: x) -> dirlike x /\ dirlike (47 :: x).
Proof.
  intros [E|(y & E)]; [destruct a; discriminate|]. destruct (end_slash (47 :: x) y ltac:(discriminate) a E) as (a' & Ea & _). split; [|right; now exists a'].
  destruct a' as [|c a']; [injection Ea as ->; now left|]. injection Ea as _ ->. right. now exists a'.
Qed.
Lemma rds_trail_steps seg st t : rds_steps single_dot double_dot st ([], t) -> double_dot seg ->
  forall x o, st = (x ++ seg, o) -> dirlike x -> rds_steps single_dot double_dot (x ++ seg ++ [47], o) ([], t).
Proof.
  intros H D. assert (Ds := double_dot_ok _ D). destruct Ds as (Dn & Ds). remember ([], t) as e eqn:Ee. induction H as [st|st st' e St R IH]; intros x o -> Dx.
  - injection Ee as E _. destruct x; [cbn [app] in E; contradiction|discriminate].
  - specialize (IH Ee). subst e. remember (x ++ seg, o) as s0 eqn:E. destruct St as [d i0 o0 Hd|d i0 o0 Hd|d o0 Hd|d i0 o0 o1 Hd Hr|d o0 o1 Hd Hr|d o0 Hd|ld sg i0 o0 Hl Hs Hne Hd Hdd Hii]; injection E as E1 E2; subst o0.
    + destruct (cut_slash d i0 x seg Ds E1) as (x' & -> & ->). apply dirlike_tail in Dx. eapply rds_next; [|apply (IH x' o eq_refl); tauto]. rewrite <- app_assoc. exact (rds_A single_dot double_dot d (x' ++ seg ++ [47]) o Hd).
    + destruct (cut_slash (47 :: d) i0 x seg Ds E1) as (x' & -> & ->). apply dirlike_tail in Dx. eapply rds_next; [|apply (IH (47 :: x') o eq_refl); tauto].
      replace ((((47 :: d) ++ 47 :: x') ++ seg ++ [47])) with (lit "/" ++ d ++ lit "/" ++ (x' ++ seg ++ [47])) by (change (lit "/") with [47]; cbn [app]; now rewrite <- app_assoc). exact (rds_B single_dot double_dot d (x' ++ seg ++ [47]) o Hd).
    + destruct (cut_slash [] d x seg Ds E1) as (x' & -> & ->). exfalso. cbn [app] in Dx. apply (dirlike_tail []) in Dx. destruct Dx as ([-> |(y & ->)] & _).
      * apply from_segment_dot in Hd. apply from_segment_dotdot in D. cbn [app] in Hd. congruence.
      * apply a_dot_ok in Hd. destruct Hd as (_ & Hd). apply Hd. rewrite !in_app_iff. left. right. now left.
    + destruct (cut_slash (47 :: d) i0 x seg Ds E1) as (x' & -> & ->). apply dirlike_tail in Dx. eapply rds_next; [|apply (IH (47 :: x') o1 eq_refl); tauto].
      replace ((((47 :: d) ++ 47 :: x') ++ seg ++ [47])) with (lit "/" ++ d ++ lit "/" ++ (x' ++ seg ++ [47])) by (change (lit "/") with [47]; cbn [app]; now rewrite <- app_assoc). exact (rds_C single_dot double_dot d (x' ++ seg ++ [47]) o o1 Hd Hr).
    + destruct (cut_slash [] d x seg Ds E1) as (x' & -> & ->). cbn [app] in Dx. apply (dirlike_tail []) in Dx. destruct Dx as ([-> |(y & ->)] & _).
      * eapply rds_next; [|exact R]. exact (rds_C single_dot double_dot seg [] o o1 D Hr).
      * exfalso. apply double_dot_ok in Hd. destruct Hd as (_ & Hd). apply Hd. rewrite !in_app_iff. left. right. now left.
    + destruct x as [|c x].
      * cbn [app] in *. eapply rds_next; [|exact R]. exact (rds_A single_dot double_dot seg [] o (or_intror D)).
      * exfalso. destruct Dx as [Dx|(y & Dx)]; [discriminate|]. rewrite Dx in E1. assert (Z : no_slash d) by (destruct Hd as [Hd|Hd]; [apply a_dot_ok in Hd|apply double_dot_ok in Hd]; tauto). apply Z. rewrite E1, !in_app_iff. left. right. now left.
    + destruct Hii as [-> |(r & ->)].
      * exfalso. rewrite app_nil_r in E1. assert (K : sg = seg).
        { destruct Dx as [-> |(y & ->)].
          - destruct Hl as [-> | ->]; [exact E1|]. exfalso. apply Ds. cbn [app] in E1. rewrite <- E1. now left.
          - rewrite <- app_assoc in E1. cbn [app] in E1. destruct Hl as [-> | ->].
            + exfalso. apply Hs. cbn [app] in E1. rewrite E1. apply in_app_iff. right. now left.
            + destruct y as [|c y]; [now injection E1|]. exfalso. injection E1 as _ E1. apply Hs. rewrite E1. apply in_app_iff. right. now left. }
        now subst.
      * change (lit "/" ++ r) with (47 :: r) in *. rewrite app_assoc in E1. destruct (cut_slash (ld ++ sg) r x seg Ds E1) as (x' & -> & ->). apply dirlike_tail in Dx. eapply rds_next; [|apply (IH (47 :: x') _ eq_refl); tauto].
        replace (((ld ++ sg) ++ 47 :: x') ++ seg ++ [47]) with (ld ++ sg ++ (47 :: x' ++ seg ++ [47])) by now rewrite <- !app_assoc.
        apply (rds_E single_dot double_dot ld sg (47 :: x' ++ seg ++ [47]) o Hl Hs Hne Hd Hdd). right. now eexists.
Qed.
Lemma rds_trail p seg t : last_segment p seg -> double_dot seg -> rds p t -> rds (p ++ [47]) t.
Proof. intros (x & -> & _ & Dx) D H. unfold rds, remove_dot_segments in *. rewrite <- app_assoc. exact (rds_trail_steps seg _ t H D x [] eq_refl Dx). Qed.

(** ** The path *)
Lemma last_slash p : no_slash p \/ exists dir last, p = dir ++ 47 :: last /\ no_slash last.
Proof.
  destruct (split_last (N.eqb 47) p) as [[[a c] b]|] eqn:E.
  - right. destruct (split_last_some _ _ _ _ _ E) as (-> & Hb & Hc). apply N.eqb_eq in Hc. subst c. exists a, b. split; [reflexivity|now apply no_slash_none].
  - left. apply no_slash_none. now apply split_last_none in E.
Qed.
Lemma safe_app a t l : dirlike t -> no_slash l -> safe_path a (t ++ l) = safe_path a t ++ l.
Proof.
  intros D N. unfold safe_path. destruct a; [reflexivity|]. assert (starts_with (lit "//") (t ++ l) = starts_with (lit "//") t) as ->; [|destruct (starts_with (lit "//") t); [now rewrite app_assoc|reflexivity]].
  destruct D as [-> |(y & ->)]; [|apply (starts_dir _ y); [reflexivity|intros w ->; apply N; now left]].
  cbn [app]. destruct (starts_with (lit "//") l) eqn:E; [|reflexivity]. exfalso. apply starts_with_iff in E. destruct E as (w & ->). apply N. now left.
Qed.
Lemma safe_dirlike a t : dirlike t -> dirlike (safe_path a t) /\ (t <> [] -> safe_path a t <> []).
Proof.
  intros D. unfold safe_path. destruct a; [auto|]. destruct (starts_with (lit "//") t) eqn:E; [|auto]. split; [|discriminate]. destruct D as [-> |(y & ->)]; [discriminate|right; exists (lit "/." ++ y); now rewrite app_assoc].
Qed.
Lemma merge_at h dir last r : no_slash last -> merge h (dir ++ 47 :: last) r (dir ++ 47 :: r).
Proof. intros N. apply (merge_last h _ r dir last); [|reflexivity|exact N]. intros (_ & E). destruct dir; discriminate. Qed.
Lemma path_step a m t r mu mu' z : (defined a = true -> slashy m) -> (forall seg, last_segment m seg -> ~ double_dot seg) -> rds m t ->
  merge (defined a) (safe_path a t) r mu -> merge (defined a) m r mu' -> rds mu z <-> rds mu' z.
Proof.
  intros Ha Hd H M M'. destruct (last_slash m) as [Ns|(dir & last & -> & Nl)].
  - assert (Nt := rds_noslash _ _ H Ns). destruct a as [a|]; cbn [defined] in *.
    + destruct (Ha eq_refl) as [-> |(w & ->)]; [|elim Ns; now left]. unfold rds, remove_dot_segments in H. apply steps_nil in H. subst t. now rewrite (merge_fun _ _ _ _ _ M M').
    + assert (safe_path None t = t) as Es. { unfold safe_path. destruct (starts_with (lit "//") t) eqn:E; [|reflexivity]. apply starts_with_iff in E. destruct E as (w & ->). elim Nt. now left. }
      rewrite Es in M. assert (forall b, no_slash b -> merge false b r r) as K. { intros b Hb. apply merge_noslash; [intros (X & _); discriminate|exact Hb]. }
      now rewrite (merge_fun _ _ _ _ _ M (K _ Nt)), (merge_fun _ _ _ _ _ M' (K _ Ns)).
  - destruct (rds_total (dir ++ [47])) as (t0 & H0). assert (Nd : ~ double_dot last). { apply Hd. exists (dir ++ [47]). split; [now rewrite <- app_assoc|]. split; [exact Nl|right; now exists dir]. }
    destruct (rds_last dir last t0 t H0 Nl Nd H) as (l & Hl & ->). destruct (rds_dir dir t0 r H0) as (Sh & Eq). rewrite (merge_fun _ _ _ _ _ M' (merge_at _ dir last r Nl)), Eq.
    assert (mu = safe_path a t0 ++ r) as ->; [|now rewrite (safe_dir a t0 Sh)].
    rewrite (safe_app a t0 l Sh Hl) in M. destruct (safe_dirlike a t0 Sh) as ([E|(y & E)] & Hne).
    + rewrite E in *. cbn [app] in *. destruct t0 as [|c t0]; [|now elim Hne]. destruct a as [a|]; cbn [defined] in *.
      * exfalso. destruct (Ha eq_refl) as [K|(w & K)]; [destruct dir; discriminate|]. refine (rds_abs_nonempty dir _ H0 _ eq_refl). destruct dir as [|c dir]; [reflexivity|]. injection K as -> _. apply starts_with_iff. now exists (dir ++ [47]).
      * apply (merge_fun _ _ _ _ _ M). apply merge_noslash; [intros (X & _); discriminate|exact Hl].
    + rewrite E in *. rewrite <- app_assoc in M. cbn [app] in M. rewrite (merge_fun _ _ _ _ _ M (merge_at _ y l r Hl)). now rewrite <- app_assoc.
Qed.

(** ** Components *)
Lemma ok_slashy S C : comps_ok S C -> defined (c_a C) = true -> slashy (c_p C).
Proof. intros (_ & _ & _ & _ & H) D. destruct (c_a C); [|discriminate]. apply path_abempty_scan in H. destruct H as [H|(w & H & _)]; [now left|right; eauto]. Qed.
Lemma ok_safe S C : comps_ok S C -> safe_path (c_a C) (c_p C) = c_p C.
Proof.
  intros (_ & _ & _ & _ & H). unfold safe_path. destruct (c_a C); [reflexivity|]. assert (starts_with (lit "//") (c_p C) = false) as ->; [|reflexivity]. destruct (c_s C); [apply path_noauth_abs in H|apply path_noauth_rel in H]; tauto.
Qed.
Lemma safe_safe a p : safe_path a (safe_path a p) = safe_path a p.
Proof. unfold safe_path. destruct a; [reflexivity|]. destruct (starts_with (lit "//") p) eqn:E; [reflexivity|now rewrite E]. Qed.
Lemma noslash_dirlike x seg : no_slash (x ++ seg) -> dirlike x -> x = [].
Proof. intros N [E|(y & ->)]; [exact E|]. exfalso. apply N. rewrite !in_app_iff. left. right. now left. Qed.
Lemma last_prefix y p seg : last_segment (y ++ p) seg -> dirlike y -> last_segment p seg.
Proof.
  intros (x & E & Ns & D) Dy. assert (K : forall a l, a ++ 47 :: l = x ++ seg -> no_slash l -> l = seg).
  { intros a l El Nl. destruct (cut_slash a l x seg Ns El) as (x' & -> & ->). apply dirlike_tail in D. destruct D as (D & _). now rewrite (noslash_dirlike _ _ Nl D). }
  destruct (last_slash p) as [N|(dir & last & -> & Nl)].
  - destruct Dy as [-> |(y' & ->)]; [now exists x|]. rewrite <- app_assoc in E. cbn [app] in E. rewrite (K _ _ E N). exists []. split; [reflexivity|]. split; [exact Ns|now left].
  - rewrite app_assoc in E. rewrite <- (K _ _ E Nl). exists (dir ++ [47]). split; [now rewrite <- app_assoc|]. split; [exact Nl|right; now exists dir].
Qed.
Lemma merge_split h b p m : merge h b p m -> exists y, dirlike y /\ m = y ++ p /\ forall r, merge h b r (y ++ r).
Proof.
  intros [A1 A2|dir last A1 A2 A3|A1 A2].
  - exists [47]. split; [right; now exists []|]. split; [reflexivity|]. intros r. now apply merge_empty.
  - exists (dir ++ [47]). split; [right; now exists dir|]. split; [now rewrite <- app_assoc|]. intros r. rewrite <- app_assoc. now apply (merge_last h b r dir last).
  - exists []. split; [now left|]. split; [reflexivity|]. intros r. now apply merge_noslash.
Qed.
Lemma merge_slashy h b p m : merge h b p m -> h = true -> slashy b -> slashy m.
Proof.
  intros [A1 A2|dir last A1 A2 A3|A1 A2] D Sb; [right; now eexists| |].
  - right. destruct Sb as [Sb|(w & Sb)]; [rewrite Sb in A2; destruct dir; discriminate|]. rewrite Sb in A2. destruct dir as [|c dir]; [now eexists|]. injection A2 as -> _. now eexists.
  - destruct Sb as [Sb|(w & Sb)]; [now elim A1|]. elim A2. rewrite Sb. now left.
Qed.
Lemma compose_transform S B R1 R2 R T1 T2 : comps_ok S B -> comps_ok S R1 -> (forall seg, last_segment (c_p R1) seg -> ~ double_dot seg) ->
  transform B R1 T1 -> transform (reread T1) R2 T2 -> pre_transform R1 R2 R -> exists T, transform B R T /\ unparse T = unparse T2.
Proof.
  intros OB O1 Nd Tr1 Tr2 P. assert (SC : defined (c_s R1) = true /\ c_s T1 = c_s R1 \/ defined (c_s R1) = false /\ c_s T1 = c_s B) by (destruct Tr1; cbn [c_s]; auto).
  assert (SA : defined (c_s R1) = false -> defined (c_a R1) = false -> c_a T1 = c_a B) by (intros; destruct Tr1; cbn [c_a]; congruence).
  assert (SA' : defined (c_s R1) = true \/ defined (c_a R1) = true -> c_a T1 = c_a R1) by (intros [K|K]; destruct Tr1; cbn [c_a]; congruence).
  destruct P as [P1|P1 P2|P1 P2 P3|r P1 P2 P3|m P1 P2 P3 P4 P5]; destruct Tr2 as [p A1 A2|p A1 A2 A3|A1 A2 A3|w p A1 A2 A3 A4|mu p A1 A2 A3 A4 A5 A6]; try congruence;
    try (exfalso; rewrite P3 in A3; discriminate); try (exfalso; eapply P4; eauto; fail); try (exfalso; eapply A4; eauto; fail).
  - eexists. split; [apply tr_scheme; eassumption|reflexivity].
  - cbn [reread c_s]. destruct SC as [(D & ->)|(D & ->)].
    + eexists. split; [apply (tr_scheme rds B (mkC (c_s R1) (c_a R2) (c_p R2) (c_q R2) (c_f R2))); eassumption|reflexivity].
    + eexists. split; [apply (tr_authority rds B (mkC (c_s R1) (c_a R2) (c_p R2) (c_q R2) (c_f R2))); eassumption|reflexivity].
  - cbn [reread c_s c_a c_p c_q c_f]. exists (mkC (c_s T1) (c_a T1) (c_p T1) (if defined (c_q R2) then c_q R2 else c_q T1) (c_f R2)). split; [|unfold unparse; cbn [c_s c_a c_p c_q c_f]; now rewrite safe_safe].
    set (R := mkC (c_s R1) (c_a R1) (c_p R1) (if defined (c_q R2) then c_q R2 else c_q R1) (c_f R2)). clear SC SA SA'. destruct Tr1 as [q B1 B2|q B1 B2 B3|B1 B2 B3|w q B1 B2 B3 B4|m q B1 B2 B3 B4 B5 B6]; cbn [c_s c_a c_p c_q c_f].
    + exact (tr_scheme rds B R q B1 B2).
    + exact (tr_authority rds B R q B1 B2 B3).
    + assert (Z := tr_empty_path rds B R B1 B2 B3). cbn [R c_q c_f] in Z. destruct (defined (c_q R2)) eqn:E; [rewrite E in Z; exact Z|exact Z].
    + exact (tr_abs_path rds B R w q B1 B2 B3 B4).
    + exact (tr_rel_path rds B R m q B1 B2 B3 B4 B5 B6).
  - cbn [reread c_s c_a]. set (R := mkC (c_s R1) (c_a R1) (c_p R2) (c_q R2) (c_f R2)). exists (mkC (c_s T1) (c_a T1) p (c_q R2) (c_f R2)). split; [|reflexivity]. destruct SC as [(D & ->)|(D & ->)].
    + rewrite SA' by auto. exact (tr_scheme rds B R p D A4).
    + destruct (defined (c_a R1)) eqn:Da; [rewrite SA' by auto; exact (tr_authority rds B R p D Da A4)|]. rewrite SA by auto. exact (tr_abs_path rds B R w p D Da A3 A4).
  - cbn [reread c_s c_a c_p] in *. set (R := mkC (c_s R1) (c_a R1) m (c_q R2) (c_f R2)). exists (mkC (c_s T1) (c_a T1) p (c_q R2) (c_f R2)). split; [|reflexivity]. clear SC SA SA'.
    destruct Tr1 as [q B1 B2|q B1 B2 B3|B1 B2 B3|w q B1 B2 B3 B4|m1 q B1 B2 B3 B4 B5 B6]; cbn [c_s c_a c_p c_q c_f] in *.
    + apply (tr_scheme rds B R p B1). exact (proj1 (path_step (c_a R1) (c_p R1) q (c_p R2) mu m p (ok_slashy S R1 O1) Nd B2 A5 P5) A6).
    + apply (tr_authority rds B R p B1 B2). exact (proj1 (path_step (c_a R1) (c_p R1) q (c_p R2) mu m p (ok_slashy S R1 O1) Nd B3 A5 P5) A6).
    + rewrite (ok_safe S B OB) in A5. rewrite B3, B2 in P5. assert (m = c_p R2) as -> by (apply (merge_fun _ _ _ _ _ P5), merge_noslash; [intros (X & _); discriminate|intros []]). exact (tr_rel_path rds B R mu p B1 B2 P3 P4 A5 A6).
    + assert (M : merge (defined (c_a B)) (c_p R1) (c_p R2) m). { rewrite B3 in *. destruct P5 as [X _|dir last _ E Nl|_ K]; [congruence| |elim K; now left]. apply (merge_last _ _ (c_p R2) dir last); [intros (_ & X); discriminate|exact E|exact Nl]. }
      assert (Sm : exists v, m = lit "/" ++ v). { rewrite B3 in M. destruct M as [_ X|dir last _ E _|_ K]; [discriminate| |elim K; now left]. destruct dir as [|c dir]; [now eexists|]. injection E as <- _. now eexists. }
      destruct Sm as (v & Em). apply (tr_abs_path rds B R v p B1 B2 Em). refine (proj1 (path_step (c_a B) (c_p R1) q (c_p R2) mu m p _ Nd B4 A5 M) A6). intros _. right. rewrite B3. now exists w.
    + rewrite B2 in P5. destruct (merge_split _ _ _ _ B5) as (y & Dy & -> & My). assert (M : merge (defined (c_a B)) (y ++ c_p R1) (c_p R2) (y ++ m)).
      { destruct P5 as [X _|dir last _ E Nl|_ K]; [congruence| |].
        - rewrite E. change (lit "/") with [47]. cbn [app]. rewrite !app_assoc. apply merge_at. exact Nl.
        - destruct Dy as [-> |(y' & ->)]; [|rewrite <- !app_assoc; cbn [app]; now apply merge_at]. cbn [app]. apply merge_noslash; [|exact K]. intros (_ & X). contradiction. }
      refine (tr_rel_path rds B R (y ++ m) p B1 B2 _ _ (My m) _).
      * cbn [R c_p]. destruct P5 as [X _|dir last _ E Nl|_ K]; [congruence|destruct dir; discriminate|exact P3].
      * cbn [R c_p]. intros v. destruct P5 as [X _|dir last _ E Nl|_ K]; [congruence| |apply P4]. intros K. destruct dir as [|c dir]; [now apply (B4 last)|]. injection K as -> _. rewrite E in B4. now apply (B4 (dir ++ lit "/" ++ last)).
      * refine (proj1 (path_step (c_a B) (y ++ c_p R1) q (c_p R2) mu (y ++ m) p _ _ B6 A5 M) A6).
        -- intros D. exact (merge_slashy _ _ _ _ B5 D (ok_slashy S B OB D)).
        -- intros seg K. apply Nd. now apply (last_prefix y).
Qed.
(** ** Validity *)
Definition with_path (C : comps) (p : str) : comps := mkC (c_s C) (c_a C) p (c_q C) (c_f C).
Lemma starts_trail p : p <> [47] -> starts_with [SLASH; SLASH] (p ++ [47]) = starts_with [SLASH; SLASH] p.
Proof.
  intros N. apply Bool.eq_iff_eq_true. rewrite !starts_with_iff. split; intros (w & E).
  - destruct p as [|c [|d p]]; [discriminate|injection E as -> _; contradiction|]. injection E as -> -> _. now eexists.
  - rewrite E. eexists. now rewrite <- app_assoc.
Qed.
Lemma colon_trail p : first_is_colon (p ++ [47]) = first_is_colon p.
Proof.
  unfold first_is_colon, find_split2_hole. destruct (split_first (fun c => (c =? SLASH) || (c =? COLON)) p) as [[[u c] v]|] eqn:E.
  - destruct (split_first_some _ _ _ _ _ E) as (-> & Hc & Hu). rewrite <- !app_assoc. cbn [app]. rewrite !split_first_app by assumption. reflexivity.
  - apply split_first_none in E. rewrite split_first_app by (assumption || reflexivity). reflexivity.
Qed.
Lemma trail_ok S C : comps_ok S C -> c_p C <> [] -> c_p C <> [47] -> comps_ok S (with_path C (c_p C ++ [47])).
Proof.
  intros H N N1. assert (P := path_scan _ _ H). destruct H as (A1 & A2 & A3 & A4 & A5). unfold comps_ok, components_ok, with_path. cbn [c_s c_a c_p c_q c_f]. do 4 (split; [assumption|]).
  assert (P' : scan (f_pchar_slash S) (c_p C ++ [47]) = true) by (apply scan_app_true; [exact P|rewrite scan_cons by discriminate; now rewrite f_pchar_slash_char]).
  destruct (c_a C), (c_s C).
  1,2: apply path_abempty_scan in A5; apply path_abempty_scan; right; destruct A5 as [A5|(w & A5 & _)]; [contradiction|]; rewrite A5 in *; exists (w ++ [47]); split; [reflexivity|]; cbn [app] in P'; rewrite scan_cons in P' by discriminate; now rewrite f_pchar_slash_char in P'.
  - apply path_noauth_abs in A5. apply path_noauth_abs. split; [exact P'|]. rewrite starts_trail by assumption. tauto.
  - apply path_noauth_rel in A5. apply path_noauth_rel. split; [exact P'|]. rewrite starts_trail, colon_trail by assumption. tauto.
Qed.
Lemma dir_ok S (C : comps) dir last r : comps_ok S C -> c_p C = dir ++ 47 :: last -> (forall w, r <> 47 :: w) -> scan (f_pchar_slash S) r = true -> comps_ok S (with_path C (dir ++ 47 :: r)).
Proof.
  intros H E Nr Pr. assert (P := path_scan _ _ H). destruct H as (A1 & A2 & A3 & A4 & A5). unfold comps_ok, components_ok, with_path. cbn [c_s c_a c_p c_q c_f]. do 4 (split; [assumption|]). rewrite E in *.
  assert (Ed : forall l, dir ++ 47 :: l = (dir ++ [47]) ++ l) by (intros; now rewrite <- app_assoc).
  assert (Pd : scan (f_pchar_slash S) (dir ++ 47 :: r) = true).
  { change (dir ++ 47 :: r) with (dir ++ lit "/" ++ r). change (dir ++ 47 :: last) with (dir ++ lit "/" ++ last) in P. rewrite scan_slash in * by apply f_pchar_slash_char. apply andb_prop in P. destruct P as (-> & _). now rewrite Pr. }
  assert (Sd : starts_with [SLASH; SLASH] (dir ++ 47 :: last) = false -> starts_with [SLASH; SLASH] (dir ++ 47 :: r) = false).
  { intros K. rewrite Ed, (starts_dir _ dir) by auto. destruct (starts_with [SLASH; SLASH] (dir ++ [47])) eqn:Z; [|reflexivity]. apply starts_with_iff in Z. destruct Z as (w & Z). rewrite Ed, Z in K. discriminate. }
  destruct (c_a C), (c_s C).
  1,2: apply path_abempty_scan in A5; apply path_abempty_scan; right; destruct A5 as [A5|(w & A5 & _)]; [destruct dir; discriminate|].
  1,2: assert (exists w', dir ++ 47 :: r = 47 :: w') as (w' & Ew) by (destruct dir as [|c dir]; [eexists; reflexivity|injection A5 as -> _; eexists; reflexivity]); rewrite Ew in *; exists w'; split; [reflexivity|]; rewrite scan_cons in Pd by discriminate; now rewrite f_pchar_slash_char in Pd.
  - apply path_noauth_abs in A5. apply path_noauth_abs. split; [exact Pd|]. apply Sd. tauto.
  - apply path_noauth_rel in A5. apply path_noauth_rel. split; [exact Pd|]. split; [apply Sd; tauto|]. destruct A5 as (_ & _ & A5). rewrite Ed, (colon_dir _ dir) in * by reflexivity. exact A5.
Qed.

Lemma noscheme_any S s p : (path_absolute S <|> path_noscheme S <|> path_empty) p -> match s : option str with Some _ => (path_absolute S <|> path_rootless S <|> path_empty) p | None => (path_absolute S <|> path_noscheme S <|> path_empty) p end.
Proof. intros H. destruct s; [|exact H]. apply path_noauth_rel in H. apply path_noauth_abs. tauto. Qed.
Lemma composed_ok S R1 R2 R : comps_ok S R1 -> comps_ok S R2 -> pre_transform R1 R2 R -> comps_ok S R.
Proof.
  intros O1 O2 P. assert (P2' := path_scan _ _ O2). destruct P as [P1|P1 P2|P1 P2 P3|r P1 P2 P3|m P1 P2 P3 P4 P5]; [exact O2| | | |].
  - destruct O1 as (A1 & _), O2 as (_ & B2 & B3 & B4 & B5). unfold comps_ok, components_ok. cbn [c_s c_a c_p c_q c_f]. do 4 (split; [assumption|]). destruct (c_a R2); [exact B5|discriminate].
  - destruct O1 as (A1 & A2 & A3 & A4 & A5), O2 as (_ & _ & B3 & B4 & _). unfold comps_ok, components_ok. cbn [c_s c_a c_p c_q c_f]. do 2 (split; [assumption|]). split; [destruct (defined (c_q R2)); assumption|]. split; assumption.
  - destruct O1 as (A1 & A2 & _), O2 as (B1 & B2 & B3 & B4 & B5). unfold comps_ok, components_ok. cbn [c_s c_a c_p c_q c_f]. do 4 (split; [assumption|]). destruct (c_a R2); [discriminate|]. destruct (c_s R2); [discriminate|].
    destruct (c_a R1); [|now apply noscheme_any]. apply path_abempty_scan. right. exists r. split; [exact P3|]. rewrite P3 in P2'. change (lit "/" ++ r) with (47 :: r) in P2'. rewrite scan_cons in P2' by discriminate. now rewrite f_pchar_slash_char in P2'.
  - assert (K : comps_ok S (with_path R1 m)).
    { destruct P5 as [D E|dir last _ E Nl|Na Ns].
      - unfold comps_ok, components_ok, with_path. destruct O1 as (A1 & A2 & A3 & A4 & A5). cbn [c_s c_a c_p c_q c_f]. do 4 (split; [assumption|]). destruct (c_a R1); [|discriminate]. apply path_abempty_scan. right. exists (c_p R2). now split.
      - exact (dir_ok S R1 dir last (c_p R2) O1 E P4 P2').
      - destruct O1 as (A1 & A2 & A3 & A4 & A5), O2 as (B1 & B2 & B3 & B4 & B5). unfold comps_ok, components_ok, with_path. cbn [c_s c_a c_p c_q c_f]. do 4 (split; [assumption|]). destruct (c_a R2); [discriminate|]. destruct (c_s R2); [discriminate|]. destruct (c_a R1); [|now apply noscheme_any].
        exfalso. apply path_abempty_scan in A5. destruct A5 as [A5|(w & A5 & _)]; [now apply Na|apply Ns; rewrite A5; now left]. }
    destruct K as (A1 & A2 & _ & _ & A5), O2 as (_ & _ & B3 & B4 & _). unfold comps_ok, components_ok. cbn [with_path c_s c_a c_p c_q c_f] in *. do 4 (split; [assumption|]). exact A5.
Qed.
Lemma trail_transform B R1 T1 seg : last_segment (c_p R1) seg -> double_dot seg -> transform B R1 T1 -> transform B (with_path R1 (c_p R1 ++ [47])) T1.
Proof.
  intros L D Tr. assert (N : c_p R1 <> []). { intros E. destruct L as (x & L & _). rewrite E in L. symmetry in L. apply app_eq_nil in L. destruct L as (_ & ->). apply double_dot_ok in D. tauto. }
  set (R := with_path R1 (c_p R1 ++ [47])). destruct Tr as [p A1 A2|p A1 A2 A3|A1 A2 A3|w p A1 A2 A3 A4|m p A1 A2 A3 A4 A5 A6].
  - apply (tr_scheme rds B R p A1). exact (rds_trail _ _ _ L D A2).
  - apply (tr_authority rds B R p A1 A2). exact (rds_trail _ _ _ L D A3).
  - contradiction.
  - apply (tr_abs_path rds B R (w ++ [47]) p A1 A2); [cbn [R with_path c_p]; now rewrite A3|exact (rds_trail _ _ _ L D A4)].
  - destruct (merge_split _ _ _ _ A5) as (y & Dy & -> & My). apply (tr_rel_path rds B R (y ++ c_p R1 ++ [47]) p A1 A2).
    + cbn [R with_path c_p]. destruct (c_p R1); discriminate.
    + cbn [R with_path c_p]. intros r E. destruct (c_p R1) as [|c q]; [contradiction|]. injection E as -> _. now apply (A4 q).
    + apply My.
    + rewrite app_assoc. apply (rds_trail _ seg); [|exact D|exact A6]. destruct L as (x & E & Ns & Dx). exists (y ++ x). split; [now rewrite <- app_assoc, <- E|]. split; [exact Ns|]. destruct Dx as [-> |(d & ->)]; [rewrite app_nil_r; exact Dy|right; exists (y ++ d); now rewrite app_assoc].
Qed.
Lemma slash_no_parent p seg : last_segment (p ++ [47]) seg -> ~ double_dot seg.
Proof.
  intros (x & E & Ns & Dx) D. apply double_dot_ok in D. destruct D as (N & _). destruct (exists_last N) as (s & c & ->). rewrite app_assoc in E. apply app_inj_tail in E. destruct E as (_ & <-). apply Ns, in_app_iff. right. now left.
Qed.
Lemma last_total p : exists seg, last_segment p seg.
Proof.
  destruct (last_slash p) as [N|(dir & last & -> & N)]; [exists p, []|exists last, (dir ++ [47])]; (split; [|split]); auto; [now rewrite <- app_assoc|right; now exists dir].
Qed.
Lemma last_unique p s1 s2 : last_segment p s1 -> last_segment p s2 -> s1 = s2.
Proof.
  intros (x & -> & N1 & D1) (y & E & N2 & D2). destruct D1 as [-> |(d & ->)], D2 as [-> |(d' & ->)]; cbn [app] in *; auto.
  - exfalso. apply N1. rewrite E, !in_app_iff. left. right. now left.
  - exfalso. apply N2. rewrite <- E, !in_app_iff. left. right. now left.
  - change (lit "/") with [47] in E. rewrite <- (app_assoc d) in E. cbn [app] in E. destruct (cut_slash d s1 (d' ++ [47]) s2 N2 E) as (x' & Ex & ->). assert (x' = []) as ->; [|reflexivity]. apply (noslash_dirlike x' s2 N1). apply (dirlike_tail d). rewrite <- Ex. right. now exists d'.
Qed.
Lemma as_directory_total p : exists d, as_directory p d.
Proof.
  destruct (last_total p) as (seg & L). destruct (from_segment seg) eqn:E.
  2: exists (p ++ lit "/"); apply (ad_parent p seg L); now apply from_segment_dotdot.
  all: exists p; apply ad_same; intros s L' D; rewrite (last_unique _ _ _ L' L) in D; apply from_segment_dotdot in D; congruence.
Qed.
Lemma merge_total h b r : exists m, merge h b r m.
Proof.
  destruct (last_slash b) as [N|(dir & last & -> & N)]; [|eexists; now apply merge_at]. destruct h.
  - destruct b as [|c b]; [eexists; now apply merge_empty|]. exists r. apply merge_noslash; [intros (_ & E); discriminate|exact N].
  - exists r. apply merge_noslash; [intros (E & _); discriminate|exact N].
Qed.
Lemma pre_total B R : exists M, pre_transform B R M.
Proof.
  destruct (defined (c_s R)) eqn:E1; [eexists; now apply pt_scheme|]. destruct (defined (c_a R)) eqn:E2; [eexists; now apply pt_authority|].
  destruct (c_p R) as [|c p] eqn:E3; [eexists; now apply pt_empty_path|]. destruct (N.eq_dec c 47) as [-> |N]; [eexists; apply (pt_abs_path B R p E1 E2); now rewrite E3|].
  destruct (merge_total (defined (c_a B)) (c_p B) (c_p R)) as (m & M). eexists. apply (pt_rel_path B R m E1 E2); [rewrite E3; discriminate| |exact M]. rewrite E3. intros r K. injection K as K _. contradiction.
Qed.
Lemma composition_total R1 R2 : exists R, composition R1 R2 R.
Proof. destruct (as_directory_total (c_p R1)) as (p & D). destruct (pre_total (mkC (c_s R1) (c_a R1) p (c_q R1) (c_f R1)) R2) as (R & P). exists R, p. auto. Qed.
Lemma compose_steps S base ref1 ref2 B R1 R2 R : reads S base B -> defined (c_s B) = true -> reads S ref1 R1 -> reads S ref2 R2 -> composition R1 R2 R ->
  exists ref n1 out1 n2 n out, reads S ref R /\ resolve base ref1 = Ok n1 /\ display S n1 = Ok out1 /\ resolve out1 ref2 = Ok n2 /\ display S n2 = Ok out /\
  resolve base ref = Ok n /\ display S n = Ok out.
Proof.
  intros HB DB H1 H2 (p & Hd & P). set (R1' := mkC (c_s R1) (c_a R1) p (c_q R1) (c_f R1)) in P.
  assert (O1 : comps_ok S R1'). { destruct Hd as [seg L D|_]; [|destruct R1; exact (proj1 H1)]. destruct L as (x & L & Ns & Dx). assert (Q := double_dot_ok _ D). destruct Q as (Q & _). apply (trail_ok S R1 (proj1 H1)); rewrite L; intros E; [apply app_eq_nil in E; tauto|]. destruct x as [|c [|d x]]; [|injection E as _ E; contradiction|discriminate]. cbn [app] in E. subst seg. apply Ns. now left. }
  assert (Nd : forall seg, last_segment (c_p R1') seg -> ~ double_dot seg) by (destruct Hd as [seg L D|K]; [intros s; apply slash_no_parent|exact K]).
  assert (OR : comps_ok S R) by exact (composed_ok S R1' R2 R O1 (proj1 H2) P). assert (HR : reads S (recompose (c_s R) (c_a R) (c_p R) (c_q R) (c_f R)) R) by (split; [exact OR|reflexivity]).
  destruct (resolve_spec S base ref1 B R1 HB DB H1) as (n1 & T1 & E1 & Tr1 & _ & X1 & RT1 & _).
  destruct (resolve_spec S base _ B R HB DB HR) as (n & T & En & Tr & U & X & _).
  assert (DT1 : defined (c_s (reread T1)) = true). { cbn [reread c_s]. destruct Tr1; cbn [c_s]; auto. }
  destruct (resolve_spec S (unparse T1) ref2 (reread T1) R2 RT1 DT1 H2) as (n2 & T2 & E2 & Tr2 & U2 & X2 & _).
  assert (Tr1' : transform B R1' T1). { destruct Hd as [seg L D|_]; [exact (trail_transform B R1 T1 seg L D Tr1)|destruct R1; exact Tr1]. }
  destruct (compose_transform S B R1' R2 R T1 T2 (proj1 HB) O1 Nd Tr1' Tr2 P) as (T' & TT & EU). rewrite (U _ TT) in EU.
  eexists _, n1, (unparse T1), n2, n, (unparse T). split; [exact HR|]. do 3 (split; [assumption|]). split; [now rewrite EU|auto].
Qed.
