(** * Normalizing the base before resolving (proofs). *)
From Verif Require Import Base Chars Rfc3986 Utf8 CompSpec PctSpec RfcResolve NormSpec EquivSpec MValidate MTrusted MFormat MPct MPath MNormalize
  PBase PScan PHost PAuth PValidate PTrusted PComps PAscii PTypes PPath PPath2 PPath3 PPath4 PPct PPct2 PPct3 PPct4 PPath5 PResolve PRds PNorm PNorm2 PNorm3 PNorm4 PNorm5 PNorm7 PNorm8 PBuild3 PEquiv PRound.
From Coq Require Import Lia.
Open Scope string_scope. Open Scope N_scope. Open Scope list_scope.

Lemma steps_app dot dotdot x y z : rds_steps dot dotdot x y -> rds_steps dot dotdot y z -> rds_steps dot dotdot x z.
Proof. induction 1 as [|x y z' St R IH]; intros; auto. eapply rds_next; eauto. Qed.
Lemma no_slash_last s x : no_slash s -> s = x ++ [47] -> False.
Proof. intros H ->. apply H, in_app_iff. right. now left. Qed.
Lemma end_slash a x : a <> [] -> forall b, b ++ a = x ++ [47] -> exists a', a = a' ++ [47] /\ x = b ++ a'.
Proof.
  intros Ha b E. destruct (exists_last Ha) as (a' & c & ->). rewrite app_assoc in E. apply app_inj_tail in E. destruct E as (<- & ->). eauto.
Qed.
(** One step from an input that begins with "/". *)
Lemma step_slash y o st : rds_step single_dot double_dot (47 :: y, o) st ->
  (exists d i, single_dot d /\ y = d ++ 47 :: i /\ st = (47 :: i, o)) \/ (single_dot y /\ st = ([47], o)) \/
  (exists d i o', double_dot d /\ remove_last o o' /\ y = d ++ 47 :: i /\ st = (47 :: i, o')) \/ (exists o', double_dot y /\ remove_last o o' /\ st = ([47], o')) \/
  (exists seg i, no_slash seg /\ ~ single_dot seg /\ ~ double_dot seg /\ y = seg ++ i /\ slashy i /\ st = (i, o ++ 47 :: seg)).
Proof.
  intros St. remember (47 :: y, o) as s0 eqn:E. destruct St as [d i0 o0 Hd|d i0 o0 Hd|d o0 Hd|d i0 o0 o1 Hd Hr|d o0 o1 Hd Hr|d o0 Hd|ld seg i0 o0 Hl Hs Hne Hd Hdd Hii]; injection E as E1 E2; subst o0.
  - exfalso. assert (Z : d <> [] /\ no_slash d) by (destruct Hd; [now apply a_dot_ok|now apply double_dot_ok]). destruct Z as (Z1 & Z2). destruct d as [|c d]; [easy|]. injection E1 as -> E1. elim Z2. now left.
  - left. exists d, i0. subst. auto.
  - right. left. subst. auto.
  - right. right. left. exists d, i0, o1. subst. auto.
  - right. right. right. left. exists o1. subst. auto.
  - exfalso. assert (Z : d <> [] /\ no_slash d) by (destruct Hd; [now apply a_dot_ok|now apply double_dot_ok]). destruct Z as (_ & Z2). elim Z2. rewrite E1. now left.
  - right. right. right. right. destruct Hl as [-> | ->].
    + exfalso. cbn [app] in *. destruct seg as [|c seg]; [easy|]. injection E1 as -> _. elim Hs. now left.
    + change (lit "/" ++ seg ++ i0) with (47 :: seg ++ i0) in E1. injection E1 as E1. exists seg, i0. do 4 (split; [auto|]). split; [|reflexivity]. exact Hii.
Qed.
Lemma nil_stuck o st : ~ rds_step single_dot double_dot ([], o) st.
Proof.
  intros St. remember ([], o) as s0 eqn:E. destruct St as [d i0 o0 Hd|d i0 o0 Hd|d o0 Hd|d i0 o0 o1 Hd Hr|d o0 o1 Hd Hr|d o0 Hd|ld seg i0 o0 Hl Hs Hne Hd Hdd Hii]; injection E as E1 E2; try discriminate.
  - apply app_eq_nil in E1. destruct E1; discriminate.
  - destruct Hd as [Hd|Hd]; [apply a_dot_ok in Hd|apply double_dot_ok in Hd]; tauto.
  - rewrite app_assoc in E1. apply app_eq_nil in E1. tauto.
Qed.
Lemma steps_nil o t : rds_steps single_dot double_dot ([], o) ([], t) -> t = o.
Proof.
  intros R. inversion R as [|? y ? St R']; subst; [reflexivity|]. elim (nil_stuck _ _ St).
Qed.
Lemma steps_one o t : rds_steps single_dot double_dot ([47], o) ([], t) -> t = o ++ [47].
Proof.
  intros R. inversion R as [|? y ? St R']; subst. apply step_slash in St. destruct St as [(d & i & D & E & _)|[(D & _)|[(d & i & o' & D & _ & E & _)|[(o' & D & _)|(seg & i & _ & _ & _ & E & _ & ->)]]]].
  - destruct d; discriminate.
  - apply a_dot_ok in D. tauto.
  - destruct d; discriminate.
  - apply double_dot_ok in D. tauto.
  - symmetry in E. apply app_eq_nil in E. destruct E as (-> & ->). now apply steps_nil in R'.
Qed.
(** The removal of dot segments of [x/r] passes through that of [x/]. *)
Lemma rds_prefix_abs r n : forall y o t, (length y <= n)%nat -> rds_steps single_dot double_dot (47 :: y ++ [47], o) ([], t) ->
  exists o', t = o' ++ [47] /\ rds_steps single_dot double_dot (47 :: y ++ 47 :: r, o) (47 :: r, o').
Proof.
  induction n as [|n IH]; intros y o t L H; inversion H as [|? st ? St R]; subst; clear H; apply step_slash in St.
  - destruct y; [|cbn in L; lia]. cbn [app] in *. destruct St as [(d & i & D & E & _)|[(D & _)|[(d & i & o' & D & _ & E & _)|[(o' & D & _)|(seg & i & S1 & S2 & S3 & E & Sl & ->)]]]].
    + exfalso. apply a_dot_ok in D. destruct D as (D & _). destruct d as [|c d]; [easy|]. injection E as _ E. destruct d; discriminate.
    + exfalso. apply a_dot_ok in D. destruct D as (_ & D). apply D. now left.
    + exfalso. apply double_dot_ok in D. destruct D as (D & _). destruct d as [|c d]; [easy|]. injection E as _ E. destruct d; discriminate.
    + exfalso. apply double_dot_ok in D. destruct D as (_ & D). apply D. now left.
    + destruct seg as [|c seg]; [|injection E as <- _; elim S1; now left]. cbn [app] in E. subst i. apply steps_one in R. subst t. eexists. split; [reflexivity|]. eapply rds_next; [|constructor].
      apply (rds_E single_dot double_dot (lit "/") [] (47 :: r) o); auto; try discriminate. right. now exists r.
  - destruct St as [(d & i & D & E & ->)|[(D & _)|[(d & i & o' & D & Rl & E & ->)|[(o' & D & _)|(seg & i & S1 & S2 & S3 & E & Sl & ->)]]]].
    + destruct (list_eq_dec N.eq_dec i []) as [-> |Hi].
      * apply app_inj_tail in E. destruct E as (-> & _). apply steps_one in R. subst t. exists o. split; auto. eapply rds_next; [exact (rds_B single_dot double_dot d r o D)|constructor].
      * destruct (end_slash i y Hi (d ++ [47])) as (i' & -> & ->). { rewrite E, <- app_assoc. reflexivity. }
        destruct (IH i' o t) as (o' & -> & St); auto. { rewrite !app_length in L. cbn in L. lia. }
        exists o'. split; auto. eapply rds_next; [|exact St]. rewrite <- !app_assoc. exact (rds_B single_dot double_dot d (i' ++ 47 :: r) o D).
    + exfalso. apply a_dot_ok in D. destruct D as (_ & D). now apply (no_slash_last _ y D).
    + destruct (list_eq_dec N.eq_dec i []) as [-> |Hi].
      * apply app_inj_tail in E. destruct E as (-> & _). apply steps_one in R. subst t. exists o'. split; auto. eapply rds_next; [exact (rds_C single_dot double_dot d r o o' D Rl)|constructor].
      * destruct (end_slash i y Hi (d ++ [47])) as (i' & -> & ->). { rewrite E, <- app_assoc. reflexivity. }
        destruct (IH i' o' t) as (o2 & -> & St); auto. { rewrite !app_length in L. cbn in L. lia. }
        exists o2. split; auto. eapply rds_next; [|exact St]. rewrite <- !app_assoc. exact (rds_C single_dot double_dot d (i' ++ 47 :: r) o o' D Rl).
    + exfalso. apply double_dot_ok in D. destruct D as (_ & D). now apply (no_slash_last _ y D).
    + destruct Sl as [-> |(r0 & ->)]; [exfalso; rewrite app_nil_r in E; symmetry in E; now apply (no_slash_last _ y S1)|].
      destruct (list_eq_dec N.eq_dec r0 []) as [-> |Hi].
      * apply app_inj_tail in E. destruct E as (-> & _). apply steps_one in R. subst t. eexists. split; [reflexivity|]. eapply rds_next; [|constructor].
        apply (rds_E single_dot double_dot (lit "/") seg (47 :: r) o); auto; try discriminate. right. now exists r.
      * destruct (end_slash r0 y Hi (seg ++ [47])) as (i' & -> & ->). { rewrite E, <- app_assoc. reflexivity. }
        destruct (IH i' _ t ltac:(rewrite !app_length in L; cbn in L; lia) R) as (o2 & -> & St). exists o2. split; auto. eapply rds_next; [|exact St]. rewrite <- !app_assoc.
        apply (rds_E single_dot double_dot (lit "/") seg (47 :: i' ++ 47 :: r) o); auto; try discriminate. right. now exists (i' ++ 47 :: r).
Qed.
Lemma rds_prefix r n : forall x o t, (length x <= n)%nat -> rds_steps single_dot double_dot (x ++ [47], o) ([], t) ->
  (exists o', t = o' ++ [47] /\ rds_steps single_dot double_dot (x ++ 47 :: r, o) (47 :: r, o')) \/
  (t = o /\ rds_steps single_dot double_dot (x ++ 47 :: r, o) (r, o)).
Proof.
  induction n as [|n IH]; intros x o t L H.
  - destruct x; [|cbn in L; lia]. cbn [app] in *. apply steps_one in H. left. exists o. split; auto. constructor.
  - destruct x as [|c x]; [cbn [app] in *; apply steps_one in H; left; exists o; split; auto; constructor|].
    destruct (N.eq_dec c 47) as [-> |Hc]; [left; exact (rds_prefix_abs r (length x) x o t (le_n _) H)|].
    inversion H as [|? st ? St R]; subst; clear H. remember ((c :: x) ++ [47], o) as s0 eqn:E.
    destruct St as [d i0 o0 Hd|d i0 o0 Hd|d o0 Hd|d i0 o0 o1 Hd Hr|d o0 o1 Hd Hr|d o0 Hd|ld seg i0 o0 Hl Hs Hne Hd Hdd Hii]; injection E as E1 E2; subst o0; try (exfalso; change (lit "/") with [47] in E1; cbn [app] in E1; congruence).
    + destruct (list_eq_dec N.eq_dec i0 []) as [-> |Hi].
      * right. assert (E : d = c :: x) by (apply (app_inj_tail d (c :: x) 47 47); exact E1). subst d. split; [now apply steps_nil in R|]. eapply rds_next; [exact (rds_A single_dot double_dot (c :: x) r o Hd)|constructor].
      * destruct (end_slash i0 (c :: x) Hi (d ++ [47])) as (i' & -> & Ex). { rewrite <- app_assoc. exact E1. }
        assert (L' : (length i' <= n)%nat). { assert (X := f_equal (@length N) Ex). rewrite !app_length in X. cbn in X, L. lia. }
        rewrite Ex. destruct (IH i' o t L' R) as [(o' & -> & St)|(-> & St)].
        -- left. exists o'. split; auto. eapply rds_next; [|exact St]. rewrite <- !app_assoc. exact (rds_A single_dot double_dot d (i' ++ 47 :: r) o Hd).
        -- right. split; auto. eapply rds_next; [|exact St]. rewrite <- !app_assoc. exact (rds_A single_dot double_dot d (i' ++ 47 :: r) o Hd).
    + exfalso. assert (Z : d <> [] /\ no_slash d) by (destruct Hd; [now apply a_dot_ok|now apply double_dot_ok]). destruct Z as (_ & Z2). apply (no_slash_last d (c :: x) Z2). exact E1.
    + destruct Hl as [-> | ->]; [|exfalso; change (lit "/") with [47] in E1; cbn [app] in E1; congruence]. cbn [app] in E1, Hne. cbn [app] in R.
      destruct Hii as [-> |(r0 & ->)]; [exfalso; rewrite app_nil_r in E1; apply (no_slash_last seg (c :: x) Hs); exact E1|]. change (lit "/" ++ r0) with (47 :: r0) in *.
      left. destruct (list_eq_dec N.eq_dec r0 []) as [-> |Hi].
      * assert (E : seg = c :: x) by (apply (app_inj_tail seg (c :: x) 47 47); exact E1). subst seg. apply steps_one in R. subst t. eexists. split; [reflexivity|]. eapply rds_next; [|constructor].
        apply (rds_E single_dot double_dot [] (c :: x) (47 :: r) o); auto. right. now exists r.
      * destruct (end_slash r0 (c :: x) Hi (seg ++ [47])) as (i' & -> & Ex). { rewrite <- app_assoc. exact E1. }
        destruct (rds_prefix_abs r (length i') i' _ t (le_n _) R) as (o2 & -> & St). exists o2. split; auto. eapply rds_next; [|exact St]. rewrite Ex, <- !app_assoc.
        apply (rds_E single_dot double_dot [] seg (47 :: i' ++ 47 :: r) o); auto. right. now exists (i' ++ 47 :: r).
Qed.
(** So the part before [r] can be cleaned first. *)
Lemma steps_det x y z : rds_steps single_dot double_dot x y -> rds_steps single_dot double_dot x ([], z) -> rds_steps single_dot double_dot y ([], z).
Proof.
  induction 1 as [|x y w St R IH]; intros H; auto. apply IH. inversion H as [|? y' ? St' R']; subst.
  - elim (nil_stuck _ _ St).
  - rewrite (step_fun single_dot double_dot) with (x := x) (y := y) (z := y'); auto; [exact a_dot_ok|exact double_dot_ok|].
    intros d Hd Hdd. apply from_segment_dot in Hd. apply from_segment_dotdot in Hdd. congruence.
Qed.
Lemma rds_dir x t r : rds (x ++ [47]) t -> (t = [] \/ exists o, t = o ++ [47]) /\ forall z, rds (x ++ 47 :: r) z <-> rds (t ++ r) z.
Proof.
  intros H. assert (D : rds t t) by (exact (rds_idem _ _ H)). unfold rds, remove_dot_segments in *.
  assert (K : forall y st, rds_steps single_dot double_dot y st -> forall z, rds_steps single_dot double_dot y ([], z) <-> rds_steps single_dot double_dot st ([], z)).
  { intros y st Y z. split; [now apply steps_det|intros; eapply steps_app; eauto]. }
  destruct (rds_prefix r (length x) x [] t (le_n _) H) as [(o & -> & St)|(-> & St)].
  - split; [eauto|]. destruct (rds_prefix r (length o) o [] _ (le_n _) D) as [(o' & E & St')|(E & _)]; [|destruct o; discriminate]. apply app_inj_tail in E. destruct E as (<- & _).
    intros z. rewrite <- app_assoc. cbn [app]. rewrite (K _ _ St), (K _ _ St'). tauto.
  - split; [auto|]. intros z. cbn [app]. apply (K _ _ St).
Qed.
Lemma single_dec l : single_dot l \/ ~ single_dot l.
Proof. destruct (from_segment l) eqn:E; [left; now apply from_segment_dot|right|right]; intros H; apply from_segment_dot in H; congruence. Qed.
(** What follows the last "/" stays, unless it is a dot segment. *)
Lemma rds_last dir last t q : rds (dir ++ [47]) t -> no_slash last -> ~ double_dot last -> rds (dir ++ 47 :: last) q ->
  exists l, no_slash l /\ q = t ++ l.
Proof.
  intros Ht Ns Nd Hq. destruct (rds_dir dir t last Ht) as (Sh & Eq). apply Eq in Hq. assert (D := rds_idem _ _ Ht). destruct Sh as [-> |(o & ->)].
  - cbn [app] in *. destruct last as [|c last]; [exists []; split; [intros []|]; exact (rds_fun _ _ _ Hq (rds_refl _ _ _))|].
    destruct (single_dec (c :: last)) as [Sd|Sd].
    + exists []. split; [intros []|]. apply (rds_fun _ _ _ Hq). eapply rds_next; [apply rds_D; left; exact Sd|constructor].
    + exists (c :: last). split; auto. apply (rds_fun _ _ _ Hq). eapply rds_next; [|constructor]. rewrite <- (app_nil_r (c :: last)) at 1. apply (rds_E single_dot double_dot [] (c :: last) []); auto. discriminate.
  - unfold rds, remove_dot_segments in D. destruct (rds_prefix last (length o) o [] _ (le_n _) D) as [(o' & E & St)|(E & _)]; [|destruct o; discriminate]. apply app_inj_tail in E. destruct E as (<- & _). rewrite <- app_assoc in Hq. cbn [app] in Hq.
    destruct (single_dec last) as [Sd|Sd].
    + exists []. split; [intros []|]. apply (rds_fun _ _ _ Hq). eapply steps_app; [exact St|]. eapply rds_next; [exact (rds_B' single_dot double_dot last o Sd)|]. rewrite app_nil_r.
      eapply rds_next; [|constructor]. apply (rds_E single_dot double_dot (lit "/") [] [] o); auto; try discriminate; [intros []| |]; intros K; [apply a_dot_ok in K|apply double_dot_ok in K]; tauto.
    + exists last. split; auto. apply (rds_fun _ _ _ Hq). eapply steps_app; [exact St|]. eapply rds_next; [|constructor]. rewrite <- app_assoc. cbn [app].
      rewrite <- (app_nil_r last) at 1. apply (rds_E single_dot double_dot (lit "/") last [] o); auto. discriminate.
Qed.
Lemma rds_noslash p q : rds p q -> no_slash p -> no_slash q.
Proof.
  intros H Ns. destruct p as [|c p]; [rewrite (rds_fun _ _ _ H (rds_refl _ _ _)); intros []|]. destruct (single_dec (c :: p)) as [Sd|Sd]; [|destruct (from_segment (c :: p)) eqn:K].
  - rewrite (rds_fun _ _ _ H (rds_next _ _ _ _ _ (rds_D single_dot double_dot (c :: p) [] (or_introl Sd)) (rds_refl _ _ _))). intros [].
  - now apply from_segment_dot in K.
  - apply from_segment_dotdot in K. rewrite (rds_fun _ _ _ H (rds_next _ _ _ _ _ (rds_D single_dot double_dot (c :: p) [] (or_intror K)) (rds_refl _ _ _))). intros [].
  - assert (St : rds (c :: p) (c :: p)). { eapply rds_next; [|constructor]. rewrite <- (app_nil_r (c :: p)) at 1. apply (rds_E single_dot double_dot [] (c :: p) []); auto; [discriminate|]. intros X. apply from_segment_dotdot in X. congruence. }
    now rewrite (rds_fun _ _ _ H St).
Qed.
Lemma wf_slash_dir a b : pct_wf (a ++ 47 :: b) <-> pct_wf a /\ pct_wf b.
Proof. exact (wf_slash a b). Qed.
Lemma dots_path S o p q : pct_wf p -> o = false \/ starts_with (lit "/") p = true -> rds p q -> same_path S o p q.
Proof. intros. apply rst_step. now apply ps_dots. Qed.
Lemma starts_cat a b : a <> [] -> starts_with (lit "/") (a ++ b) = starts_with (lit "/") a.
Proof. intros H. destruct a as [|c a]; [easy|]. unfold starts_with. change (lit "/") with [47]. cbn [app strip_prefix]. now destruct (47 =? c). Qed.
Lemma na_auth (a : option str) (w : str) : defined a = false -> ~ (defined a = true /\ w = []).
Proof. intros H (X & _). congruence. Qed.
(** Merging with the normalized base path. *)
Lemma merge_normal S keep (a : option str) p z r m1 m2 :
  path_normal S keep (defined a) p z -> pct_wf r -> (defined a = true -> p = [] \/ starts_with (lit "/") p = true) ->
  keep && negb (defined a) && negb (starts_with (lit "/") p) = true \/ (forall dir last, p = dir ++ lit "/" ++ last -> ~ double_dot last) ->
  merge (defined a) p r m1 -> merge (defined a) (safe_path a z) r m2 -> same_path S (keep && negb (defined a)) m1 m2.
Proof.
  intros Pz Wr Ha Nd M1 M2. apply pathn_cases in Pz. destruct Pz as [(O & Ns & P)|(O & Pz)].
  - assert (Da : defined a = false) by (destruct (defined a); auto; rewrite andb_false_r in O; discriminate). assert (Sz : starts_with (lit "/") z = false) by (now rewrite <- (pn_slash_start _ _ _ P)).
    assert (E : safe_path a z = z). { destruct a; [reflexivity|]. unfold safe_path. destruct (starts_with (lit "//") z) eqn:X; [|reflexivity]. apply starts_slash_iff in X. destruct X as (x & ->). discriminate. }
    rewrite E in M2. inversion M1 as [Hx Hy|dir last Hn E1 Nl|Hn Nl]; subst; [congruence| |].
    + change (dir ++ lit "/" ++ last) with (dir ++ 47 :: last) in P. assert (W := pn_wf_l _ _ _ P). apply wf_slash_dir in W. destruct W as (W1 & W2). destruct (pn_split S 47 dir last z P ltac:(discriminate) W1) as (td & tl & -> & P1 & P2).
      rewrite (merge_fun _ _ _ _ _ M2 (merge_last _ _ _ td tl (na_auth a _ Da) eq_refl (pn_no_slash _ _ _ P2 Nl))). apply spell_path, spell_l; [apply wf_raw; [discriminate|exact Wr]|now apply pn_same].
    + rewrite (merge_fun _ _ _ _ _ M2 (merge_noslash _ _ _ (na_auth a _ Da) (pn_no_slash _ _ _ P Nl))). apply rst_refl.
  - destruct Nd as [Nd|Nd]; [exfalso; apply andb_prop in Nd; destruct Nd as (X1 & X2); apply Bool.negb_true_iff in X2; destruct O; congruence|].
    apply path_normal_alt in Pz. destruct Pz as (q & R & P & W). inversion M1 as [Hx Hy|dir last Hn E1 Nl|Hn Nl]; subst.
    + rewrite (rds_fun _ _ _ R (rds_refl _ _ _)) in P. inversion P; subst.
      * destruct a; [|discriminate]. cbn [safe_path] in M2. rewrite (merge_fun _ _ _ _ _ M2 (merge_empty _ [] r eq_refl eq_refl)). apply rst_refl.
      * exfalso. destruct bs; [|discriminate]. inversion H0. assert (X := unreserved_scalar _ _ H1). destruct (utf8_shape c X) as (f & ks & Y & _). congruence.
    + specialize (Nd dir last eq_refl). change (dir ++ lit "/" ++ last) with (dir ++ 47 :: last) in *. change (dir ++ lit "/" ++ r) with (dir ++ 47 :: r).
      destruct (rds_total (dir ++ [47])) as (t & Ht). destruct (rds_last dir last t q Ht Nl Nd R) as (l & Nsl & ->). destruct (rds_dir dir t r Ht) as (Sh & Eq). apply wf_slash_dir in W. destruct W as (W1 & W2).
      assert (W3 : pct_wf (dir ++ 47 :: r)) by (now apply wf_slash_dir). destruct (rds_total (dir ++ 47 :: r)) as (w & Hw). assert (Hw' := proj1 (Eq w) Hw). set (o := keep && negb (defined a)) in *.
      assert (SS : forall x y, starts_with (lit "/") (dir ++ 47 :: x) = starts_with (lit "/") (dir ++ 47 :: y)) by (intros x y; destruct dir; [reflexivity|rewrite !starts_cat by discriminate; reflexivity]).
      assert (O1 : o = false \/ starts_with (lit "/") (dir ++ 47 :: r) = true) by (rewrite (SS r last); exact O).
      assert (At : starts_with (lit "/") (dir ++ 47 :: last) = true -> exists x, t = 47 :: x) by (intros X; apply (rds_abs _ _ Ht); now rewrite (SS [] last)).
      destruct Sh as [-> |(o' & ->)].
      * cbn [app] in *. assert (Fo : starts_with (lit "/") (dir ++ 47 :: last) = false) by (destruct (starts_with (lit "/") (dir ++ 47 :: last)); auto; destruct (At eq_refl); discriminate).
        assert (Da : defined a = false). { destruct (defined a); auto. destruct (Ha eq_refl) as [X|X]; [destruct dir; discriminate|congruence]. }
        assert (Nz := pn_no_slash _ _ _ P Nsl). assert (E : safe_path a z = z). { destruct a; [reflexivity|]. unfold safe_path. destruct (starts_with (lit "//") z) eqn:X; [|reflexivity]. apply starts_slash_iff in X. destruct X as (x & ->). elim Nz. now left. }
        rewrite E in M2. rewrite (merge_fun _ _ _ _ _ M2 (merge_noslash _ _ _ (na_auth a _ Da) Nz)).
        destruct O1 as [O1|O1]; [|rewrite (SS r last), Fo in O1; discriminate]. eapply rst_trans; [exact (dots_path S o _ _ W3 (or_introl O1) Hw)|]. apply rst_sym. exact (dots_path S o _ _ Wr (or_introl O1) Hw').
      * rewrite <- app_assoc in P, Hw'. cbn [app] in P, Hw'. assert (Wo := pn_wf_l _ _ _ P). apply wf_slash_dir in Wo. destruct Wo as (Wo & Wl). destruct (pn_split S 47 o' l z P ltac:(discriminate) Wo) as (td & tl & -> & P1 & P2).
        assert (Ntl := pn_no_slash _ _ _ P2 Nsl). assert (O2 : o = false \/ starts_with (lit "/") (o' ++ 47 :: r) = true).
        { destruct O as [O|O]; [now left|right]. destruct (At O) as (x & Ex). apply starts_slash_cons. destruct o' as [|c o']; [eexists; reflexivity|]. injection Ex as -> _. eexists. reflexivity. }
        assert (K1 : same_path S o (dir ++ 47 :: r) (o' ++ 47 :: r)). { eapply rst_trans; [exact (dots_path S o _ _ W3 O1 Hw)|]. apply rst_sym. apply dots_path; auto. now apply wf_slash_dir. }
        eapply rst_trans; [exact K1|]. eapply rst_trans; [apply spell_path, spell_l; [apply wf_raw; [discriminate|exact Wr]|exact (pn_same _ _ _ P1)]|].
        assert (Wtd := pn_wf_r _ _ _ P1). assert (Nm : forall g, ~ (defined a = true /\ g ++ td ++ lit "/" ++ tl = [])) by (intros g (_ & X); apply app_eq_nil in X; destruct X as (_ & X); destruct td; discriminate).
        unfold safe_path in M2. assert (Z : merge (defined a) (td ++ 47 :: tl) r m2 -> same_path S o (td ++ 47 :: r) m2).
        { intros M. rewrite (merge_fun _ _ _ _ _ M (merge_last _ _ _ td tl (Nm []) eq_refl Ntl)). apply rst_refl. }
        destruct a as [a|]; [now apply Z|]. destruct (starts_with (lit "//") (td ++ 47 :: tl)) eqn:G; [|now apply Z].
        rewrite (merge_fun _ _ _ _ _ M2 (merge_last _ _ _ (lit "/." ++ td) tl (Nm (lit "/.")) eq_refl Ntl)). rewrite <- app_assoc. change (td ++ lit "/" ++ r) with (td ++ 47 :: r).
        apply starts_slash_iff in G. destruct G as (g & G). assert (T1 : exists y, td ++ 47 :: r = 47 :: y). { destruct td as [|c td]; [eexists; reflexivity|]. injection G as -> _. eexists. reflexivity. } destruct T1 as (y & Ey).
        assert (Wt : pct_wf (td ++ 47 :: r)) by (now apply wf_slash_dir). destruct (rds_total (td ++ 47 :: r)) as (v & Hv).
        eapply rst_trans; [apply (dots_path S o _ v Wt); [right; rewrite Ey; apply starts_slash_cons; eauto|exact Hv]|]. apply rst_sym. apply dots_path; [|right; reflexivity|].
        -- change (lit "/." ++ td ++ 47 :: r) with (47 :: 46 :: td ++ 47 :: r). do 2 (apply wf_raw; [discriminate|]). exact Wt.
        -- rewrite Ey in *. eapply rds_next; [|exact Hv]. exact (rds_B single_dot double_dot (lit ".") y [] (or_introl eq_refl)).
    + assert (Nq := rds_noslash _ _ R Nl). assert (Nz := pn_no_slash _ _ _ P Nq). assert (Da : defined a = false).
      { destruct (defined a); auto. destruct (Ha eq_refl) as [X|X]; [tauto|]. apply starts_slash_cons in X. destruct X as (x & ->). elim Nl. now left. }
      assert (E : safe_path a z = z). { destruct a; [reflexivity|]. unfold safe_path. destruct (starts_with (lit "//") z) eqn:X; [|reflexivity]. apply starts_slash_iff in X. destruct X as (x & ->). elim Nz. now left. }
      rewrite E in M2. rewrite (merge_fun _ _ _ _ _ M2 (merge_noslash _ _ _ (na_auth a _ Da) Nz)). apply rst_refl.
Qed.

(** ** The code *)
Lemma authority_refl S a : authority S a -> same_authority S a a.
Proof.
  intros H. apply authority_comps in H. destruct H as (u & h & p & -> & Hu & Hh & Hp). exists u, h, p, u, h, p. do 8 (split; [auto|]). split; [|split; [apply rst_refl|reflexivity]]. destruct u; cbn; auto. apply rst_refl.
Qed.
Lemma spelling_refl S o : opt_rel (same_spelling S) o o.
Proof. destruct o; cbn; auto. apply rst_refl. Qed.
Lemma opt_authority_refl S o : opt_in (authority S) o -> opt_rel (same_authority S) o o.
Proof. destruct o; cbn; auto. apply authority_refl. Qed.
Lemma equivalent_refl S keep C : comps_ok S C -> equivalent S keep C C.
Proof.
  intros (_ & Ha & _). split; [destruct (c_s C); cbn; auto|]. split; [now apply opt_authority_refl|]. split; [apply rst_refl|]. split; apply spelling_refl.
Qed.
Lemma equal_normals S keep C D T U : comps_normal S keep C T -> comps_normal S keep D U -> equivalent S keep C D -> T = U.
Proof. intros H1 H2 E. now apply (comps_iff S keep C D T U H1 H2). Qed.
Lemma comps_path_wf S C : comps_ok S C -> pct_wf (c_p C).
Proof.
  intros (_ & _ & _ & _ & Hp). apply pct_wf_scan. assert (X : scan (f_pchar_slash S) (c_p C) = true).
  { destruct (c_a C); [|destruct (c_s C)]; [apply path_abempty_scan in Hp; destruct Hp as [-> |(x & -> & Hx)]; [reflexivity|]; rewrite scan_cons by discriminate; rewrite Hx; destruct S; reflexivity|apply path_noauth_abs in Hp; apply Hp|apply path_noauth_rel in Hp; apply Hp]. }
  eapply scan_mono; [|exact X]. auto.
Qed.
Lemma base_normal_gen S (keep : bool) base ref B : reads S base B -> defined (c_s B) = true -> IRI_reference S ref ->
  keep && negb (defined (c_a B)) && negb (starts_with (lit "/") (c_p B)) = true \/ (forall dir last, c_p B = dir ++ lit "/" ++ last -> ~ double_dot last) ->
  exists nb base' n n' out, (if keep then normalize_preserve base else normalize base) = Ok nb /\ display S nb = Ok base' /\
    resolve base ref = Ok n /\ display S (set_mode n (if keep then MPreserve else MDefault)) = Ok out /\
    resolve base' ref = Ok n' /\ display S (set_mode n' (if keep then MPreserve else MDefault)) = Ok out.
Proof.
  intros RB DB HR Nd. apply reference_reads in HR. destruct HR as (R & RR).
  destruct (c15_components S keep base B RB DB) as (nb & T & E & Nt & _ & X). assert (L : loose_ok S T) by (eapply normal_loose; [apply comps_loose; [apply RB|exact DB]|exact Nt]).
  destruct (reread_reads S T L) as (RT & DT). destruct (resolve_norm_spec S keep base ref B R RB DB RR) as (n & M1 & T1 & E1 & P1 & N1 & X1 & _). destruct (resolve_norm_spec S keep (unparse T) ref (reread T) R RT DT RR) as (n' & M2 & T2 & E2 & P2 & N2 & X2 & _).
  exists nb, (unparse T), n, n', (unparse T1). do 5 (split; [assumption|]). assert (F : T1 = T2); [|now rewrite F].
  apply (equal_normals S keep M1 M2 T1 T2 N1 N2). clear E X E1 X1 E2 X2 N1 N2 T1 T2 nb n n'.
  destruct (c46_sound S keep base B RB DB) as (nb & out & T' & E & X & RT' & Eqv). assert (T' = reread T).
  { destruct (c15_components S keep base B RB DB) as (nb' & T0 & E' & N0 & U & X'). rewrite E in E'. injection E' as <-. rewrite X in X'. injection X' as ->. apply U in Nt. subst T0. exact (reads_unique _ _ _ _ RT' RT). }
  subst T'. clear E X RT' nb out. destruct Eqv as (Es & Ea & Ep & Eq & Ef). cbn [reread c_s c_a c_p c_q c_f] in *. assert (OR := proj1 RR). assert (OB := proj1 RB).
  assert (Da : defined (c_a T) = defined (c_a B)). { destruct (c_a B), (c_a T); cbn in *; try easy. }
  destruct P1 as [Q1|Q1 Q2|Q1 Q2 Q3|r Q1 Q2 Q3|m Q1 Q2 Q3 Q4 Q5]; inversion P2 as [K1|K1 K2|K1 K2 K3|r' K1 K2 K3|m' K1 K2 K3 K4 K5]; subst; try congruence; try (exfalso; eapply K4; eassumption); try (exfalso; eapply Q4; eassumption).
  - now apply equivalent_refl.
  - unfold equivalent. cbn [reread c_s c_a c_p c_q c_f]. split; [exact Es|]. split; [apply opt_authority_refl; apply OR|]. split; [apply rst_refl|]. split; apply spelling_refl.
  - unfold equivalent. cbn [reread c_s c_a c_p c_q c_f]. split; [exact Es|]. split; [exact Ea|]. split; [exact Ep|]. split; [|apply spelling_refl]. destruct (defined (c_q R)); [apply spelling_refl|exact Eq].
  - exfalso. rewrite Q3 in K3. discriminate.
  - exfalso. rewrite Q3 in K3. discriminate.
  - unfold equivalent. cbn [reread c_s c_a c_p c_q c_f]. split; [exact Es|]. split; [exact Ea|]. split; [apply rst_refl|]. split; apply spelling_refl.
  - unfold equivalent. cbn [reread c_s c_a c_p c_q c_f] in *. split; [exact Es|]. split; [exact Ea|]. split; [|split; apply spelling_refl].
    destruct Nt as (_ & _ & Np & _). rewrite <- Da in *. eapply merge_normal; eauto.
    + exact (comps_path_wf S R OR).
    + intros D. assert (D' : defined (c_a B) = true) by congruence. destruct OB as (_ & _ & _ & _ & Hp). destruct (c_a B); [|discriminate]. destruct Hp as [|x y (a & b & -> & Ha & Hb) Hy]; [now left|right]. rewrite Ha. reflexivity.
Qed.
Lemma base_normal S (keep : bool) base ref B : reads S base B -> defined (c_s B) = true -> IRI_reference S ref ->
  (forall dir last, c_p B = dir ++ lit "/" ++ last -> ~ double_dot last) ->
  exists nb base' n n' out, (if keep then normalize_preserve base else normalize base) = Ok nb /\ display S nb = Ok base' /\
    resolve base ref = Ok n /\ display S (set_mode n (if keep then MPreserve else MDefault)) = Ok out /\
    resolve base' ref = Ok n' /\ display S (set_mode n' (if keep then MPreserve else MDefault)) = Ok out.
Proof. intros H1 H2 H3 H4. exact (base_normal_gen S keep base ref B H1 H2 H3 (or_intror H4)). Qed.
Lemma base_normal_applies : reads UriSpec (lit "s:/a/../b/.c") (mkC (Some (lit "s")) None (lit "/a/../b/.c") None None) /\
  forall dir last, lit "/a/../b/.c" = dir ++ lit "/" ++ last -> ~ double_dot last.
Proof.
  split; [apply reads_of_major; reflexivity|]. intros dir last E (a & b & -> & Ha & Hb).
  assert (X : forall d, a_dot d -> exists x, d = x ++ [46] \/ d = x ++ [69] \/ d = x ++ [101]). { intros d [-> |[-> | ->]]; [exists []|exists (lit "%2")|exists (lit "%2")]; auto. }
  destruct (X b Hb) as (y & Y). change (lit "/a/../b/.c") with (lit "/a/../b/." ++ [99]) in E. destruct Y as [-> |[-> | ->]]; rewrite !app_assoc in E; apply app_inj_tail in E; destruct E; discriminate.
Qed.
