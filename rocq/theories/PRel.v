(** * Relative forms of an IRI (C71). *)
From Verif Require Import Base Chars Rfc3986 CompSpec RfcResolve PctSpec NormSpec ConfineSpec RelSpec.
From Verif Require Import MValidate MTrusted MFormat MPct MPath MNormalize PBase PScan PPct PPct3 PPath PPath5 PNorm2 PNorm6 PNorm7 PNorm8 PRds PBaseNorm PSteps PSteps2 PTrusted PSearch PConfine PResolve PChild.

Lemma dd2 : double_dot (lit "..").
Proof. exists (lit "."), (lit "."). repeat split; left; reflexivity. Qed.
Lemma up_steps k a o : levels k a o -> forall r l, in_segments r l -> dotfree l -> rds_steps single_dot double_dot (47 :: ups k ++ r, o) ([], a ++ 47 :: r).
Proof.
  induction 1 as [a|k a o seg L IH N]; intros r l Hl F; [exact (plain_walk r l Hl F a)|].
  eapply rds_next; [|exact (IH r l Hl F)]. exact (rds_C single_dot double_dot (lit "..") (ups k ++ r) (o ++ lit "/" ++ seg) o dd2 (rl_slash o seg N)).
Qed.
Lemma climb dir D k a pre r l : rds (dir ++ lit "/") D -> levels k a D \/ (exists o, D = o ++ [47] /\ levels k a o) -> in_segments r l -> dotfree l -> pre = [] \/ pre = lit "./" ->
  (exists o, D = o ++ [47] /\ levels k a o) -> rds (dir ++ lit "/" ++ pre ++ ups k ++ r) ((a ++ lit "/") ++ r).
Proof.
  intros HD _ Hl F Hp (o & E & L). destruct (rds_prefix (pre ++ ups k ++ r) (length dir) dir [] _ (le_n _) HD) as [(o' & E' & St)|(E' & _)].
  - assert (o' = o) as -> by (rewrite E in E'; apply app_inj_tail in E'; destruct E'; auto). eapply steps_app; [exact St|]. rewrite <- app_assoc.
    destruct Hp as [-> | ->]; [exact (up_steps k a o L r l Hl F)|].
    eapply rds_next; [exact (rds_B single_dot double_dot (lit ".") (ups k ++ r) o dot_single)|]. exact (up_steps k a o L r l Hl F).
  - rewrite E' in E. destruct o; discriminate.
Qed.
Lemma dotfree_of r : without_dots r -> exists l, in_segments r l /\ dotfree l.
Proof. intros W. destruct (segments_total r) as [l Hl]. exists l. split; auto. apply Forall_forall. intros seg I. exact (W l seg Hl I). Qed.
Lemma rel_target B R d D k A pre r p : directory B d -> rds d D -> ancestor k A D -> k = O \/ A <> [] -> rds p p -> p = A ++ r -> pre = [] \/ pre = lit "./" ->
  defined (c_s R) = false -> defined (c_a R) = false -> c_p R = pre ++ ups k ++ r -> c_p R <> [] -> (forall w, c_p R <> lit "/" ++ w) ->
  transform B R (mkC (c_s B) (c_a B) p (c_q R) (c_f R)).
Proof.
  intros Hd HD HA Hk Hp E Hpre Hs Ha ER Hne Hr. pose proof (ancestor_form _ _ _ HA) as FA. rewrite E in Hp. destruct (dotfree_of r (tail_dotless _ A r Hp FA)) as (l & Hl & F).
  destruct FA as [EA|[a EA]].
  - destruct Hk as [Ek|Hk]; [|easy]. subst k A. inversion HA; subst. cbn [ups app] in *. exact (child_target B d [] R pre l Hd HD Hs Ha Hpre r ER Hne Hr Hl F).
  - destruct (ancestor_levels _ _ _ HA a EA) as (o & Eo & L). destruct (merge_directory B d (c_p R) Hd) as [(dir & Ed & M)|(Ed & M)].
    + rewrite Ed in HD. eapply tr_rel_path; eauto. rewrite ER, E, EA. apply (climb dir D k a pre r l); auto; eauto.
    + rewrite Ed in HD. assert (D = []) as D0 by (apply (rds_fun [] D []); auto; apply rds_refl). rewrite D0 in Eo. destruct o; discriminate.
Qed.
Lemma tidy_rds T p : tidy T p -> rds (c_p T) p.
Proof.
  intros [Hp E]. rewrite E. unfold safe_path. destruct (c_a T); auto. destruct (starts_with (lit "//") p) eqn:K; auto.
  apply starts_slash_iff in K. destruct K as [r Er]. apply rds_guarded; [exact (rds_dotless _ _ Hp)| |]; rewrite Er; [right; now exists (47 :: r)|discriminate].
Qed.
Lemma tidy_text S t T p : reads S t T -> tidy T p -> unparse (mkC (c_s T) (c_a T) p (c_q T) (c_f T)) = t.
Proof. intros [_ E] [_ Ep]. rewrite E. unfold unparse. cbn [c_s c_a c_p c_q c_f]. now rewrite <- Ep. Qed.
Lemma safe_reads S i C : reads S i C -> safe_path (c_a C) (c_p C) = c_p C.
Proof. intros [H _]. destruct (components_weak _ _ _ _ _ _ H) as (_ & X & _). unfold safe_path. destruct (c_a C); auto. change (starts_with (lit "//") (c_p C) = false) in X. now rewrite X. Qed.
Lemma self_text S t T : reads S t T -> unparse T = t.
Proof. intros H. pose proof (safe_reads _ _ _ H) as X. destruct H as [_ E]. rewrite E. unfold unparse. now rewrite X. Qed.
Lemma c71_forms S base B t T ref R : reads S base B -> defined (c_s B) = true -> reads S t T -> reads S ref R -> relative B T R ->
  exists n, resolve base ref = Ok n /\ display S n = Ok t.
Proof.
  intros HB DB HT HR Rel. destruct (resolve_spec S base ref B R HB DB HR) as (n & T' & E & _ & U & D & _). exists n. split; auto. rewrite D. f_equal.
  assert (G : exists T0, transform B R T0 /\ unparse T0 = t); [|destruct G as (T0 & G1 & G2); rewrite <- (U _ G1); exact G2].
  clear U D E T' n. destruct Rel as [Es Ea Ep Eq|Es Ea Ep Dq|p r Es Ea Ti Er|p Es Da Ti|p d D k A pre r Es Ea Ti Hd HD HA Hk E Hpre Hne Hr].
  - exists (mkC (c_s B) (c_a B) (c_p B) (c_q B) (c_f T)). split; [now apply (tr_empty_path rds B (mkC None None [] None (c_f T)))|].
    rewrite <- Es, <- Ea, <- Ep, <- Eq. rewrite <- (self_text S t T HT). now destruct T.
  - exists (mkC (c_s B) (c_a B) (c_p B) (c_q T) (c_f T)). split.
    + pose proof (tr_empty_path rds B (mkC None None [] (c_q T) (c_f T)) eq_refl eq_refl eq_refl) as X. cbn [c_q c_f] in X. rewrite Dq in X. exact X.
    + rewrite <- Es, <- Ea, <- Ep. rewrite <- (self_text S t T HT). now destruct T.
  - exists (mkC (c_s T) (c_a T) p (c_q T) (c_f T)). split; [|exact (tidy_text S t T p HT Ti)]. rewrite Es, Ea.
    exact (tr_abs_path rds B (mkC None None (c_p T) (c_q T) (c_f T)) r p eq_refl eq_refl Er (tidy_rds _ _ Ti)).
  - exists (mkC (c_s T) (c_a T) p (c_q T) (c_f T)). split; [|exact (tidy_text S t T p HT Ti)]. rewrite Es.
    exact (tr_authority rds B (mkC None (c_a T) (c_p T) (c_q T) (c_f T)) p eq_refl Da (tidy_rds _ _ Ti)).
  - exists (mkC (c_s T) (c_a T) p (c_q T) (c_f T)). split; [|exact (tidy_text S t T p HT Ti)]. rewrite Es, Ea.
    exact (rel_target B (mkC None None (pre ++ ups k ++ r) (c_q T) (c_f T)) d D k A pre r p Hd HD HA Hk (proj1 Ti) E Hpre eq_refl eq_refl eq_refl Hne Hr).
Qed.
(** ** No relative path leads to a path without root that does not begin like the base. *)
Definition under (x o : str) : Prop := slashy o \/ exists i, slashy i /\ o = x ++ i.
Lemma slashy_cut o s : slashy (o ++ 47 :: s) -> slashy o.
Proof. intros [X|[r X]]; destruct o as [|c o]; try discriminate; [now left|]. right. injection X as -> _. now exists o. Qed.
Lemma under_last x o o' : no_slash x -> under x o -> remove_last o o' -> under x o'.
Proof.
  intros Nx U Rl. destruct Rl as [o' seg N|seg N]; [|left; now left]. destruct U as [U|(i & Hi & E)]; [left; exact (slashy_cut _ _ U)|].
  change (o' ++ lit "/" ++ seg) with (o' ++ 47 :: seg) in E. destruct (app_eq_app _ _ _ _ E) as (l & [[E1 E2]|[E1 E2]]).
  - right. exists l. split; auto. rewrite E2 in Hi. exact (slashy_cut _ _ Hi).
  - destruct l as [|c l]; [right; exists []; split; [now left|]; rewrite E1, !app_nil_r; reflexivity|]. injection E2 as <- _. elim Nx. rewrite E1. apply in_app_iff. right. now left.
Qed.
Lemma stays_under x y o z : no_slash x -> rds_steps single_dot double_dot (47 :: y, o) ([], z) -> under x o -> exists s, z = 47 :: s \/ z = x ++ 47 :: s.
Proof.
  intros Nx H. remember (47 :: y, o) as a eqn:Ea. remember ([], z) as b eqn:Eb. revert y o Ea. induction H as [st|st1 st2 st3 St H IH]; intros y o Ea U; subst; [discriminate|].
  assert (Fin : forall i seg, slashy i -> st2 = (i, o ++ 47 :: seg) -> exists s, z = 47 :: s \/ z = x ++ 47 :: s).
  { intros i seg Hi E2. assert (U2 : under x (o ++ 47 :: seg) /\ exists s, o ++ 47 :: seg = 47 :: s \/ o ++ 47 :: seg = x ++ 47 :: s).
    { destruct U as [[E|[r E]]|(j & [E|[r E]] & E')].
      - rewrite E. split; [left; right; now exists seg|exists seg; now left].
      - rewrite E. split; [left; right; now exists (r ++ 47 :: seg)|exists (r ++ 47 :: seg); now left].
      - rewrite E', E, app_nil_r. split; [right; exists (47 :: seg); split; auto; right; now exists seg|exists seg; now right].
      - rewrite E', E, <- app_assoc. split; [right; exists ((lit "/" ++ r) ++ 47 :: seg); split; auto; right; now exists (r ++ 47 :: seg)|exists (r ++ 47 :: seg); now right]. }
    destruct U2 as [U2 Q]. destruct Hi as [-> |[r ->]]; [|exact (IH eq_refl _ _ E2 U2)]. rewrite E2 in H. apply steps_nil in H. rewrite H. exact Q. }
  destruct (step_slash _ _ _ St) as [(d & i & D & E & E2)|[(D & E2)|[(d & i & o' & D & Rl & E & E2)|[(o' & D & Rl & E2)|(seg & i & N & _ & _ & E & Hi & E2)]]]].
  - exact (IH eq_refl _ _ E2 U).
  - exact (IH eq_refl _ _ E2 U).
  - exact (IH eq_refl _ _ E2 (under_last _ _ _ Nx U Rl)).
  - exact (IH eq_refl _ _ E2 (under_last _ _ _ Nx U Rl)).
  - exact (Fin i seg Hi E2).
Qed.
Lemma first_segment o : exists x i, no_slash x /\ slashy i /\ o = x ++ i.
Proof.
  destruct (segments_total o) as [l H]. destruct H as [seg N|seg p l N H].
  - exists seg, []. split; auto. split; [now left|now rewrite app_nil_r].
  - exists seg, (lit "/" ++ p). split; auto. split; auto. right. now exists p.
Qed.
Lemma rel_only B R m p d D : directory B d -> rds d D -> merge (defined (c_a B)) (c_p B) (c_p R) m -> rds m p ->
  D = [] \/ (exists r, p = lit "/" ++ r) \/ exists x u v, no_slash x /\ D = x ++ lit "/" ++ u /\ p = x ++ lit "/" ++ v.
Proof.
  intros Hd HD M Hp. destruct (merge_directory B d (c_p R) Hd) as [(dir & Ed & M')|(Ed & M')]; rewrite (merge_fun _ _ _ _ _ M M') in Hp; clear M M'.
  - rewrite Ed in HD. destruct (rds_prefix (c_p R) (length dir) dir [] _ (le_n _) HD) as [(o & E & St)|(E & _)]; [right|now left].
    destruct (first_segment o) as (x & i & Nx & Hi & Eo). pose proof (steps_det _ _ _ St Hp) as H. destruct (stays_under x _ _ _ Nx H) as (s & [Z|Z]); [right; now exists i|left; now exists s|].
    right. rewrite E, Eo, <- app_assoc. destruct Hi as [-> |[r ->]]; [exists x, [], s; auto|exists x, (r ++ [47]), s]. split; auto.
  - left. rewrite Ed in HD. apply (rds_fun [] D []); auto. apply rds_refl.
Qed.
(** ** Which IRIs have a relative form. *)
Lemma none_of (o : option str) : defined o = false -> o = None.
Proof. now destruct o. Qed.
Lemma c71_only S base B t T ref R n : reads S base B -> defined (c_s B) = true -> reads S t T -> reads S ref R -> defined (c_s R) = false ->
  resolve base ref = Ok n -> display S n = Ok t -> relativizable B T.
Proof.
  intros HB DB HT HR DR E D. destruct (resolve_spec S base ref B R HB DB HR) as (n' & T' & E' & Tr & _ & D' & Rd & _).
  rewrite E in E'. injection E' as <-. rewrite D in D'. injection D' as ->. rewrite (reads_unique _ _ _ _ HT Rd). clear HT Rd T D E.
  assert (Pt : forall s a p q f, rds p p -> tidy (reread (mkC s a p q f)) p) by (intros; split; auto; reflexivity).
  destruct Tr as [p D1 Hp|p D1 D2 Hp|D1 D2 E1|r p D1 D2 E1 Hp|m p D1 D2 N1 N2 M Hp].
  - congruence.
  - split; [reflexivity|]. right. exists p. split; [apply Pt; exact (rds_idem _ _ Hp)|]. now left.
  - split; [reflexivity|]. left. split; [reflexivity|]. split; [exact (safe_reads _ _ _ HB)|]. cbn [reread c_q]. destruct (defined (c_q R)) eqn:K; [now right|now left].
  - split; [reflexivity|]. right. exists p. split; [apply Pt; exact (rds_idem _ _ Hp)|]. cbn [reread c_a]. destruct (defined (c_a B)) eqn:K; [now left|right]. split; auto. split; auto. left.
    destruct (rds_slashy _ _ Hp) as [Ep|[w Ep]]; [rewrite E1; right; now exists r| |exists w; exact Ep].
    rewrite E1 in Hp. assert (St : exists s, p = 47 :: s \/ p = [] ++ 47 :: s) by (apply (stays_under [] r [] p); [intros []|exact Hp|left; now left]). destruct St as (s & [X|X]); rewrite Ep in X; discriminate.
  - split; [reflexivity|]. right. exists p. split; [apply Pt; exact (rds_idem _ _ Hp)|]. cbn [reread c_a]. destruct (defined (c_a B)) eqn:K; [now left|right]. split; auto. split; auto. rewrite <- K in M.
    destruct (directory_total S base B HB) as (d & D & Hd & HD). destruct (rel_only B R m p d D Hd HD M Hp) as [X|[X|X]]; [right; exists d, D; auto|now left|right; exists d, D; auto].
Qed.
Lemma ancestors x n : forall u, (length u <= n)%nat -> u = [] \/ (exists w, u = w ++ lit "/") -> exists k, ancestor k (x ++ lit "/") (x ++ lit "/" ++ u).
Proof.
  induction n as [|n IH]; intros u L [-> |[w ->]].
  1,3: exists O; rewrite app_nil_r; apply anc_self; right; now exists x.
  - rewrite app_length in L. cbn in L. lia.
  - destruct (last_slash w) as [Nw|(w' & seg & -> & Ns)].
    + exists 1%nat. pose proof (anc_up 0 (x ++ lit "/") (x ++ lit "/") w (anc_self _ (or_intror (ex_intro _ x eq_refl))) Nw) as X. now rewrite <- app_assoc in X.
    + destruct (IH (w' ++ lit "/")) as [k Hk]; [rewrite !app_length in *; cbn [length] in *; lia|right; now exists w'|]. exists (Datatypes.S k).
      pose proof (anc_up k _ _ seg Hk Ns) as X. replace (x ++ lit "/" ++ (w' ++ 47 :: seg) ++ lit "/") with ((x ++ lit "/" ++ w' ++ lit "/") ++ seg ++ lit "/"); [exact X|].
      change (47 :: seg) with (lit "/" ++ seg). repeat rewrite <- app_assoc. cbn [app]. repeat rewrite <- app_assoc. reflexivity.
Qed.
Lemma ups_scan S k : scan (f_pchar_slash S) (ups k) = true.
Proof. induction k as [|k IH]; [reflexivity|]. cbn [ups]. destruct S; exact IH. Qed.
Lemma rel_reads S p (q f : option str) : scan (f_pchar_slash S) p = true -> starts_with (lit "//") p = false -> first_is_colon p = false -> opt_in (query S) q -> opt_in (fragment S) f ->
  reads S (recompose None None p q f) (mkC None None p q f).
Proof. intros H1 H2 H3 H4 H5. split; [|reflexivity]. split; [exact I|]. split; [exact I|]. split; [exact H4|]. split; [exact H5|]. cbn [c_a c_s c_p]. apply path_noauth_rel. auto. Qed.
Lemma dots_reads S k r (q f : option str) : scan (f_pchar_slash S) r = true -> opt_in (query S) q -> opt_in (fragment S) f ->
  reads S (recompose None None (lit "./" ++ ups k ++ r) q f) (mkC None None (lit "./" ++ ups k ++ r) q f).
Proof.
  intros H Hq Hf. apply rel_reads; auto. change (lit "./" ++ ups k ++ r) with (lit "." ++ lit "/" ++ ups k ++ r). rewrite scan_slash by (now destruct S). apply andb_true_intro. split; [now destruct S|].
  clear - H. induction k as [|k IH]; [exact H|]. cbn [ups]. change ((lit "../" ++ ups k) ++ r) with (lit ".." ++ lit "/" ++ ups k ++ r). rewrite scan_slash by (now destruct S). rewrite IH. now destruct S.
Qed.
Lemma tidy_scan S t T p : reads S t T -> tidy T p -> scan (f_pchar_slash S) p = true.
Proof.
  intros [H _] [_ E]. apply PSteps.path_scan in H. rewrite E in H. unfold safe_path in H. destruct (c_a T); auto. destruct (starts_with (lit "//") p) eqn:K; auto.
  apply starts_slash_iff in K. destruct K as [r ->]. change (lit "/." ++ 47 :: 47 :: r) with (lit "/." ++ lit "/" ++ 47 :: r) in H. rewrite scan_slash in H by (now destruct S). apply andb_prop in H. change (47 :: 47 :: r) with (lit "/" ++ 47 :: r). rewrite scan_lead by (now destruct S). apply H.
Qed.
Lemma c71_exists S base B t T : reads S base B -> defined (c_s B) = true -> reads S t T -> relativizable B T -> exists ref R, reads S ref R /\ defined (c_s R) = false /\ relative B T R.
Proof.
  intros HB DB HT (Es & H). pose proof HT as [HT0 Et]. destruct HT0 as (O1 & O2 & O3 & O4 & O5).
  destruct H as [(Ea & Ep & [Eq|Dq])|(p & Ti & [Da|(Da & Db & [[r Er]|(d & D & Hd & HD & X)])])].
  - exists (recompose None None [] None (c_f T)), (mkC None None [] None (c_f T)). split; [apply rel_reads; auto; now destruct S|]. split; auto. now apply rel_fragment.
  - exists (recompose None None [] (c_q T) (c_f T)), (mkC None None [] (c_q T) (c_f T)). split; [apply rel_reads; auto; now destruct S|]. split; auto. now apply rel_query.
  - exists (recompose None (c_a T) (c_p T) (c_q T) (c_f T)), (mkC None (c_a T) (c_p T) (c_q T) (c_f T)). split; [|split; [reflexivity|now apply (rel_network B T p)]].
    split; [|reflexivity]. split; [exact I|]. split; [exact O2|]. split; [exact O3|]. split; [exact O4|]. cbn [c_a c_s c_p]. destruct (c_a T); [exact O5|discriminate].
  - assert (Hw : exists w, c_p T = lit "/" ++ w). { destruct Ti as [_ E]. rewrite E, Er. unfold safe_path. destruct (c_a T); [now exists r|]. destruct (starts_with (lit "//") (lit "/" ++ r)); [now exists (lit "." ++ lit "/" ++ r)|now exists r]. }
    destruct Hw as [w Hw]. assert (Ea : c_a T = c_a B) by (rewrite (none_of _ Da), (none_of _ Db); reflexivity).
    exists (recompose None None (c_p T) (c_q T) (c_f T)), (mkC None None (c_p T) (c_q T) (c_f T)). split; [|split; [reflexivity|now apply (rel_root B T p w)]].
    pose proof (safe_reads _ _ _ HT) as Sf. rewrite (none_of _ Da) in Sf. cbn [safe_path] in Sf. apply rel_reads; auto; [exact (PSteps.path_scan S T (proj1 HT))| |now rewrite Hw].
    destruct (starts_with (lit "//") (c_p T)) eqn:K; auto. apply (f_equal (@length N)) in Sf. rewrite app_length in Sf. cbn in Sf. lia.
  - assert (Ea : c_a T = c_a B) by (rewrite (none_of _ Da), (none_of _ Db); reflexivity). pose proof (tidy_scan S t T p HT Ti) as Sc.
    destruct X as [X|(x & u & v & Nx & ED & Ep)].
    + exists (recompose None None (lit "./" ++ ups 0 ++ p) (c_q T) (c_f T)), (mkC None None (lit "./" ++ ups 0 ++ p) (c_q T) (c_f T)). split; [now apply dots_reads|]. split; [reflexivity|].
      apply (rel_path B T p d D 0 [] (lit "./") p); auto; try discriminate. rewrite X. apply anc_self. now left.
    + destruct (ancestors x (length u) u (le_n _)) as [k Hk].
      { destruct (directory_form B d D Hd HD) as [Z|[a Z]]; [rewrite Z in ED; destruct x; discriminate|]. rewrite Z in ED. clear - ED. destruct u as [|c u]; [now left|right]. destruct (end_slash (c :: u) a ltac:(discriminate) (x ++ lit "/")) as (u' & E & _); [rewrite <- app_assoc; now symmetry|]. now exists u'. }
      exists (recompose None None (lit "./" ++ ups k ++ v) (c_q T) (c_f T)), (mkC None None (lit "./" ++ ups k ++ v) (c_q T) (c_f T)). split; [|split; [reflexivity|]].
      * apply dots_reads; auto. rewrite Ep, scan_slash in Sc by (now destruct S). now apply andb_prop in Sc.
      * apply (rel_path B T p d D k (x ++ lit "/") (lit "./") v); auto; try discriminate; [now rewrite ED|right; now destruct x|now rewrite <- app_assoc].
Qed.
Lemma c71_iff S base B t T : reads S base B -> defined (c_s B) = true -> reads S t T ->
  ((exists ref R n, reads S ref R /\ defined (c_s R) = false /\ resolve base ref = Ok n /\ display S n = Ok t) <-> relativizable B T).
Proof.
  intros HB DB HT. split.
  - intros (ref & R & n & HR & DR & E & D). exact (c71_only S base B t T ref R n HB DB HT HR DR E D).
  - intros H. destruct (c71_exists S base B t T HB DB HT H) as (ref & R & HR & DR & Rel). destruct (c71_forms S base B t T ref R HB DB HT HR Rel) as (n & E & D). now exists ref, R, n.
Qed.
