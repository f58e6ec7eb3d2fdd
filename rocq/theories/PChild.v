(** * Encoded names below the directory of a base (C66). *)
From Verif Require Import Base Chars Rfc3986 Utf8 CompSpec RfcResolve PctSpec NormSpec EncodeSpec ConfineSpec ChildSpec.
From Verif Require Import MValidate MTrusted MFormat MPct MPath MNormalize MEncode PBase PScan PPct PPct3 PPath5 PNorm6 PNorm7 PNorm8 PRds PBaseNorm PSteps2 PEncode PDecode PSearch PRaw PConfine RawSpec.

Definition dotfree (l : list str) : Prop := Forall (fun seg => ~ single_dot seg /\ ~ double_dot seg) l.
Lemma plain_walk r l : in_segments r l -> dotfree l -> forall o, rds_steps single_dot double_dot (47 :: r, o) ([], o ++ 47 :: r).
Proof.
  induction 1 as [seg N|seg p l N H IH]; intros F o; inversion F as [|? ? [Ns Nd] F']; subst.
  - eapply rds_next; [|apply rds_refl].
    assert (X : rds_step single_dot double_dot (lit "/" ++ seg ++ [], o) ([], o ++ lit "/" ++ seg)) by (apply rds_E; auto; discriminate).
    rewrite app_nil_r in X. exact X.
  - replace (o ++ 47 :: seg ++ lit "/" ++ p) with ((o ++ lit "/" ++ seg) ++ 47 :: p) by (rewrite <- !app_assoc; reflexivity).
    eapply rds_next; [|apply (IH F')]. apply (rds_E single_dot double_dot (lit "/") seg (lit "/" ++ p)); auto; [discriminate|]. right. now exists p.
Qed.
Lemma plain_rds r l : in_segments r l -> dotfree l -> rds r r.
Proof.
  intros H F. destruct H as [seg N|seg p l N H]; inversion F as [|? ? [Ns Nd] F']; subst.
  - destruct seg as [|c seg]; [apply rds_refl|]. eapply rds_next; [|apply rds_refl].
    assert (X : rds_step single_dot double_dot ([] ++ (c :: seg) ++ [], []) ([], [] ++ [] ++ (c :: seg))) by (apply rds_E; auto; discriminate).
    cbn [app] in X. rewrite app_nil_r in X. exact X.
  - destruct seg as [|c seg]; [exact (plain_walk p l H F' [])|]. unfold rds, remove_dot_segments.
    eapply rds_next; [|exact (plain_walk p l H F' (c :: seg))].
    apply (rds_E single_dot double_dot [] (c :: seg) (lit "/" ++ p)); auto; [discriminate|]. right. now exists p.
Qed.
Lemma dot_single : single_dot (lit ".").
Proof. now left. Qed.
Lemma under_dir dir D r l : rds (dir ++ lit "/") D -> in_segments r l -> dotfree l -> rds (dir ++ lit "/" ++ lit "./" ++ r) (D ++ r).
Proof.
  intros HD Hl F. destruct (rds_prefix (lit "./" ++ r) (length dir) dir [] _ (le_n _) HD) as [(o & E & St)|(E & Hz)].
  - rewrite E, <- app_assoc. eapply steps_app; [exact St|]. eapply rds_next; [exact (rds_B single_dot double_dot (lit ".") r o dot_single)|]. apply (plain_walk r l Hl F).
  - rewrite E. eapply steps_app; [exact Hz|]. eapply rds_next; [exact (rds_A single_dot double_dot (lit ".") r [] (or_introl dot_single))|]. exact (plain_rds r l Hl F).
Qed.
Lemma start_dir r l : in_segments r l -> dotfree l -> rds (lit "./" ++ r) r.
Proof. intros Hl F. eapply rds_next; [exact (rds_A single_dot double_dot (lit ".") r [] (or_introl dot_single))|]. exact (plain_rds r l Hl F). Qed.
(** The same without "./". *)
Lemma under_dir_plain dir D r l : rds (dir ++ lit "/") D -> in_segments r l -> dotfree l -> rds (dir ++ lit "/" ++ r) (D ++ r).
Proof.
  intros HD Hl F. destruct (rds_prefix r (length dir) dir [] _ (le_n _) HD) as [(o & E & St)|(E & Hz)].
  - rewrite E, <- app_assoc. eapply steps_app; [exact St|]. apply (plain_walk r l Hl F).
  - rewrite E. eapply steps_app; [exact Hz|]. exact (plain_rds r l Hl F).
Qed.
(** What [merge] does with a relative path, in terms of the directory. *)
Lemma merge_directory B d r : directory B d -> (exists dir, d = dir ++ lit "/" /\ merge (defined (c_a B)) (c_p B) r (dir ++ lit "/" ++ r)) \/ (d = [] /\ merge (defined (c_a B)) (c_p B) r r).
Proof.
  intros [dir last E N|Ha E|Ha N].
  - left. exists dir. split; auto. rewrite E. apply (merge_last _ _ r dir last); auto. intros [_ X]. now destruct dir.
  - left. exists []. split; auto. now apply merge_empty.
  - right. split; auto. apply merge_noslash; auto. intros [X _]. congruence.
Qed.
Lemma child_target B d D R pre l : directory B d -> rds d D -> defined (c_s R) = false -> defined (c_a R) = false ->
  pre = [] \/ pre = lit "./" -> forall r, c_p R = pre ++ r -> c_p R <> [] -> (forall w, c_p R <> lit "/" ++ w) -> in_segments r l -> dotfree l ->
  transform B R (mkC (c_s B) (c_a B) (D ++ r) (c_q R) (c_f R)).
Proof.
  intros Hd HD Hs Ha Hpre r E Hne Hr Hl F. destruct (merge_directory B d (c_p R) Hd) as [(dir & -> & M)|(-> & M)].
  - eapply tr_rel_path; eauto. rewrite E. destruct Hpre as [-> | ->]; [now apply (under_dir_plain dir D r l)|now apply (under_dir dir D r l)].
  - assert (D = []) as -> by (apply (rds_fun [] D []); auto; apply rds_refl). eapply tr_rel_path; eauto. rewrite E. destruct Hpre as [-> | ->]; [now apply (plain_rds r l)|now apply (start_dir r l)].
Qed.
(** Encoded names. *)
Lemma dot_decodes e v : into_string (utf8s e) = Ok (Some v) -> v <> lit "." -> v <> lit ".." -> ~ single_dot e /\ ~ double_dot e.
Proof.
  intros H H1 H2. split.
  - intros [E|[E|E]]; rewrite E in H; vm_compute in H; injection H as <-; now apply H1.
  - intros (a & b & -> & [Ea|[Ea|Ea]] & [Eb|[Eb|Eb]]); rewrite Ea, Eb in H; vm_compute in H; injection H as <-; now apply H2.
Qed.
Definition join_names (l : list str) : str := match l with [] => [] | x :: r => x ++ flat_map (fun y => lit "/" ++ y) r end.
Lemma join_segments l : l <> [] -> Forall no_slash l -> in_segments (join_names l) l.
Proof.
  destruct l as [|x r]; [easy|]. intros _. revert x. induction r as [|y r IH]; intros x F; inversion F as [|? ? Hx F']; subst; cbn [join_names flat_map].
  - rewrite app_nil_r. now constructor.
  - rewrite <- app_assoc. apply is_next; auto. exact (IH y F').
Qed.
Lemma dot_ncs S : segment_nz_nc S (lit ".").
Proof. apply segment_nz_nc_scan. split; [discriminate|]. now destruct S. Qed.
Lemma reads_rel S p : path_noscheme S p -> reads S p (mkC None None p None None).
Proof. intros H. split; [|unfold recompose; cbn; now rewrite app_nil_r]. repeat split; cbn; auto. right. now left. Qed.
Lemma reads_names S l : l <> [] -> Forall (Rfc3986.segment S) l -> reads S (lit "./" ++ join_names l) (mkC None None (lit "./" ++ join_names l) None None).
Proof.
  intros Hl F. apply reads_rel. destruct l as [|x r]; [easy|]. exists (lit "."), (slash_each (x :: r)). split; [reflexivity|]. split; [apply dot_ncs|exact (slash_each_abempty S _ F)].
Qed.
Lemma names_ok S vs es : Forall a_name vs -> Forall2 (encodes S CPathSegment) vs es -> Forall (Rfc3986.segment S) es /\ Forall no_slash es /\ dotfree es /\ Forall2 (fun v e => decodes e v) vs es.
Proof.
  intros F H. induction H as [|v e vs es E H IH]; [repeat split; constructor|]. inversion F as [|? ? (A & N1 & N2) F']; subst. destruct (IH F') as (I1 & I2 & I3 & I4).
  destruct (enc_seg S v e A E) as [X Y]. pose proof (enc_dec S _ v e A E) as Dc. repeat split; constructor; auto. exact (dot_decodes e v Dc N1 N2).
Qed.
Lemma names_encode S vs : Forall a_name vs -> exists es, Forall2 (encodes S CPathSegment) vs es.
Proof. induction 1 as [|v vs (A & _) F [es IH]]; [now exists []|]. destruct (enc_ex S CPathSegment v A) as [e E]. exists (e :: es). now constructor. Qed.
Definition good_encoding (S : Spec) (v e : str) : Prop := Rfc3986.segment S e /\ no_slash e /\ decodes e v.
Lemma goods S vs es : Forall a_name vs -> Forall2 (good_encoding S) vs es -> Forall (Rfc3986.segment S) es /\ Forall no_slash es /\ dotfree es /\ Forall2 (fun v e => decodes e v) vs es.
Proof.
  intros F H. induction H as [|v e vs es (E1 & E2 & E3) H IH]; [repeat split; constructor|]. inversion F as [|? ? (A & N1 & N2) F']; subst. destruct (IH F') as (I1 & I2 & I3 & I4).
  repeat split; constructor; auto. exact (dot_decodes e v E3 N1 N2).
Qed.
Lemma names_good S vs es : Forall a_name vs -> Forall2 (encodes S CPathSegment) vs es -> Forall2 (good_encoding S) vs es.
Proof.
  intros F H. induction H as [|v e vs es E H IH]; [constructor|]. inversion F as [|? ? (A & N1 & N2) F']; subst. constructor; auto.
  destruct (enc_seg S v e A E) as [X Y]. split; [exact X|]. split; [exact Y|]. exact (enc_dec S _ v e A E).
Qed.
Lemma good_names S base B d D vs es : reads S base B -> defined (c_s B) = true -> directory B d -> rds d D -> vs <> [] -> Forall a_name vs ->
  Forall2 (good_encoding S) vs es ->
  exists n out, in_segments (join_names es) es /\ Forall2 (fun v e => decodes e v) vs es /\ resolve base (lit "./" ++ join_names es) = Ok n /\ display S n = Ok out /\
    reads S out (mkC (c_s B) (c_a B) (safe_path (c_a B) (D ++ join_names es)) None None).
Proof.
  intros HB DB Hd HD Hv F E. destruct (goods S vs es F E) as (E1 & E2 & E3 & E4). assert (Hl : es <> []) by (intros ->; inversion E; congruence).
  pose proof (join_segments es Hl E2) as Hs. pose proof (reads_names S es Hl E1) as HR.
  destruct (resolve_spec S base _ B _ HB DB HR) as (n & T & H1 & _ & U & H2 & H3 & _). exists n, (unparse T).
  rewrite <- (U _ (child_target B d D (mkC None None (lit "./" ++ join_names es) None None) (lit "./") es Hd HD eq_refl eq_refl (or_intror eq_refl) (join_names es) eq_refl ltac:(discriminate) ltac:(discriminate) Hs E3)) in H3, H2 |- *.
  repeat split; auto; apply H3.
Qed.
Lemma c66_names S base B d D vs es : reads S base B -> defined (c_s B) = true -> directory B d -> rds d D -> vs <> [] -> Forall a_name vs ->
  Forall2 (encodes S CPathSegment) vs es ->
  exists p n out, in_segments p es /\ Forall2 (fun v e => decodes e v) vs es /\ resolve base (lit "./" ++ p) = Ok n /\ display S n = Ok out /\
    reads S out (mkC (c_s B) (c_a B) (safe_path (c_a B) (D ++ p)) None None).
Proof. intros HB DB Hd HD Hv F E. exists (join_names es). exact (good_names S base B d D vs es HB DB Hd HD Hv F (names_good S vs es F E)). Qed.
Lemma enc_unreserved S v e : all_scalar v = true -> encodes S CUnreserve v e -> scan (unreserved S) e = true.
Proof.
  intros H E. destruct (c19 S CUnreserve (write v) tt _ (wr v) ltac:(now rewrite wc) (v_unreserve S)) as (X & Y & _); [now destruct S|]. unfold encodes in E. rewrite X in E. injection E as <-. exact Y.
Qed.
Lemma unreserved_no_slash S e : scan (unreserved S) e = true -> no_slash e.
Proof. intros H. apply (in_none 47). apply (scan_none (unreserved S)); auto. intros c Hc. apply N.eqb_eq in Hc. subst c. repeat split; try reflexivity; try discriminate; now destruct S. Qed.
Lemma reads_unreserved S e : e <> [] -> scan (unreserved S) e = true -> reads S e (mkC None None e None None).
Proof.
  intros Hn Hs. apply reads_rel. exists e, []. split; [now rewrite app_nil_r|]. split; [|constructor]. apply segment_nz_nc_scan. split; auto.
  apply (scan_mono (unreserved S)); auto. intros c Hc. unfold f_ncs. now rewrite Hc.
Qed.
Lemma decodes_empty v : decodes [] v -> v = [].
Proof. intros H. vm_compute in H. now injection H as <-. Qed.
Lemma c66_unreserved S base B d D v e : reads S base B -> defined (c_s B) = true -> directory B d -> rds d D -> a_name v -> v <> [] -> encodes S CUnreserve v e ->
  exists n out, no_slash e /\ decodes e v /\ resolve base e = Ok n /\ display S n = Ok out /\
    reads S out (mkC (c_s B) (c_a B) (safe_path (c_a B) (D ++ e)) None None).
Proof.
  intros HB DB Hd HD (A & N1 & N2) Hv E. pose proof (enc_unreserved S v e A E) as Hs. pose proof (enc_dec S _ v e A E) as Dc. pose proof (unreserved_no_slash S e Hs) as Ns.
  assert (Hn : e <> []) by (intros ->; apply Hv; now apply decodes_empty). pose proof (reads_unreserved S e Hn Hs) as HR.
  destruct (resolve_spec S base _ B _ HB DB HR) as (n & T & H1 & _ & U & H2 & H3 & _). exists n, (unparse T).
  assert (X : forall w, e <> lit "/" ++ w) by (intros w ->; apply Ns; now left).
  rewrite <- (U _ (child_target B d D (mkC None None e None None) [] [e] Hd HD eq_refl eq_refl (or_introl eq_refl) e eq_refl Hn X (is_last e Ns) (Forall_cons _ (dot_decodes e v Dc N1 N2) (Forall_nil _)))) in H3, H2 |- *.
  repeat split; auto; apply H3.
Qed.
(** Different names are resolved to different IRIs. *)
Lemma safe_inj (a : option str) x y : rds x x -> rds y y -> safe_path a x = safe_path a y -> x = y.
Proof.
  intros Hx Hy. destruct a as [a|]; [easy|]. unfold safe_path.
  assert (K : forall u w, rds u u -> rds w w -> starts_with (lit "//") u = true -> lit "/." ++ u = w -> u = w).
  { intros u w Hu Hw X E. apply starts_slash_iff in X. destruct X as [r Er].
    apply (rds_fun w u w); auto. rewrite <- E. apply rds_guarded; [eapply rds_dotless; exact Hu|rewrite Er; right; eexists; reflexivity|rewrite Er; discriminate]. }
  destruct (starts_with (lit "//") x) eqn:X, (starts_with (lit "//") y) eqn:Y; intros E.
  - now apply app_inv_head in E.
  - exact (K x y Hx Hy X E).
  - symmetry. exact (K y x Hy Hx Y (eq_sym E)).
  - exact E.
Qed.
Lemma child_fixed B d D r l : directory B d -> rds d D -> in_segments r l -> dotfree l -> rds (D ++ r) (D ++ r).
Proof.
  intros Hd HD Hl F. assert (X : exists m, rds m (D ++ r)); [|destruct X as [m X]; now apply (rds_idem m)].
  inversion Hd as [dir last E N|Ha E|Ha N]; subst.
  - exists (dir ++ lit "/" ++ r). now apply (under_dir_plain dir D r l).
  - exists ([] ++ lit "/" ++ r). now apply (under_dir_plain [] D r l).
  - exists r. assert (D = []) as -> by (apply (rds_fun [] D []); auto; apply rds_refl). now apply (plain_rds r l).
Qed.
Lemma segments_fun p l : in_segments p l -> forall l', in_segments p l' -> l = l'.
Proof.
  induction 1 as [seg N|seg p l N H IH]; intros l' H'.
  - inversion H' as [|s q l0 N' K]; subst; auto. exfalso. apply N. apply in_or_app. right. now left.
  - inversion H' as [s N' E|s q l0 N' K E]; subst; [exfalso; apply N'; apply in_or_app; right; now left|].
    destruct (no_in_split 47 _ _ _ _ N' N E) as [-> ->]. f_equal. auto.
Qed.
Lemma decodes_fun vs es : Forall2 (fun v e => decodes e v) vs es -> forall ws, Forall2 (fun v e => decodes e v) ws es -> vs = ws.
Proof.
  induction 1 as [|v e vs es H F IH]; intros ws G; inversion G as [|w ? ws' ? H' G']; subst; auto. unfold decodes in *. f_equal; [congruence|auto].
Qed.
Lemma c66_injective S base B d D vs es ws fs p q n m out : reads S base B -> defined (c_s B) = true -> directory B d -> rds d D ->
  vs <> [] -> ws <> [] -> Forall a_name vs -> Forall a_name ws -> Forall2 (encodes S CPathSegment) vs es -> Forall2 (encodes S CPathSegment) ws fs ->
  in_segments p es -> in_segments q fs ->
  resolve base (lit "./" ++ p) = Ok n -> display S n = Ok out -> resolve base (lit "./" ++ q) = Ok m -> display S m = Ok out -> vs = ws.
Proof.
  intros HB DB Hd HD Hv Hw Fv Fw Ev Ew Hp Hq R1 D1 R2 D2.
  destruct (c66_names S base B d D vs es HB DB Hd HD Hv Fv Ev) as (p' & n' & out' & P1 & P2 & P3 & P4 & P5).
  destruct (c66_names S base B d D ws fs HB DB Hd HD Hw Fw Ew) as (q' & m' & out2 & Q1 & Q2 & Q3 & Q4 & Q5).
  assert (JU : forall a b l, in_segments a l -> in_segments b l -> a = b).
  { intros a b l H. revert b. induction H as [s N|s a l N H IH]; intros b H'; inversion H' as [|s' b' l' N' K]; subst; auto; [inversion K|inversion H|]. do 2 f_equal. auto. }
  rewrite (JU _ _ _ P1 Hp) in *. rewrite (JU _ _ _ Q1 Hq) in *. rewrite R1 in P3. injection P3 as <-. rewrite R2 in Q3. injection Q3 as <-.
  assert (out' = out) as -> by congruence. assert (out2 = out) as -> by congruence.
  pose proof (reads_unique _ _ _ _ P5 Q5) as E. injection E as E.
  apply safe_inj in E; [|apply (child_fixed B d D p es); auto; apply (names_ok S vs es Fv Ev)|apply (child_fixed B d D q fs); auto; apply (names_ok S ws fs Fw Ew)].
  apply app_inv_head in E. subst q. rewrite (segments_fun _ _ Hp _ Hq) in P2. exact (decodes_fun _ _ P2 _ Q2).
Qed.
