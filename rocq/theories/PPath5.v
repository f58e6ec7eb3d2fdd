(** * Dot-segment removal (proofs only), part 5: the specification is a function; what the path writer
    writes, in terms of the specification. *)
From Verif Require Import Base Chars Rfc3986 Utf8 CompSpec RfcResolve PctSpec MValidate MTrusted MFormat MPct MPath PBase PScan PPath PPath2 PPath3 PPath4 PPct PPct2 PPct3.

(** ** Determinism of RFC 3986 5.2.4. *)
Lemma remove_last_fun o a b : remove_last o a -> remove_last o b -> a = b.
Proof.
  assert (U : forall x s y s', no_slash s -> no_slash s' -> x ++ lit "/" ++ s = y ++ lit "/" ++ s' -> x = y).
  { induction x as [|c x IH]; intros s [|d y] s' Hs Hs' E; auto.
    - cbn in E. injection E as _ E. subst s. destruct Hs. apply in_or_app. right. now left.
    - cbn in E. injection E as _ E. subst s'. destruct Hs'. apply in_or_app. right. now left.
    - cbn in E. injection E as -> E. f_equal. exact (IH s y s' Hs Hs' E). }
  intros H1 H2. destruct H1 as [o s Hs|s Hs]; inversion H2 as [o' s' Hs' E|s' Hs' E]; subst; auto.
  - exact (U _ _ _ _ Hs Hs' (eq_sym E)).
  - destruct Hs'. apply in_or_app. right. now left.
  - destruct Hs. apply in_or_app. right. now left.
Qed.
Section Det.
Variables dot dotdot : lang.
Hypothesis dot_ok : forall d, dot d -> d <> [] /\ no_slash d.
Hypothesis dotdot_ok : forall d, dotdot d -> d <> [] /\ no_slash d.
Hypothesis disj : forall d, dot d -> dotdot d -> False.

Lemma next_seg_eq lead n r : no_slash n -> slashy r -> lead_str lead ++ n <> [] -> next_seg (lead_str lead ++ n ++ r) = Some (lead, n, r).
Proof.
  intros Hn Hr Hne. apply no_slash_none in Hn. destruct lead; cbn [lead_str app next_seg].
  - rewrite N.eqb_refl. now rewrite span_seg_app.
  - destruct n as [|c n]; [easy|]. cbn [app next_seg].
    assert (c =? SLASH = false). { rewrite none_cons in Hn. apply andb_prop in Hn. destruct Hn as [Hn _]. rewrite N.eqb_sym. now apply negb_true_iff. }
    rewrite H. change (c :: n ++ r) with ((c :: n) ++ r). now rewrite span_seg_app.
Qed.
Definition after (lead : bool) (r : str) : str := if lead then match r with [] => lit "/" | _ => r end else skipn 1 r.
Lemma step_inv i o y : rds_step dot dotdot (i, o) y -> exists lead n r, next_seg i = Some (lead, n, r) /\
  ((dot n /\ y = (after lead r, o)) \/
   (dotdot n /\ exists o', (if lead then remove_last o o' else o' = o) /\ y = (after lead r, o')) \/
   (~ dot n /\ ~ dotdot n /\ y = (r, o ++ lead_str lead ++ n))).
Proof.
  assert (OK : forall d, dot d \/ dotdot d -> d <> [] /\ no_slash d) by (intros d [?|?]; auto).
  assert (SL : forall r, slashy (lit "/" ++ r)) by (intros r; right; exists r; reflexivity).
  remember (i, o) as x eqn:Ex. intros H. destruct H as [d i0 o0 Hd|d i0 o0 Hd|d o0 Hd|d i0 o0 o' Hd Ho|d o0 o' Hd Ho|d o0 Hd|lead seg i0 o0 Hl Hs Hne Hd Hdd Hi]; inversion Ex; subst.
  - destruct (OK d Hd) as [D1 D2]. exists false, d, (lit "/" ++ i0). split; [apply (next_seg_eq false); auto|].
    destruct Hd as [Hd|Hd]; [left|right; left]; split; auto. exists o. auto.
  - destruct (OK d (or_introl Hd)) as [D1 D2]. exists true, d, (lit "/" ++ i0). split; [apply (next_seg_eq true); auto; discriminate|]. left; auto.
  - destruct (OK d (or_introl Hd)) as [D1 D2]. exists true, d, []. split; [|left; auto]. rewrite <- (app_nil_r d) at 1. apply (next_seg_eq true); auto; [now left|discriminate].
  - destruct (OK d (or_intror Hd)) as [D1 D2]. exists true, d, (lit "/" ++ i0). split; [apply (next_seg_eq true); auto; discriminate|]. right; left; eauto.
  - destruct (OK d (or_intror Hd)) as [D1 D2]. exists true, d, []. split; [|right; left; eauto]. rewrite <- (app_nil_r d) at 1. apply (next_seg_eq true); auto; [now left|discriminate].
  - destruct (OK i Hd) as [D1 D2]. exists false, i, []. split; [rewrite <- (app_nil_r i) at 1; apply (next_seg_eq false); auto; now left|].
    destruct Hd as [Hd|Hd]; [left|right; left]; split; auto. exists o. auto.
  - assert (Sr : slashy i0) by (destruct Hi as [->|(r & ->)]; [now left|auto]).
    destruct Hl as [->| ->].
    + exists false, seg, i0. split; [apply (next_seg_eq false); auto|]. right; right. auto.
    + exists true, seg, i0. split; [apply (next_seg_eq true); auto|]. right; right. auto.
Qed.
Lemma step_fun x y z : rds_step dot dotdot x y -> rds_step dot dotdot x z -> y = z.
Proof.
  destruct x as [i o]. intros H1 H2. destruct (step_inv _ _ _ H1) as (l & n & r & E & D1). destruct (step_inv _ _ _ H2) as (l' & n' & r' & E' & D2).
  rewrite E in E'. injection E' as <- <- <-.
  destruct D1 as [(D1 & ->)|[(D1 & o1 & O1 & ->)|(D1 & D1' & ->)]]; destruct D2 as [(D2 & ->)|[(D2 & o2 & O2 & ->)|(D2 & D2' & ->)]]; try reflexivity; try (exfalso; eauto; fail); try (exfalso; tauto).
  destruct l; [|congruence]. f_equal. eapply remove_last_fun; eauto.
Qed.
Lemma steps_fun x o1 : rds_steps dot dotdot x ([], o1) -> forall o2, rds_steps dot dotdot x ([], o2) -> o1 = o2.
Proof.
  assert (NO : forall o y, ~ rds_step dot dotdot ([], o) y). { intros o y H. destruct (step_inv _ _ _ H) as (? & ? & ? & E & _). discriminate. }
  remember ([], o1) as y eqn:Ey. induction 1 as [x|x y z H1 H2 IH]; intros o2 R; subst.
  - inversion R as [|? y ? S1]; subst; auto. exfalso. eapply NO; eauto.
  - inversion R as [|? y' ? S1 S2]; subst; [exfalso; eapply NO; eauto|]. apply IH; auto. now rewrite (step_fun _ _ _ H1 S1).
Qed.
End Det.
Lemma a_dot_ok d : a_dot d -> d <> [] /\ no_slash d.
Proof. intros [->|[->| ->]]; (split; [discriminate|apply no_slash_none; reflexivity]). Qed.
Lemma double_dot_ok d : double_dot d -> d <> [] /\ no_slash d.
Proof. intros (a & b & -> & [->|[->| ->]] & [->|[->| ->]]); (split; [discriminate|apply no_slash_none; reflexivity]). Qed.
Lemma rds_fun p t1 t2 : rds p t1 -> rds p t2 -> t1 = t2.
Proof.
  intros H1 H2. eapply (steps_fun single_dot double_dot); eauto.
  - exact a_dot_ok. - exact double_dot_ok.
  - intros d Hd Hdd. apply from_segment_dot in Hd. apply from_segment_dotdot in Hdd. congruence.
Qed.
Lemma rds_literal_fun p t1 t2 : rds_literal p t1 -> rds_literal p t2 -> t1 = t2.
Proof.
  intros H1 H2. eapply (steps_fun (tok ".") (tok "..")); eauto.
  - intros d ->. split; [discriminate|apply no_slash_none; reflexivity].
  - intros d ->. split; [discriminate|apply no_slash_none; reflexivity].
  - intros d -> H. discriminate.
Qed.

(** ** Shape of the result list. *)
Lemma lead_removelast o : lead_all o -> lead_all (removelast o).
Proof.
  induction o as [|y o IH]; auto. destruct o as [|z o]; [constructor|]. intros X. inversion X; subst. change (removelast (y :: z :: o)) with (y :: removelast (z :: o)). constructor; [assumption|apply IH; assumption].
Qed.
Lemma rdsl_wfl l : wfl l -> wfl (rdsl l).
Proof.
  intros (Nl & Hl). unfold rdsl.
  assert (NT : forall l, names_ok (tail_slash l) /\ lead_all (tail_slash l)).
  { intros l0. unfold tail_slash. destruct (rev l0) as [|g r]; [split; constructor|]. destruct (dotty g); split; repeat constructor. }
  assert (NF : names_ok (frun l [])).
  { apply Forall_forall. intros g Hg. apply frun_sub in Hg. destruct Hg as [Hg|[]]. exact (proj1 (Forall_forall _ _) Nl g Hg). }
  destruct (NT l) as [N1 L1]. split; [apply Forall_app; auto|].
  destruct l as [|g t]; [exact I|]. destruct Hl as [Hg Ht].
  assert (R : forall t, lead_all t -> forall o, (match o with [] => True | g :: u => (fst g = true \/ snd g <> []) /\ lead_all u end) ->
     match frun t o with [] => True | g :: u => (fst g = true \/ snd g <> []) /\ lead_all u end).
  { clear. induction t as [|x t IH]; intros Ht o Ho; auto. inversion Ht; subst. cbn [frun fold_left]. apply IH; auto.
    unfold step. destruct (from_segment (snd x)); auto.
    - destruct o as [|a [|b o]]; [exact I|exact I|]. change (removelast (a :: b :: o)) with (a :: removelast (b :: o)). destruct Ho. split; auto. now apply lead_removelast.
    - destruct o as [|a o]; cbn [app]; [split; auto; constructor|]. destruct Ho. split; auto. apply Forall_app. split; auto. }
  specialize (R t Ht (step [] g)). assert (S0 : match step [] g with [] => True | g :: u => (fst g = true \/ snd g <> []) /\ lead_all u end).
  { unfold step. destruct (from_segment (snd g)); cbn; auto. split; auto. constructor. }
  specialize (R S0). change (frun (g :: t) []) with (frun t (step [] g)). destruct (frun t (step [] g)) as [|a o] eqn:Fr; cbn [app].
  - unfold tail_slash. destruct (rev (g :: t)) as [|y r]; auto. destruct (dotty y); auto. split; auto. constructor.
  - destruct R. split; auto. apply Forall_app. split; auto.
Qed.
Lemma dbl_starts f (good : str -> Prop) l : (forall n, good n -> none (N.eqb SLASH) n = true -> no_slash (f n)) -> (forall n, good n -> f n = [] <-> n = []) ->
  Forall (fun g => good (snd g)) l -> wfl l -> dbl l = starts_with (lit "//") (njoin f l).
Proof.
  intros Hs Hn G (Nl & Wl). destruct l as [|[b n] t]; [reflexivity|]. inversion Nl as [|? ? Nn Nt]; subst. inversion G as [|? ? Gn Gt]; subst. cbn [snd] in *. destruct Wl as [W1 W2]. cbn [fst] in W1.
  unfold njoin. cbn [map concat fst snd]. assert (SN := Hs n Gn Nn).
  assert (X : forall c r, f n = c :: r -> c <> 47). { intros c r E ->. rewrite E in SN. apply SN. now left. }
  destruct b; cbn [lead_str app].
  - destruct n as [|c n].
    + rewrite (proj2 (Hn [] Gn) eq_refl). cbn [app]. destruct t as [|[b' n'] t]; [reflexivity|]. inversion W2; subst. cbn in H1. subst b'. cbn. reflexivity.
    + destruct (f (c :: n)) as [|d r] eqn:E; [discriminate (proj1 (Hn _ Gn) E)|]. cbn [dbl app]. unfold starts_with. cbn. specialize (X d r eq_refl).
      destruct d as [|p]; auto. destruct (Pos.eqb_spec 47 p); auto. subst. congruence.
  - destruct W1 as [|W1]; [discriminate|]. destruct (f n) as [|d r] eqn:E; [destruct (W1 (proj1 (Hn _ Gn) E))|]. cbn [dbl app]. unfold starts_with. cbn. specialize (X d r eq_refl).
    destruct d as [|p]; auto. destruct (Pos.eqb_spec 47 p); auto. subst. congruence.
Qed.
Definition guard (auth : bool) (t : str) : str := if negb auth && starts_with (lit "//") t then lit "/." ++ t else t.

(** ** What the path writer writes. *)
Definition auth_ok (auth : bool) (s : str) : Prop := auth = true -> slashy s.
Lemma trim_slash_inv r t : trim (SLASH :: r) t -> t = SLASH :: r.
Proof.
  remember (SLASH :: r) as s eqn:E. destruct 1 as [|s0 r0 E'|n r0 Hn K|n r0 t Hn K T]; auto.
  exfalso. rewrite E in Hn. cbn in Hn. destruct (span_seg r). discriminate.
Qed.
Lemma fmt_none_ok Sp auth p : pwf p -> auth_ok auth (flat p) ->
  exists t, rds (flat p) t /\ outs (fmt_write_normalize Sp MNone auth p) = Some (guard auth t, tt).
Proof.
  intros W A.
  destruct (fmt_write_ok Sp MNone auth (fun s => s) (fun _ => True)) with (p := p) as [(F & E)|(F & s & l & T & Es & Wl & E)]; auto.
  { intros s _. apply outs_write. } { intros; tauto. }
  - exists []. rewrite F. split; [constructor|]. rewrite E. unfold guard. now rewrite andb_false_r.
  - destruct (wfl_exists (flat p)) as (lp & Wp & Ep).
    destruct (rds_run single_dot double_dot (fun s => s) (fun _ => True)) with (p := lp) (s := s) (l := l) as [_ R]; auto.
    { intros; now apply from_segment_dot. } { intros; now apply from_segment_dotdot. } { intros; now apply from_segment_normal. } { intros; now apply no_slash_none. } { reflexivity. }
    { apply Forall_forall. auto. } { now rewrite <- Ep. }
    assert (J : forall l, fjoin (fun s => s) l = join l) by reflexivity. rewrite !J, <- Ep in R.
    exists (join (rdsl l)). split; auto. rewrite E by exact I. f_equal. f_equal.
    destruct (is_empty s) eqn:Em.
    + apply is_empty_iff in Em. destruct auth.
      * exfalso. destruct (A eq_refl) as [X|(r & X)]; [contradiction|]. rewrite X in T. apply trim_slash_inv in T. congruence.
      * rewrite Em in Es. symmetry in Es. apply join_nil in Es; auto. subst l. reflexivity.
    + unfold ptext, guard. change (njoin (fun s0 => s0) (rdsl l)) with (join (rdsl l)).
      rewrite (dbl_starts (fun s => s) (fun _ => True)); auto.
      * intros; now apply no_slash_none.
      * reflexivity.
      * apply Forall_forall; auto.
      * now apply rdsl_wfl.
Qed.

(** Percent-encoding normalization as a function. *)
Definition pnf (Sp : Spec) (s : str) : str := match outs (PctCaseNormalized Sp s) with Some (t, _) => t | None => [] end.
Lemma pnf_ok Sp s : pct_wf s -> outs (PctCaseNormalized Sp s) = Some (pnf Sp s, tt) /\ pct_normal Sp s (pnf Sp s).
Proof. intros H. destruct (pct_normalized_ok Sp s H) as (t & E & P). unfold pnf. rewrite E. auto. Qed.
Lemma pnf_eq Sp s t : pct_normal Sp s t -> pnf Sp s = t.
Proof. intros P. destruct (pnf_ok Sp s) as [_ P2]; [eapply pn_wf_l; eauto|]. eapply pn_fun; eauto. Qed.
Lemma wf_slash a b : pct_wf (a ++ SLASH :: b) <-> pct_wf a /\ pct_wf b.
Proof.
  rewrite !pct_wf_scan. rewrite scan_delim by (reflexivity || discriminate). rewrite !andb_true_iff. tauto.
Qed.
Lemma pnf_slash Sp a b : pct_wf a -> pct_wf b -> pnf Sp (a ++ SLASH :: b) = pnf Sp a ++ SLASH :: pnf Sp b.
Proof. intros Ha Hb. apply pnf_eq. apply pn_app_delim; [now apply pnf_ok|discriminate|now apply pnf_ok]. Qed.
Lemma pn_no_slash Sp s t : pct_normal Sp s t -> no_slash s -> no_slash t.
Proof.
  intros P. induction P as [|c s t Hc Hp IH|c bs s t Hs Hu Hp IH|u l s t Hu Hl Hn Hp IH]; intros H X; auto.
  - destruct X as [->|X]; [apply H; now left|]. apply IH; auto. intros Y. apply H. now right.
  - destruct X as [->|X]; [destruct Sp; discriminate|]. apply IH; auto. intros Y. apply H. apply in_or_app. now right.
  - destruct (upper_hex_ok u Hu) as (U & _). destruct (upper_hex_ok l Hl) as (L & _).
    destruct X as [X|[X|[X|X]]]; [discriminate|rewrite X in U; discriminate|rewrite X in L; discriminate|]. apply IH; auto. intros Y. apply H. right; right; now right.
Qed.
Lemma spelled_dot s : spelled [46] s -> s = lit "%2E" \/ s = lit "%2e".
Proof.
  intros H. apply spelled_inv in H. destruct H as (u & l & s' & -> & E & Hu & Hl & S'). apply spelled_nil_inv in S'. subst s'.
  revert u l Hu Hl E. assert (X := hex_pair (fun u l => negb (46 =? bval u l) || seqb [37; u; l] (lit "%2E") || seqb [37; u; l] (lit "%2e")) ltac:(vm_compute; reflexivity)).
  cbv beta in X. intros u l Hu Hl E. specialize (X u l Hu Hl). rewrite <- E in X. cbn [N.eqb Pos.eqb negb orb] in X. apply orb_true_iff in X. rewrite !seqb_eq in X. exact X.
Qed.
Lemma spelled_2E : spelled (utf8 46) (lit "%2E") /\ spelled (utf8 46) (lit "%2e").
Proof.
  split.
  - exact (spelled_cons 50 69 [] [] eq_refl eq_refl spelled_nil).
  - exact (spelled_cons 50 101 [] [] eq_refl eq_refl spelled_nil).
Qed.
Lemma dot_norm_app Sp d s t : a_dot d -> pct_normal Sp s t -> pct_normal Sp (d ++ s) (46 :: t).
Proof.
  intros H P. destruct H as [->|[->| ->]].
  - apply pn_raw; [discriminate|exact P].
  - apply pn_decode; [apply spelled_2E|destruct Sp; reflexivity|exact P].
  - apply pn_decode; [apply spelled_2E|destruct Sp; reflexivity|exact P].
Qed.
Lemma dot_norm_inv Sp s t : pct_normal Sp s (46 :: t) -> exists d s', s = d ++ s' /\ a_dot d /\ pct_normal Sp s' t.
Proof.
  remember (46 :: t) as t0 eqn:E. destruct 1 as [|c s t' Hc Hp|c bs s t' Hs Hu Hp|u l s t' Hu Hl Hn Hp]; inversion E; subst.
  - exists (lit "."), s. split; auto. split; auto. now left.
  - exists bs, s. split; auto. split; auto. right. change (utf8 46) with [46] in Hs. now apply spelled_dot.
Qed.
Lemma kind_dot Sp n : pct_wf n -> from_segment n = Dot <-> pnf Sp n = lit ".".
Proof.
  intros W. rewrite from_segment_dot. split.
  - intros H. apply pnf_eq. rewrite <- (app_nil_r n). apply dot_norm_app; auto. constructor.
  - intros E. destruct (pnf_ok Sp n W) as [_ P]. rewrite E in P. apply dot_norm_inv in P. destruct P as (d & s' & -> & Hd & P).
    apply (pn_empty Sp s' []) in P. rewrite (proj1 P eq_refl), app_nil_r. exact Hd.
Qed.
Lemma kind_dotdot Sp n : pct_wf n -> from_segment n = DotDot <-> pnf Sp n = lit "..".
Proof.
  intros W. rewrite from_segment_dotdot. split.
  - intros (a & b & -> & Ha & Hb). apply pnf_eq. apply dot_norm_app; auto. rewrite <- (app_nil_r b). apply dot_norm_app; auto. constructor.
  - intros E. destruct (pnf_ok Sp n W) as [_ P]. rewrite E in P. apply dot_norm_inv in P. destruct P as (d & s' & -> & Hd & P).
    apply dot_norm_inv in P. destruct P as (d' & s2 & -> & Hd' & P).
    apply (pn_empty Sp s2 []) in P. rewrite (proj1 P eq_refl), app_nil_r. exists d, d'. auto.
Qed.
Lemma trim_good s t : trim s t -> pct_wf s -> pct_wf t.
Proof.
  induction 1 as [|s r E|n r Hn K|n r t Hn K T IH]; auto. intros W. apply IH. destruct (next_seg_spec _ _ _ _ Hn) as (_ & _ & [->|(r' & ->)] & _); [constructor|].
  now apply wf_slash in W.
Qed.
Lemma fmt_norm_ok Sp mode auth p : mode <> MNone -> pwf p -> pct_wf (flat p) -> auth_ok auth (flat p) -> opaque_path mode auth p = false ->
  exists q t p', rds (flat p) q /\ pct_normal Sp q t /\ pct_normal Sp (flat p) p' /\ rds_literal p' t /\
    outs (fmt_write_normalize Sp mode auth p) = Some (guard auth t, tt).
Proof.
  intros Hm W G A Hop.
  assert (NN : forall n, pct_wf n -> none (N.eqb SLASH) n = true -> no_slash (pnf Sp n)).
  { intros n Wn Hn. apply no_slash_none in Hn. eapply pn_no_slash; eauto. now apply pnf_ok. }
  assert (NE : forall n, pct_wf n -> pnf Sp n = [] <-> n = []). { intros n Wn. eapply pn_empty. now apply pnf_ok. }
  assert (N0 : pnf Sp [] = []) by (apply NE; auto; constructor).
  assert (HOK : forall s, pct_wf s -> outs (write_seg Sp mode s) = Some (pnf Sp s, tt)).
  { intros s Ws. unfold write_seg. destruct mode; [congruence| |]; now apply pnf_ok. }
  destruct (fmt_write_ok Sp mode auth (pnf Sp) pct_wf HOK) with (p := p) as [(F & E)|(F & s & l & T & Es & Wl & E)]; auto.
  { intros; now apply pnf_slash. } { exact wf_slash. } { constructor. }
  - exists [], [], []. rewrite F. repeat split; try constructor. rewrite E. unfold guard. now rewrite andb_false_r.
  - destruct (wfl_exists (flat p)) as (lp & Wp & Ep).
    assert (Gp : Forall (fun g => pct_wf (snd g)) lp). { apply good_join; auto. { exact wf_slash. } now rewrite <- Ep. }
    destruct (rds_run single_dot double_dot (fun s => s) (fun _ => True)) with (p := lp) (s := s) (l := l) as [_ R]; auto.
    { intros; now apply from_segment_dot. } { intros; now apply from_segment_dotdot. } { intros; now apply from_segment_normal. } { intros; now apply no_slash_none. } { reflexivity. }
    { apply Forall_forall. auto. } { now rewrite <- Ep. }
    assert (J : forall l, fjoin (fun s => s) l = join l) by reflexivity. rewrite !J, <- Ep in R.
    destruct (rds_run (tok ".") (tok "..") (pnf Sp) pct_wf) with (p := lp) (s := s) (l := l) as [Gl R2]; auto.
    { intros; now apply kind_dot. } { intros; now apply kind_dotdot. }
    { intros n Wn K. unfold tok. rewrite <- kind_dot, <- kind_dotdot by auto. rewrite K. split; discriminate. } { constructor. } { now rewrite <- Ep. }
    assert (J2 : forall l, fjoin (pnf Sp) l = njoin (pnf Sp) l) by reflexivity. rewrite !J2 in R2.
    assert (NJ : forall l, wfl l -> Forall (fun g => pct_wf (snd g)) l -> pnf Sp (join l) = njoin (pnf Sp) l).
    { intros. apply (nrm_join (pnf Sp) pct_wf); auto. { intros; now apply pnf_slash. } { exact wf_slash. } { constructor. } }
    rewrite <- NJ, <- Ep in R2 by auto.
    assert (Gr : Forall (fun g => pct_wf (snd g)) (rdsl l)).
    { unfold rdsl. apply Forall_app. split.
      - apply Forall_forall. intros g Hg. apply frun_sub in Hg. destruct Hg as [Hg|[]]. unfold gl in Gl. rewrite Forall_forall in Gl. auto.
      - unfold tail_slash. destruct (rev l) as [|y r]; [constructor|]. destruct (dotty y); repeat constructor. }
    assert (Wr := rdsl_wfl l Wl).
    exists (join (rdsl l)), (njoin (pnf Sp) (rdsl l)), (pnf Sp (flat p)). repeat split; auto.
    + rewrite <- NJ by auto. apply pnf_ok. apply (good_seg_join pct_wf); auto. { exact wf_slash. } { constructor. }
    + now apply pnf_ok.
    + rewrite E by (eapply trim_good; eauto). f_equal. f_equal.
      destruct (is_empty s) eqn:Em.
      * apply is_empty_iff in Em. destruct auth.
        -- exfalso. destruct (A eq_refl) as [X|(r & X)]; [contradiction|]. rewrite X in T. apply trim_slash_inv in T. congruence.
        -- rewrite Em in Es. symmetry in Es. apply join_nil in Es; auto. subst l. reflexivity.
      * unfold ptext, guard. rewrite (dbl_starts (pnf Sp) pct_wf); auto.
Qed.
Lemma fmt_opaque_ok Sp mode auth p : pwf p -> pct_wf (flat p) -> opaque_path mode auth p = true ->
  exists t, pct_normal Sp (flat p) t /\ outs (fmt_write_normalize Sp mode auth p) = Some (t, tt).
Proof.
  intros W G Hop. unfold fmt_write_normalize. rewrite p_is_empty_ok by exact W. rewrite lift_bind.
  destruct (is_empty (flat p)) eqn:Em. { apply is_empty_iff in Em. rewrite Em. exists []. split; [constructor|reflexivity]. }
  rewrite starts_with_slash_ok by exact W. unfold opaque_path in Hop. destruct mode; try discriminate. change (true && negb auth) with (negb auth). rewrite Hop.
  exists (pnf Sp (flat p)). split; [now apply pnf_ok|].
  apply (front_back_good Sp MDefault (pnf Sp) pct_wf); auto.
  all: try (intros; apply pnf_slash; assumption); try exact wf_slash; try (intros; apply pnf_ok; assumption); try apply wf_nil; try (apply pnf_eq; apply pn_nil).
Qed.
