(** * Facts about RFC 3986 5.2.4 (proofs only). *)
From Verif Require Import Base Chars Rfc3986 NormSpec Utf8 CompSpec RfcResolve PctSpec MValidate MTrusted MFormat MPct MPath
  PBase PScan PPath PPath2 PPath3 PPath4 PPct PPct2 PPct3 PPct4 PPath5.

(** ** Totality *)
Lemma rds_list p : exists l, wfl l /\ rds p (join (rdsl l)) /\
  (exists s, trim p s /\ s = join l).
Proof.
  destruct (remove_ignorable_ok (1 + length p) (from_single_path p)) as (p' & _ & _ & T).
  { exact I. } { unfold flat. cbn. rewrite app_nil_r. lia. }
  assert (F : flat (from_single_path p) = p) by (unfold flat; cbn; apply app_nil_r). rewrite F in T.
  destruct (wfl_exists p) as (lp & Wp & Ep). destruct (wfl_exists (flat p')) as (l & Wl & El).
  exists l. split; auto. split; [|exists (flat p'); auto].
  destruct (rds_run single_dot double_dot (fun s => s) (fun _ => True)) with (p := lp) (s := flat p') (l := l) as [_ R]; auto.
  { intros; now apply from_segment_dot. } { intros; now apply from_segment_dotdot. } { intros; now apply from_segment_normal. } { intros; now apply no_slash_none. } { reflexivity. }
  { apply Forall_forall. auto. } { now rewrite <- Ep. }
  assert (J : forall l, fjoin (fun s => s) l = join l) by reflexivity. rewrite !J, <- Ep in R. exact R.
Qed.
Lemma rds_total p : exists t, rds p t.
Proof. destruct (rds_list p) as (l & _ & R & _). eauto. Qed.

(** ** The result has no dot segments. *)
Definition dotless (t : str) : Prop := exists l, wfl l /\ t = join l /\ existsb dotty l = false.
Lemma frun_dotless l o : existsb dotty o = false -> existsb dotty (frun l o) = false.
Proof.
  revert o; induction l as [|g l IH]; intros o H; auto. cbn [frun fold_left]. apply IH. unfold step. destruct (from_segment (snd g)) eqn:K; auto.
  - apply not_true_iff_false. rewrite <- not_true_iff_false in H. intros X. apply H. apply existsb_exists in X. destruct X as (x & Hx & D).
    apply existsb_exists. exists x. split; auto. clear - Hx. induction o as [|y o IH]; auto. destruct o as [|z o]; [contradiction|].
    change (removelast (y :: z :: o)) with (y :: removelast (z :: o)) in Hx. destruct Hx as [->|Hx]; [now left|right; now apply IH].
  - rewrite existsb_app, H. cbn. unfold dotty. now rewrite K.
Qed.
Lemma rdsl_dotless l : existsb dotty (rdsl l) = false.
Proof.
  unfold rdsl. rewrite existsb_app, frun_dotless by reflexivity. cbn. unfold tail_slash. destruct (rev l) as [|g r]; auto. destruct (dotty g); reflexivity.
Qed.
Lemma rds_dotless p t : rds p t -> dotless t.
Proof.
  intros R. destruct (rds_list p) as (l & W & R' & _). rewrite (rds_fun _ _ _ R R'). exists (rdsl l). split; [now apply rdsl_wfl|]. split; auto. apply rdsl_dotless.
Qed.
Lemma dotless_rds t : dotless t -> rds t t.
Proof.
  intros (l & W & -> & D).
  assert (T : trim (join l) (join l)).
  { destruct l as [|g t]; [constructor|]. assert (NX := next_seg_join g t W). destruct g as [[|] n].
    - eapply trim_slash. unfold join. cbn. reflexivity.
    - cbn [fst snd] in NX. unfold join in NX |- *. cbn [map concat] in NX |- *. fold (join t) in NX |- *. unfold seg_str in *. cbn [fst snd lead_str app] in *. apply trim_normal; auto.
      cbn [existsb] in D. apply orb_false_iff in D. destruct D as [D _]. unfold dotty in D. cbn in D. destruct (from_segment n); congruence. }
  destruct (rds_run single_dot double_dot (fun s => s) (fun _ => True)) with (p := l) (s := join l) (l := l) as [_ R]; auto.
  { intros; now apply from_segment_dot. } { intros; now apply from_segment_dotdot. } { intros; now apply from_segment_normal. } { intros; now apply no_slash_none. } { reflexivity. }
  { apply Forall_forall. auto. }
  rewrite (rdsl_normal l D) in R. exact R.
Qed.
Lemma rds_idem p t : rds p t -> rds t t.
Proof. intros H. apply dotless_rds. eapply rds_dotless; eauto. Qed.
Lemma rds_guarded t : dotless t -> slashy t -> t <> [] -> rds (lit "/." ++ t) t.
Proof.
  intros D [->|(r & ->)] Hn; [easy|]. eapply rds_next; [|exact (dotless_rds _ D)].
  exact (rds_B single_dot double_dot (lit ".") r [] (or_introl eq_refl)).
Qed.
(** Characterization by segments. *)
Lemma dotless_seg t a n b : dotless t -> t = a ++ n ++ b -> (a = [] \/ exists a', a = a' ++ [SLASH]) -> slashy b -> no_slash n -> from_segment n = Normal.
Proof.
  intros (l & W & E & D) Et Ha Hb Hn. apply no_slash_none in Hn.
  assert (KN : forall g, In g l -> from_segment (snd g) = Normal).
  { intros g Hg. destruct (from_segment (snd g)) eqn:K; auto; exfalso; rewrite <- not_true_iff_false in D; apply D; apply existsb_exists; exists g; unfold dotty; rewrite K; auto. }
  clear D. rewrite E in Et. clear E t. revert a Et Ha W KN. induction l as [|g l IH]; intros a Et Ha W KN.
  - symmetry in Et. apply app_eq_nil in Et. destruct Et as [_ Et]. apply app_eq_nil in Et. destruct Et as [-> _]. reflexivity.
  - destruct Ha as [->|(a' & ->)].
    + cbn [app] in Et. assert (NX := next_seg_join g l W). destruct n as [|c n]; [reflexivity|]. rewrite Et in NX.
      assert (Y : next_seg ((c :: n) ++ b) = Some (false, c :: n, b)). { apply (next_seg_eq false (c :: n) b); auto; intros; try apply no_slash_none; auto; discriminate. }
      rewrite Y in NX. inversion NX. replace (c :: n) with (snd g) by congruence. apply KN. now left.
    + destruct g as [bb m]. unfold join in Et. cbn [map concat] in Et. fold (join l) in Et. unfold seg_str in Et. cbn [fst snd] in Et.
      assert (Wm : none (N.eqb SLASH) m = true) by (destruct W as (X & _); now inversion X).
      assert (KM : from_segment m = Normal) by (apply (KN (bb, m)); now left).
      assert (Wl := wfl_tail _ _ W).
      (* the slash ending [a'] is either the leading slash of the head or lies in the tail *)
      assert (Q : forall x y, m ++ join l = x ++ SLASH :: y -> exists x', x = m ++ x' /\ join l = x' ++ SLASH :: y).
      { clear - Wm. induction m as [|c m IH]; intros x y E; [exists x; auto|]. rewrite none_cons in Wm. apply andb_prop in Wm. destruct Wm as [W1 W2].
        destruct x as [|d x]; cbn in E; injection E as -> E; [discriminate|]. destruct (IH W2 x y E) as (x' & -> & E'). exists x'. auto. }
      rewrite <- app_assoc in Et. cbn [app] in Et. destruct bb; cbn [lead_str app] in Et.
      * destruct a' as [|c a']; cbn [app] in Et; [injection Et as Et|injection Et as Et0 Et].
        -- assert (Z : span_seg (m ++ join l) = (m, join l)) by (apply span_seg_app; auto; apply lead_slashy; eapply wfl_lead_tail; eauto).
           rewrite Et, span_seg_app in Z by auto. injection Z as -> _. exact KM.
        -- rewrite <- app_assoc in Et. cbn [app] in Et. destruct (Q _ _ Et) as (x' & -> & E'). destruct x' as [|d x'].
           ++ cbn in E'. apply (IH [SLASH]); auto; [right; exists []; reflexivity|]. intros; apply KN; now right.
           ++ apply (IH ((d :: x') ++ [SLASH])); auto; [rewrite <- app_assoc; exact E'|right; eexists; reflexivity|]. intros; apply KN; now right.
      * try (rewrite <- app_assoc in Et; cbn [app] in Et). destruct (Q _ _ Et) as (x' & -> & E'). apply (IH (x' ++ [SLASH])); auto; [rewrite <- app_assoc; exact E'|right; eexists; reflexivity|]. intros; apply KN; now right.
Qed.

(** ** Classes and shapes are preserved. *)
Section Inv.
Variables dot dotdot : lang.
Variable I : str -> str -> Prop.
Hypothesis I_step : forall i o i' o', rds_step dot dotdot (i, o) (i', o') -> I i o -> I i' o'.
Lemma steps_inv x y : rds_steps dot dotdot x y -> I (fst x) (snd x) -> I (fst y) (snd y).
Proof. induction 1 as [|[i o] [i' o'] z H1 H2 IH]; auto. intros H. apply IH. cbn in *. eauto. Qed.
End Inv.
Lemma scan_slash f a b : f 47 = true -> scan f (a ++ lit "/" ++ b) = scan f a && scan f b.
Proof. intros H. change (lit "/" ++ b) with (47 :: b). rewrite scan_delim by (reflexivity || discriminate). rewrite H. now rewrite andb_true_r. Qed.
Lemma scan_lead f b : f 47 = true -> scan f (lit "/" ++ b) = scan f b.
Proof. intros H. exact (scan_slash f [] b H). Qed.
Lemma rds_scan f p t : f 47 = true -> rds p t -> scan f p = true -> scan f t = true.
Proof.
  intros H47 R Hp.
  cut (scan f [] = true /\ scan f t = true); [tauto|].
  apply (steps_inv single_dot double_dot (fun i o => scan f i = true /\ scan f o = true)) with (x := (p, [])) (y := ([], t)); auto.
  clear p t R Hp. intros i o i' o' St [Hi Ho].
  assert (RL : forall o o', remove_last o o' -> scan f o = true -> scan f o' = true).
  { intros x y Hr. destruct Hr; auto. rewrite scan_slash by auto. intros H0. now apply andb_prop in H0. }
  remember (i, o) as x eqn:Ex. remember (i', o') as y eqn:Ey.
  destruct St as [d i0 o0 Hd|d i0 o0 Hd|d o0 Hd|d i0 o0 o1 Hd Hr|d o0 o1 Hd Hr|d o0 Hd|lead seg i0 o0 Hl Hs Hne Hd Hdd Hii]; apply pair_equal_spec in Ex; destruct Ex as [<- <-]; apply pair_equal_spec in Ey; destruct Ey as [<- <-].
  - rewrite scan_slash in Hi by auto. apply andb_prop in Hi. tauto.
  - rewrite scan_lead, scan_slash in Hi by auto. rewrite scan_lead by auto. apply andb_prop in Hi. tauto.
  - change (lit "/") with (lit "/" ++ []). rewrite scan_lead by auto. auto.
  - rewrite scan_lead, scan_slash in Hi by auto. rewrite scan_lead by auto. apply andb_prop in Hi. split; [tauto|eauto].
  - change (lit "/") with (lit "/" ++ []). rewrite scan_lead by auto. split; eauto.
  - auto.
  - assert (Q : scan f seg = true /\ scan f i0 = true).
    { destruct Hii as [->|(r & ->)].
      - rewrite app_nil_r in Hi. destruct Hl as [->| ->]; [auto|rewrite scan_lead in Hi by auto; auto].
      - rewrite scan_lead by auto. destruct Hl as [->| ->]; [cbn [app] in Hi|rewrite scan_lead in Hi by auto]; rewrite scan_slash in Hi by auto; now apply andb_prop in Hi. }
    split; [tauto|]. apply scan_app_true; auto. destruct Hl as [->| ->]; [tauto|rewrite scan_lead by auto; tauto].
Qed.
Lemma rds_slashy p t : rds p t -> slashy p -> slashy t.
Proof.
  intros R Hp. cut (slashy [] /\ slashy t); [tauto|].
  apply (steps_inv single_dot double_dot (fun i o => slashy i /\ slashy o)) with (x := (p, [])) (y := ([], t)); auto.
  2:{ split; auto. now left. }
  clear p t R Hp. intros i o i' o' St [Hi Ho].
  assert (OK : forall d, single_dot d \/ double_dot d -> d <> [] /\ no_slash d) by (intros d [?|?]; [now apply a_dot_ok|now apply double_dot_ok]).
  assert (NS : forall d x, d <> [] -> no_slash d -> ~ slashy (d ++ x)).
  { intros [|c d] x Hn Hd [E|(r & E)]; try easy. cbn in E. injection E as -> _. apply Hd. now left. }
  assert (SL : forall x, slashy (lit "/" ++ x)) by (intros; right; eexists; reflexivity).
  assert (RL : forall o o', remove_last o o' -> slashy o -> slashy o').
  { intros x y Hr. destruct Hr; [|intros; now left]. intros [E|(r & E)]; destruct o0 as [|c o1]; try discriminate; [now left|]. cbn in E. injection E as -> _. right. eexists. reflexivity. }
  remember (i, o) as x eqn:Ex. remember (i', o') as y eqn:Ey.
  destruct St as [d i0 o0 Hd|d i0 o0 Hd|d o0 Hd|d i0 o0 o1 Hd Hr|d o0 o1 Hd Hr|d o0 Hd|lead seg i0 o0 Hl Hs Hne Hd Hdd Hii]; apply pair_equal_spec in Ex; destruct Ex as [<- <-]; apply pair_equal_spec in Ey; destruct Ey as [<- <-].
  - destruct (OK _ Hd). exfalso. eapply NS; eauto.
  - split; auto.
  - split; auto. exact (SL []).
  - split; eauto.
  - split; eauto. exact (SL []).
  - split; auto. now left.
  - split; [destruct Hii as [->|(r & ->)]; [now left|auto]|].
    destruct Hl as [->| ->].
    + exfalso. cbn [app] in *. eapply (NS seg i0); eauto.
    + destruct Ho as [->|(r & ->)]; [exact (SL seg)|right; eexists; reflexivity].
Qed.
(** Percent normalization does not create or remove dot segments, nor a leading "//". *)
Lemma pn_dotless Sp q t : dotless q -> pct_normal Sp q t -> dotless t.
Proof.
  intros (l & W & -> & D) P. assert (Wf := pn_wf_l _ _ _ P).
  assert (G : Forall (fun g => pct_wf (snd g)) l). { apply good_join; auto. exact wf_slash. }
  rewrite <- (pnf_eq _ _ _ P).
  rewrite (nrm_join (pnf Sp) pct_wf); auto; try (intros; now apply pnf_slash); try exact wf_slash; try constructor; try (apply pnf_eq; constructor).
  exists (map (fun g => (fst g, pnf Sp (snd g))) l). split; [|split].
  - destruct W as (N & Wl). split.
    + apply Forall_forall. intros g Hg. apply in_map_iff in Hg. destruct Hg as (g0 & <- & Hg). cbn. apply no_slash_none. eapply pn_no_slash; [apply pnf_ok|].
      * exact (proj1 (Forall_forall _ _) G g0 Hg).
      * apply no_slash_none. exact (proj1 (Forall_forall _ _) N g0 Hg).
    + destruct l as [|g l]; auto. cbn [map]. destruct Wl as [Wg Wt]. split.
      * cbn. destruct Wg as [|Wg]; auto. right. inversion G; subst. intros X. apply Wg. apply (proj1 (pn_empty _ _ _ (proj2 (pnf_ok Sp _ H1)))). exact X.
      * apply Forall_forall. intros g' Hg. apply in_map_iff in Hg. destruct Hg as (g0 & <- & Hg). exact (proj1 (Forall_forall _ _) Wt g0 Hg).
  - unfold njoin, join. rewrite map_map. reflexivity.
  - apply not_true_iff_false. intros X. apply existsb_exists in X. destruct X as (g & Hg & X). apply in_map_iff in Hg. destruct Hg as (g0 & <- & Hg).
    assert (Wg : pct_wf (snd g0)) by exact (proj1 (Forall_forall _ _) G g0 Hg). assert (Q := pnf_ok Sp _ Wg). destruct Q as [_ Q].
    assert (Wn : pct_wf (pnf Sp (snd g0))) by (eapply pn_wf_r; eauto). assert (Id : pnf Sp (pnf Sp (snd g0)) = pnf Sp (snd g0)) by (apply pnf_eq; eapply pn_idem; eauto).
    rewrite <- not_true_iff_false in D. apply D. apply existsb_exists. exists g0. split; auto. unfold dotty in *. cbn [snd] in X.
    destruct (from_segment (pnf Sp (snd g0))) eqn:K; try discriminate.
    + apply (kind_dot Sp) in K; auto. rewrite Id in K. apply kind_dot in K; auto. now rewrite K.
    + apply (kind_dotdot Sp) in K; auto. rewrite Id in K. apply kind_dotdot in K; auto. now rewrite K.
Qed.
Lemma starts_slash_iff s : starts_with (lit "//") s = true <-> exists r, s = 47 :: 47 :: r.
Proof.
  unfold starts_with. split.
  - destruct (strip_prefix (lit "//") s) as [r|] eqn:E; [|discriminate]. intros _. exists r. now apply strip_prefix_inv in E.
  - intros (r & ->). reflexivity.
Qed.
Lemma pn_slash_head Sp q t r : pct_normal Sp q t -> t = 47 :: r -> exists r', q = 47 :: r' /\ pct_normal Sp r' r.
Proof.
  intros P E. destruct P as [|c s t Hc Hp|c bs s t Hs Hu Hp|u l s t Hu Hl Hn Hp]; inversion E; subst.
  - eauto. - destruct Sp; discriminate.
Qed.
Lemma pn_starts Sp q t : pct_normal Sp q t -> starts_with (lit "//") q = starts_with (lit "//") t.
Proof.
  intros P. apply eq_true_iff_eq. rewrite !starts_slash_iff. split; intros (r & E).
  - subst q. apply pn_raw_inv in P; [|discriminate]. destruct P as (t' & -> & P). apply pn_raw_inv in P; [|discriminate]. destruct P as (t2 & -> & _). eauto.
  - destruct (pn_slash_head _ _ _ _ P E) as (r' & -> & P'). destruct (pn_slash_head _ _ _ r P' eq_refl) as (r2 & -> & _). eauto.
Qed.
(** Without percent-encoded dots the two versions of the algorithm agree. *)
Lemma no_2e_dot a d b : a_dot d -> no_2e (a ++ d ++ b) -> d = lit ".".
Proof. intros [->|[->| ->]] H; auto; destruct (H a b); congruence. Qed.
Lemma no_2e_suffix a b : no_2e (a ++ b) -> no_2e b.
Proof. intros H x y. destruct (H (a ++ x) y) as [H1 H2]. rewrite <- app_assoc in H1, H2. split; intros ->; auto. Qed.
Lemma no_2e_dotdot a d b : double_dot d -> no_2e (a ++ d ++ b) -> d = lit "..".
Proof.
  intros (x & y & -> & Hx & Hy) H. assert (x = lit ".") as -> by (apply (no_2e_dot a x (y ++ b)); auto; now rewrite <- app_assoc in H).
  assert (y = lit ".") as -> by (apply (no_2e_dot (a ++ lit ".") y b); auto; rewrite <- app_assoc in H |- *; exact H). reflexivity.
Qed.
Lemma no_2e_slash : no_2e (lit "/").
Proof. intros a b. split; intros E; destruct a as [|x [|y a]]; discriminate. Qed.
Lemma rds_is_literal p t : no_2e p -> rds p t -> rds_literal p t.
Proof.
  unfold rds, rds_literal, remove_dot_segments. intros H R. remember (p, []) as x eqn:Ex. remember ([], t) as y eqn:Ey.
  assert (Hp : no_2e (fst x)) by (subst; exact H). clear H Ex p. induction R as [|x y z St R IH]; [constructor|].
  assert (Q : rds_step (tok ".") (tok "..") x y /\ no_2e (fst y)).
  { destruct St as [d i0 o0 Hd|d i0 o0 Hd|d o0 Hd|d i0 o0 o1 Hd Hr|d o0 o1 Hd Hr|d o0 Hd|lead seg i0 o0 Hl Hs Hne Hd Hdd Hii]; cbn [fst] in *.
    - split; [|apply (no_2e_suffix (d ++ lit "/")); now rewrite <- app_assoc]. apply rds_A. destruct Hd as [Hd|Hd]; [left; exact (no_2e_dot [] _ _ Hd Hp)|right; exact (no_2e_dotdot [] _ _ Hd Hp)].
    - split; [|apply (no_2e_suffix (lit "/" ++ d)); now rewrite <- app_assoc]. apply rds_B. exact (no_2e_dot (lit "/") _ _ Hd Hp).
    - split; [|apply no_2e_slash]. apply rds_B'. apply (no_2e_dot (lit "/") d []); auto. now rewrite app_nil_r.
    - split; [|apply (no_2e_suffix (lit "/" ++ d)); now rewrite <- app_assoc]. apply rds_C; auto. exact (no_2e_dotdot (lit "/") _ _ Hd Hp).
    - split; [|apply no_2e_slash]. apply rds_C'; auto. apply (no_2e_dotdot (lit "/") d []); auto. now rewrite app_nil_r.
    - split; [|apply (no_2e_suffix d); now rewrite app_nil_r]. apply rds_D. destruct Hd as [Hd|Hd]; [left; apply (no_2e_dot [] d [])|right; apply (no_2e_dotdot [] d [])]; auto; now rewrite app_nil_r.
    - split; [|apply (no_2e_suffix (lead ++ seg)); now rewrite <- app_assoc]. apply rds_E; auto.
      + intros X. apply Hd. now left.
      + intros X. apply Hdd. rewrite X. exists (lit "."), (lit "."). repeat split; now left. }
  destruct Q as [Q1 Q2]. eapply rds_next; [exact Q1|]. now apply IH.
Qed.
