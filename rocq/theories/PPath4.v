(** * Dot-segment removal (proofs only), part 4: the segment-list algorithm is RFC 3986 5.2.4. *)
From Verif Require Import Base Chars Rfc3986 CompSpec RfcResolve MValidate MTrusted MFormat MPct MPath PBase PScan PPath PPath2.

(** ** Kinds of segments. *)
Lemma from_segment_dot n : from_segment n = Dot <-> single_dot n.
Proof.
  unfold single_dot, a_dot, alt, tok. split.
  - unfold from_segment. destruct (negb _); [discriminate|]. destruct (negb _); [discriminate|].
    destruct (existsb (seqb n) (map lit ["."; "%2E"; "%2e"]%string)) eqn:X; [|intros Q; match type of Q with (if ?b then _ else _) = _ => destruct b end; discriminate Q]. intros _.
    cbn [existsb map] in X. rewrite !orb_true_iff, !seqb_eq in X. intuition discriminate.
  - intros [->|[->| ->]]; reflexivity.
Qed.
Lemma from_segment_dotdot n : from_segment n = DotDot <-> double_dot n.
Proof.
  unfold double_dot, a_dot, cat, alt, tok. split.
  - unfold from_segment. destruct (negb _); [discriminate|]. destruct (negb _); [discriminate|].
    destruct (existsb (seqb n) (map lit ["."; "%2E"; "%2e"]%string)) eqn:X; [discriminate|].
    match goal with |- (if ?b then _ else _) = _ -> _ => destruct b eqn:Y; [|discriminate] end. intros _.
    cbn [existsb map] in Y. rewrite !orb_true_iff, !seqb_eq in Y.
    repeat destruct Y as [Y|Y]; try discriminate;
    first [exists (lit "."), (lit "."); now rewrite Y; auto | exists (lit "."), (lit "%2E"); now rewrite Y; auto | exists (lit "."), (lit "%2e"); now rewrite Y; auto
      | exists (lit "%2E"), (lit "."); now rewrite Y; auto | exists (lit "%2E"), (lit "%2E"); now rewrite Y; auto | exists (lit "%2E"), (lit "%2e"); now rewrite Y; auto
      | exists (lit "%2e"), (lit "."); now rewrite Y; auto | exists (lit "%2e"), (lit "%2E"); now rewrite Y; auto | exists (lit "%2e"), (lit "%2e"); now rewrite Y; auto ].
  - intros (a & b & -> & [->|[->| ->]] & [->|[->| ->]]); reflexivity.
Qed.
Lemma from_segment_normal n : from_segment n = Normal <-> ~ single_dot n /\ ~ double_dot n.
Proof.
  rewrite <- from_segment_dot, <- from_segment_dotdot. destruct (from_segment n); intuition congruence.
Qed.
Lemma no_slash_none s : no_slash s <-> none (N.eqb SLASH) s = true.
Proof.
  unfold no_slash, none. rewrite forallb_forall. split.
  - intros H c Hc. apply negb_true_iff, N.eqb_neq. intros <-. contradiction.
  - intros H Hc. apply H in Hc. discriminate.
Qed.

Lemma rds_trans d dd x y z : rds_steps d dd x y -> rds_steps d dd y z -> rds_steps d dd x z.
Proof. induction 1; auto. intros. eapply rds_next; eauto. Qed.

(** ** Simulation.  [f] maps the names of the segment list to those of the string: the identity, or
    percent-encoding normalization. *)
Section Sim.
Variables dot dotdot : lang.
Variable f : str -> str.
Variable good : str -> Prop.
Hypothesis f_dot : forall n, good n -> from_segment n = Dot -> dot (f n).
Hypothesis f_dotdot : forall n, good n -> from_segment n = DotDot -> dotdot (f n).
Hypothesis f_normal : forall n, good n -> from_segment n = Normal -> ~ dot (f n) /\ ~ dotdot (f n).
Hypothesis f_noslash : forall n, good n -> none (N.eqb SLASH) n = true -> no_slash (f n).
Hypothesis f_nil : forall n, good n -> f n = [] <-> n = [].
Hypothesis good_nil : good [].

Definition fseg (g : seg) : str := lead_str (fst g) ++ f (snd g).
Definition fjoin (l : list seg) : str := concat (map fseg l).
Definition gl (l : list seg) : Prop := Forall (fun g => good (snd g)) l.
Lemma fjoin_app a b : fjoin (a ++ b) = fjoin a ++ fjoin b.
Proof. unfold fjoin. now rewrite map_app, concat_app. Qed.
Lemma fjoin_cons g l : fjoin (g :: l) = fseg g ++ fjoin l.
Proof. reflexivity. Qed.
Lemma fjoin_one g : fjoin [g] = fseg g.
Proof. unfold fjoin. cbn. apply app_nil_r. Qed.

Definition outwf (out : list seg) : Prop := names_ok out /\ gl out /\ match out with [] => True | _ :: t => lead_all t end.
Lemma remove_last_ok out : outwf out -> remove_last (fjoin out) (fjoin (removelast out)).
Proof.
  intros (N & G & L). destruct out as [|g0 out0]; [apply rl_none; intros []|].
  destruct (exists_last (l := g0 :: out0)) as (o & g & E); [discriminate|]. rewrite E in *. rewrite removelast_last.
  apply Forall_app in N. destruct N as [_ N]. apply Forall_app in G. destruct G as [_ G]. inversion N; subst. inversion G; subst.
  assert (Hs : no_slash (f (snd g))) by now apply f_noslash.
  rewrite fjoin_app, fjoin_one. unfold fseg. destruct o as [|g1 o].
  - injection E as -> ->. cbn [removelast]. unfold fjoin. cbn [map concat app]. destruct (fst g); cbn [lead_str].
    + apply (rl_slash [] (f (snd g))); auto.
    + apply rl_none; auto.
  - injection E as -> ->. assert (fst g = true) as ->. { apply Forall_app in L. destruct L as [_ L]. now inversion L. }
    cbn [lead_str]. apply (rl_slash (fjoin (g1 :: o)) (f (snd g))); auto.
Qed.
Lemma outwf_removelast out : outwf out -> outwf (removelast out).
Proof.
  assert (R : forall P (o : list seg), Forall P o -> Forall P (removelast o)).
  { intros P o. induction o as [|y o IH]; auto. destruct o as [|z o]; [constructor|]. intros X. inversion X; subst. change (removelast (y :: z :: o)) with (y :: removelast (z :: o)). constructor; auto. }
  intros (N & G & L). split; [now apply R|]. split; [now apply R|]. destruct out as [|a [|b o]]; [exact I|exact I|]. change (removelast (a :: b :: o)) with (a :: removelast (b :: o)). now apply R.
Qed.
Lemma slashy_fjoin t : lead_all t -> fjoin t = [] \/ exists r, fjoin t = lit "/" ++ r.
Proof. destruct t as [|[b n] t]; [now left|]. intros L. inversion L; subst. cbn in H1. subst b. right. rewrite fjoin_cons. unfold fseg. cbn [fst lead_str snd]. exists (f n ++ fjoin t). reflexivity. Qed.

Lemma sim l : forall out, outwf out -> names_ok l -> gl l ->
  match out, l with [], g :: t => (fst g = true \/ snd g <> [] /\ dotty g = false) /\ lead_all t | _, _ => lead_all l end ->
  rds_steps dot dotdot (fjoin l, fjoin out) ([], fjoin (frun l out ++ tail_slash l)).
Proof.
  induction l as [|g t IH]; intros out Ho Nl Gl Hl.
  - cbn. rewrite app_nil_r. constructor.
  - inversion Nl as [|? ? Ng Nt]; subst. inversion Gl as [|? ? Gg Gt]; subst.
    assert (Lt : lead_all t) by (destruct out; [tauto|now inversion Hl]).
    assert (Lg : dotty g = true -> fst g = true) by (destruct out; [intros; destruct Hl as [[?|[? ?]] _]; congruence|inversion Hl; auto]).
    assert (Hg : fseg g <> []).
    { unfold fseg. destruct out; [|inversion Hl; subst; now rewrite H1]. destruct Hl as [[->|[X _]] _]; [discriminate|].
      destruct (fst g); [discriminate|]. cbn. now rewrite f_nil. }
    assert (TS : forall K : SegmentKind, tail_slash (g :: t) = if (match t with [] => true | _ => false end) && dotty g then [(true, [])] else tail_slash t).
    { intros _. destruct t as [|h t]; [reflexivity|]. change (g :: h :: t) with ([g] ++ h :: t). now rewrite tail_slash_app by discriminate. }
    specialize (TS Dot).
    rewrite fjoin_cons. cbn [frun fold_left]. fold (frun t (step out g)).
    assert (Hcont : lead_all t -> forall o', outwf o' -> rds_steps dot dotdot (fjoin t, fjoin o') ([], fjoin (frun t o' ++ tail_slash t))).
    { intros _ o' Ho'. apply IH; auto. destruct o'; [|exact Lt]. destruct t; [constructor|]. inversion Lt; subst. split; auto. }
    destruct (from_segment (snd g)) eqn:K.
    + (* dot *)
      assert (D : dotty g = true) by (unfold dotty; now rewrite K). rewrite (Lg D) in *. rewrite D, andb_true_r in TS.
      unfold step. rewrite K. unfold fseg. rewrite (Lg D). cbn [lead_str].
      destruct t as [|h t].
      * rewrite TS. cbn [frun fold_left]. rewrite fjoin_app, fjoin_one. cbn [fseg fst snd lead_str]. unfold fseg. cbn [fst snd lead_str].
        rewrite (proj2 (f_nil [] good_nil) eq_refl). unfold fjoin at 1. cbn [map concat]. rewrite !app_nil_r.
        eapply rds_next; [apply rds_B'; apply f_dot; auto|]. eapply rds_next; [|constructor].
        assert (X := rds_E dot dotdot (lit "/") [] [] (fjoin out)). cbn [app] in X. apply X; auto; try discriminate.
        -- intros [].
        -- rewrite <- (proj2 (f_nil [] good_nil) eq_refl). now apply f_normal.
        -- rewrite <- (proj2 (f_nil [] good_nil) eq_refl). now apply f_normal.
      * rewrite TS. destruct (slashy_fjoin (h :: t) Lt) as [X|(r & X)]. { rewrite fjoin_cons in X. unfold fseg in X. inversion Lt; subst. rewrite H1 in X. discriminate. }
        eapply rds_next; [|apply Hcont; auto]. rewrite X. apply (rds_B dot dotdot (f (snd g))). now apply f_dot.
    + (* dotdot *)
      assert (D : dotty g = true) by (unfold dotty; now rewrite K). rewrite (Lg D) in *. rewrite D, andb_true_r in TS.
      unfold step. rewrite K. unfold fseg. rewrite (Lg D). cbn [lead_str].
      destruct t as [|h t].
      * rewrite TS. cbn [frun fold_left]. rewrite fjoin_app, fjoin_one. cbn [fseg fst snd lead_str]. unfold fseg. cbn [fst snd lead_str].
        rewrite (proj2 (f_nil [] good_nil) eq_refl). unfold fjoin at 1. cbn [map concat]. rewrite !app_nil_r.
        eapply rds_next; [apply rds_C'; [apply f_dotdot; auto|now apply remove_last_ok]|]. eapply rds_next; [|constructor].
        assert (X := rds_E dot dotdot (lit "/") [] [] (fjoin (removelast out))). cbn [app] in X. apply X; auto; try discriminate.
        -- intros [].
        -- rewrite <- (proj2 (f_nil [] good_nil) eq_refl). now apply f_normal.
        -- rewrite <- (proj2 (f_nil [] good_nil) eq_refl). now apply f_normal.
      * rewrite TS. destruct (slashy_fjoin (h :: t) Lt) as [X|(r & X)]. { rewrite fjoin_cons in X. unfold fseg in X. inversion Lt; subst. rewrite H1 in X. discriminate. }
        eapply rds_next; [|apply Hcont; auto; now apply outwf_removelast]. rewrite X. apply (rds_C dot dotdot (f (snd g))); [now apply f_dotdot|now apply remove_last_ok].
    + assert (D : dotty g = false) by (unfold dotty; now rewrite K). rewrite D, andb_false_r in TS. rewrite TS.
      unfold step at 1. rewrite K. eapply rds_next; [|apply Hcont; auto].
      * unfold fseg at 1. rewrite fjoin_app, fjoin_one. unfold fseg. rewrite <- app_assoc. destruct (f_normal _ Gg K) as [F1 F2]. apply rds_E; auto.
        -- destruct (fst g); auto.
        -- now apply slashy_fjoin.
      * destruct Ho as (O1 & O2 & O3). repeat split.
        -- apply Forall_app. split; auto.
        -- apply Forall_app. split; auto.
        -- destruct out as [|o0 out]; [constructor|]. cbn [app]. apply Forall_app. split; auto. inversion Hl; subst. auto.
Qed.

(** The ignorable prefix. *)
Lemma gl_tail g t : gl (g :: t) -> gl t. Proof. now inversion 1. Qed.
Lemma join_inj l l' : wfl l -> wfl l' -> join l = join l' -> l = l'.
Proof.
  revert l'; induction l as [|g t IH]; intros l' W W' E.
  - symmetry. apply join_nil; auto.
  - destruct l' as [|g' t']. { apply join_nil in E; auto. }
    assert (X := next_seg_join _ _ W). rewrite E, next_seg_join in X by exact W'. destruct g as [b n], g' as [b' n']. cbn in X. inversion X; subst.
    f_equal. apply IH; auto; eapply wfl_tail; eauto.
Qed.
Lemma trim_sim s t : trim s t -> forall l, wfl l -> gl l -> s = join l -> exists l', wfl l' /\ gl l' /\ t = join l' /\
  rds_steps dot dotdot (fjoin l, []) (fjoin l', []).
Proof.
  induction 1 as [|s r E|n r Hn K|n r t Hn K T IH]; intros l Hw Hg El.
  - exists l. repeat split; auto; try apply Hw. constructor.
  - exists l. repeat split; auto; try apply Hw. constructor.
  - exists l. repeat split; auto; try apply Hw. constructor.
  - destruct l as [|g l1]. { rewrite El in Hn. discriminate. }
    rewrite El, next_seg_join in Hn by exact Hw. destruct g as [b m]. cbn in Hn. inversion Hn; subst b m r.
    assert (Hw1 := wfl_tail _ _ Hw). assert (Hg1 := gl_tail _ _ Hg). assert (Gn : good n) by now inversion Hg.
    assert (Dn : dot (f n) \/ dotdot (f n)) by (destruct (from_segment n) eqn:KK; [left; now apply f_dot|right; now apply f_dotdot|congruence]).
    destruct l1 as [|[b m] l2].
    + destruct (IH []) as (l' & W' & G' & -> & R); [split; [constructor|exact I]|constructor|reflexivity|]. exists l'. repeat split; auto; try apply W'.
      eapply rds_next; [|exact R]. rewrite fjoin_one. unfold fseg. cbn [fst snd lead_str app]. now apply rds_D.
    + assert (Hb : b = true). { apply wfl_lead_tail in Hw. now inversion Hw. } subst b.
      assert (Hs : skipn 1 (join ((true, m) :: l2)) = m ++ join l2) by reflexivity.
      assert (Hst : rds_step dot dotdot (fjoin ((false, n) :: (true, m) :: l2), []) (f m ++ fjoin l2, [])).
      { rewrite !fjoin_cons. unfold fseg. cbn [fst snd lead_str app]. apply rds_A. exact Dn. }
      assert (Gm : good m) by (inversion Hg1; auto). assert (Nm : none (N.eqb SLASH) m = true) by (destruct Hw1 as (X & _); now inversion X).
      assert (Hw2 := wfl_tail _ _ Hw1). assert (Hg2 := gl_tail _ _ Hg1).
      destruct m as [|c m].
      * rewrite (proj2 (f_nil [] good_nil) eq_refl) in Hst. cbn [app] in Hst, Hs. destruct (IH l2) as (l' & W' & G' & -> & R); auto. exists l'. repeat split; auto; try apply W'.
        eapply rds_next; [exact Hst|exact R].
      * destruct (IH ((false, c :: m) :: l2)) as (l' & W' & G' & -> & R).
        -- split; [constructor; auto; apply Hw2|]. split; [right; discriminate|]. eapply wfl_lead_tail; eauto.
        -- constructor; auto.
        -- exact Hs.
        -- exists l'. repeat split; auto; try apply W'. eapply rds_next; [exact Hst|exact R].
Qed.
Lemma rds_run p s l : wfl p -> gl p -> trim (join p) s -> s = join l -> wfl l ->
  gl l /\ remove_dot_segments dot dotdot (fjoin p) (fjoin (rdsl l)).
Proof.
  intros Wp Gp T -> Wl. destruct (trim_sim _ _ T p Wp Gp eq_refl) as (l' & W' & G' & E & R).
  apply join_inj in E; auto. subst l'. split; auto. eapply rds_trans; [exact R|]. unfold rdsl.
  change (@nil N) with (fjoin []) at 1. apply sim; auto.
  - repeat split; constructor.
  - apply Wl.
  - destruct l as [|g t]; [constructor|]. destruct Wl as (_ & Wg & Wt). split; auto.
    destruct (fst g) eqn:Fg; auto. right. destruct Wg as [|Wg]; [discriminate|]. split; auto.
    destruct (trim_next _ _ T) as [X|[(r & X)|(n & r & X & K)]].
    + apply join_nil in X; auto. discriminate.
    + assert (NS := next_seg_join g t W'). rewrite X in NS. cbn in NS. destruct (span_seg r). inversion NS. congruence.
    + rewrite next_seg_join in X by exact W'. inversion X; subst. unfold dotty. now rewrite K.
Qed.
End Sim.
