(** * The work of normalization and resolution (proofs only), part 2. *)
From Verif Require Import Base Chars Rfc3986 CompSpec RfcResolve PctSpec NormSpec WorkSpec MValidate MTrusted MFormat MPct MPath MTypes MNormalize MWork PBase PScan PPath PPath2 PPath3 PPath4 PPath5 PResolve PComps PNorm3 PNorm7 PDepend PWork.
Open Scope nat_scope.

(** ** Pieces and segments *)
Lemma names_fun l m : names l m -> forall m', names l m' -> m = m'.
Proof. induction 1 as [|n l m D H IH|n l m D1 D2 H IH]; intros m' H'; inversion H'; subst; auto; tauto. Qed.
Lemma names_total l : exists m, names l m.
Proof.
  induction l as [|n l (m & IH)]; [eexists; constructor|]. destruct (from_segment n) eqn:K.
  - exists m. constructor; auto. left. now apply from_segment_dot.
  - exists m. constructor; auto. right. now apply from_segment_dotdot.
  - apply from_segment_normal in K. exists (1 + m). constructor; tauto.
Qed.
Lemma pieces_fun s l : pieces s l -> forall l', pieces s l' -> l = l'.
Proof.
  induction 1 as [n Hn|n r l Hn H IH]; intros l' H'; inversion H' as [n' Hn' E|n' r' l2 Hn' H2 E]; subst; auto.
  - exfalso. apply Hn. apply in_app_iff. right. now left.
  - exfalso. apply Hn'. apply in_app_iff. right. now left.
  - destruct (first_unique (N.eqb SLASH) n' SLASH r' n SLASH r) as (E1 & _ & E2); auto; try reflexivity; try (now apply no_slash_none).
    subst. f_equal. auto.
Qed.
Definition pieces_of (l : list seg) : list str := match l with [] => [[]] | g :: _ => (if fst g then [[]] else []) ++ map snd l end.
Lemma pieces_join l : wfl l -> pieces (join l) (pieces_of l).
Proof.
  induction l as [|[b n] t IH]; intros W; [apply pieces_one; intros []|].
  assert (Wt := wfl_tail _ _ W). specialize (IH Wt). assert (Lt := wfl_lead_tail _ _ W).
  assert (Hn : no_slash n). { destruct W as [X _]. inversion X; subst. now apply no_slash_none. }
  assert (P : pieces (n ++ join t) (n :: map snd t)).
  { destruct t as [|[b2 n2] t2]; [change (join []) with (@nil N); rewrite app_nil_r; now apply pieces_one|].
    inversion Lt; subst. cbn [fst] in *. subst b2. change (join ((true, n2) :: t2)) with (lit "/" ++ (n2 ++ join t2)).
    apply pieces_more; auto. 
    change (pieces_of ((true, n2) :: t2)) with ([] :: n2 :: map snd t2) in IH. change (join ((true, n2) :: t2)) with (SLASH :: (n2 ++ join t2)) in IH. remember (SLASH :: (n2 ++ join t2)) as s0 eqn:Es. remember ([] :: n2 :: map snd t2) as l0 eqn:El0.
    destruct IH as [x Hx|x r l2 Hx Hr]; [discriminate|]. injection El0 as -> ->. cbn in Es. injection Es as ->. exact Hr. }
  assert (EJ : join ((b, n) :: t) = lead_str b ++ n ++ join t) by (unfold join; cbn [map concat]; unfold seg_str; cbn [fst snd]; now rewrite app_assoc).
  match goal with |- pieces ?x _ => change x with (join ((b, n) :: t)) end. rewrite EJ. unfold pieces_of. cbn [fst map snd]. destruct b; cbn [lead_str app]; [|exact P].
  exact (pieces_more [] (n ++ join t) (n :: map snd t) (fun X => X) P).
Qed.
Lemma nn_names l m : names (map snd l) m -> nn l = m.
Proof.
  revert m. induction l as [|g t IH]; intros m H; inversion H; subst; cbn [nn]; auto.
  - rewrite (IH m) by assumption. unfold dotty. destruct (from_segment (snd g)) eqn:K; auto. apply from_segment_normal in K. tauto.
  - rewrite (IH m0) by assumption. unfold dotty. destruct (from_segment (snd g)) eqn:K; auto.
    + apply from_segment_dot in K. tauto. + apply from_segment_dotdot in K. tauto.
Qed.
Lemma nn_pieces l m : names (pieces_of l) m -> nn l <= m.
Proof.
  destruct l as [|g t]; [cbn; lia|]. unfold pieces_of. destruct (fst g); cbn [app]; intros H.
  - inversion H as [|? ? ? ? X|? ? ? ? ? X]; subst; apply (nn_names (g :: t)) in X; lia.
  - apply (nn_names (g :: t)) in H. lia.
Qed.
Lemma plain_pieces l : dot_free (pieces_of l) -> existsb dotty l = false.
Proof.
  intros H. assert (H' : Forall (fun n => ~ single_dot n /\ ~ double_dot n) (map snd l)).
  { destruct l as [|g t]; [constructor|]. unfold pieces_of, dot_free in H. apply Forall_app in H. apply H. }
  clear H. induction l as [|g t IH]; [reflexivity|]. inversion H'; subst. cbn [existsb]. rewrite IH by assumption. rewrite orb_false_r.
  unfold dotty. now rewrite (proj2 (from_segment_normal (snd g))).
Qed.

(** ** Trimming *)
Lemma trim_nn s t : trim s t -> forall l, wfl l -> s = join l -> exists l', wfl l' /\ t = join l' /\ nn l' <= nn l /\ (existsb dotty l = false -> existsb dotty l' = false) /\ length t <= length s.
Proof.
  induction 1 as [|s r E|n r Hn K|n r t Hn K T IH]; intros l Hw El.
  - exists l. repeat split; auto; apply Hw.
  - exists l. repeat split; auto; apply Hw.
  - exists l. repeat split; auto; apply Hw.
  - destruct l as [|g l1]. { rewrite El in Hn. discriminate. }
    rewrite El, next_seg_join in Hn by exact Hw. destruct g as [b0 m0]. cbn in Hn. injection Hn as -> -> <-.
    assert (G : exists l2, wfl l2 /\ skipn 1 (join l1) = join l2 /\ nn l2 <= nn l1).
    { destruct l1 as [|[b m] l2]; [exists []; split; [split; [constructor|exact I]|split; [reflexivity|lia]]|].
      assert (Hb : b = true). { apply wfl_lead_tail in Hw. now inversion Hw. } subst b.
      assert (Hw1 := wfl_tail _ _ Hw). assert (Hw2 := wfl_tail _ _ Hw1). assert (Nm : none (N.eqb SLASH) m = true) by (destruct Hw1 as (X & _); now inversion X).
      destruct m as [|c m]; [exists l2; repeat split; try apply Hw2; cbn [nn]; apply Nat.le_add_l|].
      exists ((false, c :: m) :: l2). repeat split.
      - constructor; auto. apply Hw2.
      - right. discriminate.
      - eapply wfl_lead_tail; eauto.
      - apply le_n. }
    destruct G as (l2 & W2 & E2 & N2). destruct (IH l2 W2 E2) as (l' & W' & E' & N' & _ & L'). exists l'. repeat split; try apply W'; auto.
    + cbn [nn]. unfold dotty at 1. cbn [snd]. destruct (from_segment n); [lia|lia|congruence].
    + cbn [existsb]. unfold dotty at 1. cbn [snd]. destruct (from_segment n); [discriminate|discriminate|congruence].
    + rewrite app_length. rewrite skipn_length in L'. lia.
Qed.

(** ** The work of writing a path. *)
Definition bound (len m : nat) : nat := (2 * len + 1) * (2 * ((m + 7) / 8) + 3).
Lemma t_path_le S mode auth p : pwf p -> exists l', wfl l' /\ length (join l') <= length (flat p) /\
  (forall l, wfl l -> flat p = join l -> nn l' <= nn l /\ (existsb dotty l = false -> existsb dotty l' = false)) /\
  snd (t_path S mode auth p) <= 2 * length (flat p) + 1 + loop_cost (1 + length (join l')) l' true.
Proof.
  intros W. destruct (t_ignorable_ok (1 + p_len p) p W) as (p1 & w & E1 & W1 & T & Hw). { rewrite p_len_flat. lia. }
  destruct (wfl_exists (flat p)) as (l & Wl & El). destruct (trim_nn _ _ T l Wl El) as (l' & Wl' & El' & N1 & N2 & Ln).
  exists l'. split; [exact Wl'|]. split; [now rewrite <- El'|]. split.
  { intros l0 W0 E0. assert (l0 = l) by (apply join_inj; congruence). subst l0. auto. }
  unfold t_path. rewrite p_is_empty_ok by exact W. rewrite tfree_ok. destruct (is_empty (flat p)); [cbn; lia|]. destruct (_ && _); [cbn; lia|].
  unfold tlift. rewrite E1. cbn [fst snd lift]. rewrite tbind_ok. cbn [fst snd]. rewrite p_is_empty_ok by exact W1. rewrite tfree_ok. destruct (is_empty (flat p1)) eqn:Em; [cbn [free snd]; lia|].
  assert (Hh : l' = [] \/ lead_all l' \/ exists g t, l' = g :: t /\ dotty g = false).
  { destruct (trim_next _ _ T) as [X|[(r & X)|(n & r & X & K)]].
    - rewrite X in Em. discriminate.
    - right. left. rewrite El' in X. destruct l' as [|[b n] t]; [constructor|]. constructor; [|eapply wfl_lead_tail; eauto].
      destruct b; auto. exfalso. destruct Wl' as [Wn [[Y|Y] _]]; [discriminate|]. destruct n as [|c n]; [contradiction|]. cbn in X. injection X as -> _. inversion Wn as [|? ? Z]; subst. cbn in Z. discriminate.
    - right. right. rewrite El' in X. destruct l' as [|[b m] t]; [discriminate|]. rewrite next_seg_join in X by exact Wl'. injection X as Eb En _. cbn [fst snd] in *. subst b m.
      exists (false, n), t. split; auto. unfold dotty. cbn [snd]. now rewrite K. }
  destruct (t_loop_ok S mode auth (1 + p_len p1) p1 None l' true W1 El' Wl' Hh) as [B _]. rewrite p_len_flat, El' in B.
  match goal with |- context[tbind (t_loop S mode auth (1 + p_len p1) p1 None true) ?f] => assert (F : snd (tbind (t_loop S mode auth (1 + p_len p1) p1 None true) f) <= loop_cost (1 + length (join l')) l' true) end.
  { rewrite p_len_flat, El'. unfold tbind. destruct (snd (fst (t_loop _ _ _ _ _ _ _))) as [[[p2 o]|]| |]; cbn [snd fst free]; lia. }
  lia.
Qed.
Lemma t_path_bound S mode auth p ls m : pwf p -> pieces (flat p) ls -> names ls m -> snd (t_path S mode auth p) <= bound (length (flat p)) m.
Proof.
  intros W P N. destruct (t_path_le S mode auth p W) as (l' & Wl' & Ln & H & B). destruct (wfl_exists (flat p)) as (l & Wl & El). destruct (H l Wl El) as [H1 _].
  rewrite El in P. rewrite (pieces_fun _ _ P _ (pieces_join l Wl)) in N. apply nn_pieces in N.
  assert (C := loop_cost_le (1 + length (join l')) l' true). assert (SC := scan_le l' Wl'). unfold rounds in C. unfold bound.
  assert ((nn l' + 7) / 8 <= (m + 7) / 8) by (apply Nat.div_le_mono; lia). nia.
Qed.
Lemma t_path_plain S mode auth p ls : pwf p -> pieces (flat p) ls -> dot_free ls -> snd (t_path S mode auth p) <= 3 * (2 * length (flat p) + 1).
Proof.
  intros W P N. destruct (t_path_le S mode auth p W) as (l' & Wl' & Ln & H & B). destruct (wfl_exists (flat p)) as (l & Wl & El). destruct (H l Wl El) as [_ H1].
  rewrite El in P. rewrite (pieces_fun _ _ P _ (pieces_join l Wl)) in N. apply plain_pieces in N.
  assert (C := loop_cost_plain (1 + length (join l')) l' true (H1 N)). assert (SC := scan_le l' Wl'). lia.
Qed.
Lemma work_input S n mode ls : path_pwf (n_path n) -> pieces (path_flat (n_path n)) ls ->
  (forall m, names ls m -> path_work S (set_mode n mode) <= bound (length (path_flat (n_path n))) m) /\
  (dot_free ls -> path_work S (set_mode n mode) <= 3 * (2 * length (path_flat (n_path n)) + 1)).
Proof.
  intros W P. unfold path_work. cbn [n_path n_mode n_authority set_mode]. destruct (n_path n) as [s|p]; cbn [path_flat path_pwf] in *.
  - destruct (case_pct_normalization mode); [|split; intros; lia]. assert (F : flat (from_single_path s) = s) by apply app_nil_r.
    assert (X := fun m => t_path_bound S mode (is_some (n_authority n)) (from_single_path s) ls m I). assert (Y := t_path_plain S mode (is_some (n_authority n)) (from_single_path s) ls I).
    rewrite F in X, Y. split; intros; auto.
  - split; intros; [eapply t_path_bound|eapply t_path_plain]; eauto.
Qed.
Lemma normalize_work S i C n ls (keep : bool) : reads S i C -> (if keep then normalize_preserve i else normalize i) = Ok n -> pieces (c_p C) ls ->
  (forall m, names ls m -> path_work S n <= bound (length (c_p C)) m) /\ (dot_free ls -> path_work S n <= 3 * (2 * length (c_p C) + 1)).
Proof.
  intros R E P. assert (E' : (do n <- input_from i ; Ok (set_mode n (if keep then MPreserve else MDefault))) = Ok n) by (destruct keep; exact E).
  unfold input_from in E'. rewrite (reads_major S i C R) in E'. destruct C as [[s|] a p q f]; cbn [c_s c_a c_p c_q c_f bind] in *; [|discriminate]. injection E' as <-.
  assert (F : flat (from_single_path p) = p) by apply app_nil_r.
  assert (X := work_input S (mkInput s a (PNeeds (from_single_path p)) q f MNone) (if keep then MPreserve else MDefault) ls I). cbn [n_path path_flat] in X. rewrite F in X. exact (X P).
Qed.
Lemma resolve_work S base ref B R M ls mode : reads S base B -> defined (c_s B) = true -> reads S ref R -> pre_transform B R M -> pieces (c_p M) ls ->
  exists n, resolve base ref = Ok n /\
  (forall m, names ls m -> path_work S (set_mode n mode) <= bound (length (c_p M)) m) /\ (dot_free ls -> path_work S (set_mode n mode) <= 3 * (2 * length (c_p M) + 1)).
Proof.
  intros HB DB HR PM P. destruct B as [[bs|] ba bp bq bf]; [|discriminate]. destruct R as [rs ra rp rq rf]. destruct HB as [HB ->], HR as [HR ->]. cbn [c_s c_a c_p c_q c_f] in *.
  destruct (resolve_pre S bs ba bp bq bf rs ra rp rq rf HB HR) as (n & M' & E & PM' & _ & W & EM). exists n. split; [exact E|].
  rewrite (pre_fun _ _ _ _ PM PM') in *. rewrite EM in P |- *. cbn [c_p] in *. now apply work_input.
Qed.
Lemma resolve_bound S base ref B R M ls m mode : reads S base B -> defined (c_s B) = true -> reads S ref R -> pre_transform B R M -> pieces (c_p M) ls -> names ls m ->
  exists n, resolve base ref = Ok n /\ path_work S (set_mode n mode) <= (2 * length (c_p M) + 1) * (2 * ((m + 7) / 8) + 3).
Proof. intros HB D HR P Ps N. destruct (resolve_work S base ref B R M ls mode HB D HR P Ps) as (n & E & X & _). exists n. split; [exact E|]. exact (X m N). Qed.
Lemma resolve_plain S base ref B R M ls mode : reads S base B -> defined (c_s B) = true -> reads S ref R -> pre_transform B R M -> pieces (c_p M) ls -> dot_free ls ->
  exists n, resolve base ref = Ok n /\ path_work S (set_mode n mode) <= 3 * (2 * length (c_p M) + 1).
Proof. intros HB D HR P Ps N. destruct (resolve_work S base ref B R M ls mode HB D HR P Ps) as (n & E & _ & X). exists n. split; [exact E|]. exact (X N). Qed.
Lemma normalize_bound S i C n l m (keep : bool) : reads S i C -> (if keep then normalize_preserve i else normalize i) = Ok n -> pieces (c_p C) l -> names l m ->
  path_work S n <= (2 * length (c_p C) + 1) * (2 * ((m + 7) / 8) + 3).
Proof. intros R E P. exact (proj1 (normalize_work S i C n l keep R E P) m). Qed.
Lemma normalize_plain S i C n l (keep : bool) : reads S i C -> (if keep then normalize_preserve i else normalize i) = Ok n -> pieces (c_p C) l -> dot_free l ->
  path_work S n <= 3 * (2 * length (c_p C) + 1).
Proof. intros R E P. exact (proj2 (normalize_work S i C n l keep R E P)). Qed.
