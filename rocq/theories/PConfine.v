(** * References that do not leave a directory (C65). *)
From Verif Require Import Base Chars Rfc3986 CompSpec RfcResolve PctSpec NormSpec StepSpec ConfineSpec.
From Verif Require Import MValidate MTrusted MFormat MPct MPath MNormalize PBase PScan PPct PPct3 PPath5 PNorm2 PNorm3 PNorm6 PNorm7 PNorm8 PRds PBaseNorm PSteps2 PPath4.

Inductive levels : nat -> str -> str -> Prop :=
| lv_0 a : levels 0 a a
| lv_S k a o seg : levels k a o -> no_slash seg -> levels (Datatypes.S k) a (o ++ lit "/" ++ seg).
Lemma levels_tail k a o : levels k a o -> forall x, exists s, o ++ 47 :: x = a ++ 47 :: s.
Proof. induction 1 as [a|k a o seg L IH N]; intros x; [now exists x|]. destruct (IH (seg ++ 47 :: x)) as [s E]. exists s. rewrite <- E, <- !app_assoc. reflexivity. Qed.
Lemma ancestor_levels k A D : ancestor k A D -> forall a, A = a ++ [47] -> exists o, D = o ++ [47] /\ levels k a o.
Proof.
  induction 1 as [A HA|k A D seg HA IH N]; intros a E.
  - exists a. split; [exact E|constructor].
  - destruct (IH a E) as (o & -> & L). exists (o ++ lit "/" ++ seg). split; [now rewrite <- !app_assoc|now constructor].
Qed.
Lemma ancestor_form k A D : ancestor k A D -> A = [] \/ exists a, A = a ++ [47].
Proof. induction 1; auto. Qed.
Lemma slash_end o : rds_steps single_dot double_dot ([47], o) ([], o ++ [47]).
Proof.
  eapply rds_next; [|apply rds_refl]. apply (rds_E single_dot double_dot (lit "/") [] []); auto; try discriminate.
  - intros [].
  - intros [H|[H|H]]; discriminate.
  - intros (x & y & E & [H|[H|H]] & _); rewrite H in E; discriminate.
Qed.
Lemma walk_steps r l : in_segments r l -> forall k o a, walks k l -> levels k a o -> exists s, rds_steps single_dot double_dot (47 :: r, o) ([], a ++ 47 :: s).
Proof.
  induction 1 as [seg N|seg p l N H IH]; intros k o a W L.
  - inversion W as [|? ? ? Sd W'|k' ? ? Dd W'|? ? ? Ns Nd W']; subst.
    + destruct (levels_tail _ _ _ L []) as [s E]. exists s. rewrite <- E. eapply rds_next; [exact (rds_B' single_dot double_dot seg o Sd)|apply slash_end].
    + inversion L as [|? ? o' sg L' N']; subst. destruct (levels_tail _ _ _ L' []) as [s E]. exists s. rewrite <- E.
      eapply rds_next; [exact (rds_C' single_dot double_dot seg _ o' Dd (rl_slash o' sg N'))|apply slash_end].
    + destruct (levels_tail _ _ _ L seg) as [s E]. exists s. rewrite <- E. eapply rds_next; [|apply rds_refl].
      assert (X : rds_step single_dot double_dot (lit "/" ++ seg ++ [], o) ([], o ++ lit "/" ++ seg)) by (apply rds_E; auto; discriminate).
      rewrite app_nil_r in X. exact X.
  - inversion W as [|? ? ? Sd W'|k' ? ? Dd W'|? ? ? Ns Nd W']; subst.
    + destruct (IH k o a W' L) as [s R]. exists s. eapply rds_next; [exact (rds_B single_dot double_dot seg p o Sd)|exact R].
    + inversion L as [|? ? o' sg L' N']; subst. destruct (IH _ _ _ W' L') as [s R]. exists s.
      eapply rds_next; [exact (rds_C single_dot double_dot seg p _ o' Dd (rl_slash o' sg N'))|exact R].
    + destruct (IH _ _ _ W' (lv_S _ _ _ seg L N)) as [s R]. exists s. eapply rds_next; [|exact R].
      apply (rds_E single_dot double_dot (lit "/") seg (lit "/" ++ p)); auto; [discriminate|]. right. now exists p.
Qed.
Lemma confined_dir dir D r l k A z : rds (dir ++ lit "/") D -> in_segments r l -> walks k l -> ancestor k A D -> rds (dir ++ lit "/" ++ r) z -> exists s, z = A ++ s.
Proof.
  intros HD Hl Hw HA Hz. destruct (ancestor_form _ _ _ HA) as [->|[a ->]]; [now exists z|]. destruct (ancestor_levels _ _ _ HA a eq_refl) as (o & -> & L).
  destruct (rds_prefix r (length dir) dir [] _ (le_n _) HD) as [(o' & E & St)|(E & _)]; [|now destruct o].
  apply app_inj_tail in E. destruct E as [<- _]. destruct (walk_steps r l Hl k o a Hw L) as [s R]. exists s.
  rewrite (rds_fun _ _ _ Hz (steps_app _ _ _ _ _ St R)). now rewrite <- app_assoc.
Qed.
Lemma confined_path h b r l k d D A m z : (forall w, r <> lit "/" ++ w) -> in_segments r l -> walks k l ->
  merge h b r m -> (exists B, h = defined (c_a B) /\ b = c_p B /\ directory B d) -> rds d D -> ancestor k A D -> rds m z -> exists s, z = A ++ s.
Proof.
  intros Hr Hl Hw Hm (B & -> & -> & Hd) HD HA Hz. destruct (ancestor_form _ _ _ HA) as [->|[a ->]]; [now exists z|].
  destruct (ancestor_levels _ _ _ HA a eq_refl) as (o & -> & L).
  assert (K : forall dir, d = dir ++ lit "/" -> m = dir ++ lit "/" ++ r -> exists s, z = (a ++ [47]) ++ s).
  { intros dir -> ->. exact (confined_dir dir _ r l k _ z HD Hl Hw HA Hz). }
  inversion Hd as [dir last E N|Ha E|Ha N]; subst.
  - inversion Hm as [_ E2|dir' last' X E2 N'|X N']; subst.
    + rewrite E2 in E. now destruct dir.
    + assert (dir' = dir) as ->; [|now apply (K dir)].
      rewrite E in E2. destruct (last_unique (c_p B) last last') as [].
      * exists (dir ++ lit "/"). rewrite E, <- app_assoc. split; [reflexivity|]. split; auto. right. now exists dir.
      * exists (dir' ++ lit "/"). rewrite E, E2, <- app_assoc. split; [reflexivity|]. split; auto. right. now exists dir'.
      * rewrite !app_assoc in E2. apply app_inv_tail in E2. apply app_inj_tail in E2. now symmetry.
    + elim N'. rewrite E. apply in_or_app. right. now left.
  - apply (K []); [reflexivity|]. inversion Hm as [_ E2|dir' last' X E2 N'|X N']; subst; [reflexivity| |]; elim X; auto.
  - assert (X : o ++ [47] = []); [|now destruct o]. apply (rds_fun [] _ _ HD). apply rds_refl.
Qed.

Lemma in_segments_split s l : in_segments s l -> forall seg, In seg l ->
  no_slash seg /\ exists a b, s = a ++ seg ++ b /\ (a = [] \/ exists a', a = a' ++ lit "/") /\ (b = [] \/ exists b', b = lit "/" ++ b').
Proof.
  induction 1 as [sg N|sg p l N H IH]; intros seg [<-|I].
  - split; auto. exists [], []. rewrite app_nil_r. auto.
  - destruct I.
  - split; auto. exists [], (lit "/" ++ p). repeat split; eauto.
  - destruct (IH seg I) as (Ns & a & b & -> & Ha & Hb). split; auto. exists (sg ++ lit "/" ++ a), b. rewrite <- !app_assoc. repeat split; auto.
    right. destruct Ha as [->|[a' ->]]; [exists sg; now rewrite app_nil_r|exists (sg ++ lit "/" ++ a'); now rewrite <- !app_assoc].
Qed.
Lemma tail_dotless p A s : rds p (A ++ s) -> A = [] \/ (exists a, A = a ++ [47]) -> without_dots s.
Proof.
  intros R HA l seg Hl I. destruct (in_segments_split s l Hl seg I) as (N & a & b & -> & Ha & Hb).
  apply (c12_no_dots p (A ++ a ++ seg ++ b) (A ++ a) seg b); auto; [now rewrite <- !app_assoc|].
  destruct Ha as [->|[a' ->]]; [|right; exists (A ++ a'); now rewrite app_assoc].
  rewrite app_nil_r. exact HA.
Qed.
Lemma rel_transform B R T : transform B R T -> defined (c_s R) = false -> defined (c_a R) = false -> c_p R <> [] -> (forall w, c_p R <> lit "/" ++ w) ->
  exists m p, merge (defined (c_a B)) (c_p B) (c_p R) m /\ rds m p /\ T = mkC (c_s B) (c_a B) p (c_q R) (c_f R).
Proof.
  intros H Hs Ha Hp Hr. destruct H as [p X|p X Y|X Y Z|r p X Y Z|m p X Y Z U M P]; try congruence. now exists m, p.
Qed.
Lemma c65_confined S base ref B R l k d D A : reads S base B -> defined (c_s B) = true -> reads S ref R ->
  defined (c_s R) = false -> defined (c_a R) = false -> c_p R <> [] -> (forall w, c_p R <> lit "/" ++ w) ->
  in_segments (c_p R) l -> walks k l -> directory B d -> rds d D -> ancestor k A D ->
  exists n out T s, resolve base ref = Ok n /\ display S n = Ok out /\ reads S out T /\ c_s T = c_s B /\ c_a T = c_a B /\
    c_p T = safe_path (c_a B) (A ++ s) /\ without_dots s /\ c_q T = c_q R /\ c_f T = c_f R.
Proof.
  intros HB DB HR Hs Ha Hp Hr Hl Hw Hd HD HA. destruct (resolve_spec S base ref B R HB DB HR) as (n & T & H1 & Tr & _ & H2 & H3 & _).
  destruct (rel_transform _ _ _ Tr Hs Ha Hp Hr) as (m & p & Hm & Hz & ->).
  destruct (confined_path _ _ _ l k d D A m p Hr Hl Hw Hm (ex_intro _ B (conj eq_refl (conj eq_refl Hd))) HD HA Hz) as [s ->].
  eexists n, _, _, s. split; [exact H1|]. split; [exact H2|]. split; [exact H3|]. repeat split; cbn [reread c_s c_a c_p c_q c_f]; auto;
  eapply tail_dotless; eauto using ancestor_form.
Qed.
Lemma c65_origin S base ref B R : reads S base B -> defined (c_s B) = true -> reads S ref R -> defined (c_s R) = false -> defined (c_a R) = false ->
  exists n out T, resolve base ref = Ok n /\ display S n = Ok out /\ reads S out T /\ c_s T = c_s B /\ c_a T = c_a B.
Proof.
  intros HB DB HR Hs Ha. destruct (resolve_spec S base ref B R HB DB HR) as (n & T & H1 & Tr & _ & H2 & H3 & _).
  eexists n, _, _. split; [exact H1|]. split; [exact H2|]. split; [exact H3|]. inversion Tr; subst; cbn; try congruence; auto.
Qed.
Lemma split_normal S A s t : pct_normal S (A ++ s) t -> A = [] \/ (exists a, A = a ++ [47]) -> exists A' s', t = A' ++ s' /\ pct_normal S A A' /\ (A' = [] \/ exists a, A' = a ++ [47]).
Proof.
  intros Pq [->|[a ->]]; [exists [], t; repeat split; [constructor|now left]|].
  rewrite <- app_assoc in Pq. assert (Wa : pct_wf a) by (apply pn_wf_l in Pq; apply (wf_slash_dir a s) in Pq; tauto).
  destruct (pn_split S 47 a s _ Pq ltac:(discriminate) Wa) as (ta & tb & -> & Pa & _). exists (ta ++ [47]), tb. rewrite <- app_assoc. repeat split; eauto.
  apply pn_app_delim; auto; [discriminate|constructor].
Qed.
Lemma c65_normalized S base ref B R l k d D A : reads S base B -> defined (c_s B) = true -> reads S ref R ->
  defined (c_s R) = false -> defined (c_a R) = false -> c_p R <> [] -> (forall w, c_p R <> lit "/" ++ w) ->
  in_segments (c_p R) l -> walks k l -> directory B d -> rds d D -> ancestor k A D ->
  exists n out T A' s, resolve base ref = Ok n /\ display S (set_mode n MDefault) = Ok out /\ reads S out T /\
    opt_rel (fun x y => y = map lower x) (c_s B) (c_s T) /\ opt_rel (authority_normal S) (c_a B) (c_a T) /\ pct_normal S A A' /\
    c_p T = safe_path (c_a T) (A' ++ s) /\ without_dots s.
Proof.
  intros HB DB HR Hs Ha Hp Hr Hl Hw Hd HD HA.
  destruct (c11_and_normalize S base ref B R HB DB HR) as (n & T0 & T & H1 & Tr & NT & H2).
  assert (L : loose_ok S T) by (eapply normal_loose; [|exact NT]; eapply (target_loose S B R); eauto; [apply HB|apply HR]).
  destruct NT as (Ns & Na & Np & _).
  destruct (rel_transform _ _ _ Tr Hs Ha Hp Hr) as (m & p & Hm & Hz & ->).
  destruct (confined_path _ _ _ l k d D A m p Hr Hl Hw Hm (ex_intro _ B (conj eq_refl (conj eq_refl Hd))) HD HA Hz) as [s ->].
  cbn [c_a c_p c_s] in Ns, Na, Np. apply path_normal_alt in Np. destruct Np as (q & Rq & Pq & W). rewrite (rds_fun _ _ _ Rq (rds_idem _ _ Hz)) in Pq. clear q Rq.
  assert (Dt : rds (c_p T) (c_p T)) by (apply dotless_rds; eapply pn_dotless; [eapply rds_dotless; exact Hz|exact Pq]).
  pose proof (split_normal S A s _ Pq (ancestor_form _ _ _ HA)) as X.
  destruct X as (A' & s' & ET2 & PA & FA). eexists n, _, (reread T), A', s'. split; [exact H1|]. split; [exact H2|].
  split; [exact (proj1 (reread_reads S T L))|cbn [reread c_s c_a c_p]; split; [exact Ns|split; [exact Na|split; [exact PA|split; [now rewrite <- ET2|rewrite ET2 in Dt; eapply tail_dotless; eauto]]]]].
Qed.
Lemma segments_total p : exists l, in_segments p l.
Proof.
  induction p as [|c p [l IH]]; [exists [[]]; constructor; intros []|]. destruct (N.eq_dec c 47) as [->|Hc].
  - exists ([] :: l). apply (is_next [] p l); auto. intros [].
  - inversion IH as [seg N|seg q l' N K]; subst.
    + exists [c :: p]. constructor. intros [->|X]; auto.
    + exists ((c :: seg) :: l'). apply (is_next (c :: seg) q l'); auto. intros [->|X]; auto.
Qed.
Lemma directory_total S s B : reads S s B -> exists d D, directory B d /\ rds d D.
Proof.
  intros [H _]. assert (X : exists d, directory B d); [|destruct X as [d X]; destruct (rds_total d) as [D Y]; now exists d, D].
  destruct (last_slash (c_p B)) as [N|(dir & last & E & N)]; [|exists (dir ++ lit "/"); now apply (dir_path B dir last)].
  destruct (defined (c_a B)) eqn:Ea; [|exists []; now apply dir_none]. exists (lit "/"). apply dir_root; auto.
  destruct H as (_ & _ & _ & _ & Hp). destruct (c_a B) as [a|]; [|discriminate].
  apply path_abempty_scan in Hp. destruct Hp as [E|(r & E & _)]; auto. elim N. rewrite E. now left.
Qed.
Lemma directory_form B d D : directory B d -> rds d D -> D = [] \/ exists a, D = a ++ lit "/".
Proof.
  intros [dir last E N|Ha E|Ha N] R.
  - exact (proj1 (rds_dir dir D [] R)).
  - exact (proj1 (rds_dir [] D [] R)).
  - left. symmetry. apply (rds_fun [] [] D); auto. apply rds_refl.
Qed.
Lemma c65_below S base ref B R l d D : reads S base B -> defined (c_s B) = true -> reads S ref R ->
  defined (c_s R) = false -> defined (c_a R) = false -> c_p R <> [] -> (forall w, c_p R <> lit "/" ++ w) ->
  in_segments (c_p R) l -> walks 0 l -> directory B d -> rds d D ->
  exists n out T s, resolve base ref = Ok n /\ display S n = Ok out /\ reads S out T /\ c_s T = c_s B /\ c_a T = c_a B /\
    c_p T = safe_path (c_a B) (D ++ s) /\ without_dots s /\ c_q T = c_q R /\ c_f T = c_f R.
Proof. intros. eapply (c65_confined S base ref B R l 0 d D D); eauto. constructor. eapply directory_form; eauto. Qed.
Lemma c65_applies S base ref B R : reads S base B -> reads S ref R -> exists l d D, in_segments (c_p R) l /\ directory B d /\ rds d D.
Proof. intros HB _. destruct (segments_total (c_p R)) as [l Hl], (directory_total S base B HB) as (d & D & X & Y). now exists l, d, D. Qed.
Lemma c65_normalize S i C dir r l k D A : reads S i C -> defined (c_s C) = true -> c_p C = dir ++ lit "/" ++ r -> in_segments r l -> walks k l ->
  rds (dir ++ lit "/") D -> ancestor k A D ->
  exists n out T A' s, normalize i = Ok n /\ display S n = Ok out /\ reads S out T /\
    opt_rel (fun x y => y = map lower x) (c_s C) (c_s T) /\ opt_rel (authority_normal S) (c_a C) (c_a T) /\ pct_normal S A A' /\
    c_p T = safe_path (c_a T) (A' ++ s) /\ without_dots s.
Proof.
  intros HC DC Ep Hl Hw HD HA. destruct (norm_spec S false i C HC DC) as (n & T & E & (Ns & Na & Np & _) & _ & Dn & Rt & _).
  apply path_normal_alt in Np. destruct Np as (q & Rq & Pq & _). rewrite Ep in Rq. destruct (confined_dir dir D r l k A q HD Hl Hw HA Rq) as [s ->].
  assert (Dt : rds (c_p T) (c_p T)) by (apply dotless_rds; eapply pn_dotless; [eapply rds_dotless; exact Rq|exact Pq]).
  destruct (split_normal S A s _ Pq (ancestor_form _ _ _ HA)) as (A' & s' & ET & PA & FA).
  exists n, (unparse T), (reread T), A', s'. split; [exact E|]. split; [exact Dn|]. split; [exact Rt|]. cbn [reread c_s c_a c_p].
  split; [exact Ns|]. split; [exact Na|]. split; [exact PA|]. split; [now rewrite <- ET|]. rewrite ET in Dt. eapply tail_dotless; eauto.
Qed.
(** For the examples. *)
Lemma rds_of S p t : text (fmt_write_normalize S MNone false (from_single_path p)) = Ok t -> starts_with (lit "/./") t = false -> rds p t.
Proof.
  intros E N. destruct (c12_single S p) as (t' & R & E'). rewrite E in E'. assert (t = safe_path None t') as -> by congruence. clear E E'.
  unfold safe_path in *. destruct (starts_with (lit "//") t') eqn:X; [|exact R]. exfalso. apply starts_slash_iff in X. destruct X as [r ->]. discriminate N.
Qed.
Lemma down_of seg : from_segment seg = Normal -> ~ single_dot seg /\ ~ double_dot seg.
Proof. apply from_segment_normal. Qed.
