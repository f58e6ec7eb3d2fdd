(** * Debug output of the builder (proofs only). *)
From Coq Require Import String.
From Verif Require Import Base Chars Rfc3986 CompSpec RfcResolve EditSpec MValidate MTrusted MFormat MBuild MDebug DebugSpec
  PBase PAuth PTrusted PComps PTypes PSearch PNorm7 PEdit PBuild PBuild4.
Open Scope string_scope. Open Scope N_scope. Open Scope list_scope.

Lemma none_colon user : ~ In 58 user -> none (N.eqb 58) user = true.
Proof.
  induction user as [|x u IH]; intros H; [reflexivity|]. rewrite none_cons. destruct (N.eqb_spec 58 x) as [<-|_]; [elim H; now left|]. cbn [negb andb].
  apply IH. intros K. apply H. now right.
Qed.
Lemma carries_shown u user pw : carries u user pw -> pw <> [] ->
  dbg_userinfo u = DStruct (lit "UserinfoBuilder") [(lit "user", DStr user); (lit "password", DTuple (lit "Some") [DRaw (lit "{censored}")])].
Proof.
  intros H Hp. destruct H as [user pw|user pw Hu]; unfold dbg_userinfo, to_user_password.
  - destruct pw; [congruence|reflexivity].
  - unfold find_split. change COLON with 58. cbn [app].
    rewrite split_first_app; [reflexivity| |reflexivity].
    now apply none_colon.
Qed.

Lemma same_user_shown u u' : same_user u u' -> dbg_userinfo u = dbg_userinfo u'.
Proof. intros (user & pw & pw' & H & H' & N & N'). now rewrite (carries_shown _ _ _ H N), (carries_shown _ _ _ H' N'). Qed.
(** What the password does not influence. *)
Definition alike (b b' : Builder) : Prop :=
  b_scheme b = b_scheme b' /\ b_path b = b_path b' /\ b_query b = b_query b' /\ b_fragment b = b_fragment b' /\ b_normalize b = b_normalize b' /\
  match b_authority b, b_authority b' with
  | Some a, Some a' => ab_host a = ab_host a' /\ ab_port a = ab_port a' /\ (ab_userinfo a = ab_userinfo a' \/ same_user (ab_userinfo a) (ab_userinfo a'))
  | None, None => True
  | _, _ => False
  end.
Lemma alike_step b b' o o' : alike b b' -> same_call o o' -> alike (b_step b o) (b_step b' o').
Proof.
  destruct b as [s a p q f n], b' as [s' a' p' q' f' n']. unfold alike. cbn [b_scheme b_path b_query b_fragment b_normalize b_authority].
  intros (-> & -> & -> & -> & -> & A) [<-|(u & u' & -> & -> & U)].
  - destruct a as [[h o1 u]|], a' as [[h' o1' u']|]; try contradiction; cbn [ab_host ab_port ab_userinfo] in A.
    + destruct A as (-> & -> & A). destruct o; cbn; intuition auto.
    + destruct o; cbn; intuition auto.
  - destruct a as [[h o1 v]|], a' as [[h' o1' v']|]; try contradiction; cbn [ab_host ab_port ab_userinfo] in A; cbn; intuition auto.
Qed.
Lemma alike_fold l l' : Forall2 same_call l l' -> forall b b', alike b b' -> alike (fold_left b_step l b) (fold_left b_step l' b').
Proof. induction 1 as [|o o' l l' H F IH]; intros b b' G; [exact G|]. cbn [fold_left]. apply IH. now apply alike_step. Qed.
Lemma alike_steps l l' : Forall2 same_call l l' -> alike (b_steps l) (b_steps l').
Proof. intros F. apply alike_fold; [exact F|]. repeat split. Qed.
Lemma alike_shown b b' : alike b b' -> dbg_builder b = dbg_builder b'.
Proof.
  destruct b as [s a p q f n], b' as [s' a' p' q' f' n']. unfold alike. cbn [b_scheme b_path b_query b_fragment b_normalize b_authority].
  intros (-> & -> & -> & -> & -> & A). unfold dbg_builder. cbn [b_scheme b_path b_query b_fragment b_normalize b_authority].
  enough (E : dbg_option dbg_authority a = dbg_option dbg_authority a') by now rewrite E.
  destruct a as [[h o u]|], a' as [[h' o' u']|]; try contradiction; [|reflexivity]. cbn [ab_host ab_port ab_userinfo] in A. destruct A as (-> & -> & A).
  unfold dbg_option, dbg_authority. cbn [ab_host ab_port ab_userinfo]. destruct A as [->|U]; [reflexivity|]. now rewrite (same_user_shown _ _ U).
Qed.
Lemma history_shown l l' : Forall2 same_call l l' -> dbg_builder (b_steps l) = dbg_builder (b_steps l').
Proof. intros F. apply alike_shown, alike_steps, F. Qed.
Lemma alike_path b b' S : alike b b' -> check_path S b = check_path S b'.
Proof.
  destruct b as [s a p q f n], b' as [s' a' p' q' f' n']. unfold alike. cbn [b_scheme b_path b_query b_fragment b_normalize b_authority].
  intros (-> & -> & -> & -> & -> & A). unfold check_path. cbn [b_scheme b_path b_query b_fragment b_normalize b_authority].
  destruct a, a'; try contradiction; reflexivity.
Qed.
Lemma build_inv S t b x : build S t b = Ok x -> exists acc, check_path S b = Ok (acc, snd x) /\ fst x = b.
Proof.
  unfold build. intros H.
  repeat match type of H with bind ?r _ = _ => destruct r as [?|?|] eqn:?; cbn [bind] in H; try discriminate end.
  injection H as <-. cbn [fst snd].
  match goal with E : validate_builder_for_iri_reference S b = Ok _ |- _ => rename E into V end.
  unfold validate_builder_for_iri_reference in V.
  repeat match type of V with bind ?r _ = _ => destruct r as [?|?|] eqn:?; cbn [bind] in V; try discriminate end.
  match goal with E : up (check_path S b) = Ok ?p |- _ => destruct p as [acc abs]; rename E into U end.
  destruct (negb acc); [discriminate|].
  repeat match type of V with bind ?r _ = _ => destruct r as [?|?|] eqn:?; cbn [bind] in V; try discriminate end.
  injection V as ->. exists acc. split; [|reflexivity]. unfold up in U. destruct (check_path S b) as [?|[]|]; congruence.
Qed.
Lemma built_shown S t phantom l l' x x' : Forall2 same_call l l' -> build S t (b_steps l) = Ok x -> build S t (b_steps l') = Ok x' ->
  dbg_built phantom x = dbg_built phantom x'.
Proof.
  intros F B B'. destruct (build_inv _ _ _ _ B) as (acc & P & E), (build_inv _ _ _ _ B') as (acc' & P' & E'). destruct x as [b a], x' as [b' a']. cbn [fst snd] in *. subst b b'.
  rewrite (alike_path _ _ S (alike_steps _ _ F)), P' in P. injection P as -> ->. unfold dbg_built. cbn [fst snd]. now rewrite (history_shown _ _ F).
Qed.
Lemma from_shown S i i' C C' user pw pw' h o : ~ In 58 user -> pw <> [] -> pw' <> [] ->
  dissects S i C (Some (user_password user pw)) h o -> dissects S i' C' (Some (user_password user pw')) h o ->
  c_s C = c_s C' -> c_p C = c_p C' -> c_q C = c_q C' -> c_f C = c_f C' ->
  exists b b', builder_from i = Ok b /\ builder_from i' = Ok b' /\ dbg_builder b = dbg_builder b'.
Proof.
  intros Hu Hp Hp' D D' E1 E2 E3 E4.
  assert (K : forall i C pw, pw <> [] -> dissects S i C (Some (user_password user pw)) h o -> builder_from i = Ok (mkB (c_s C) (Some (mkAB (HostString h)
     (match o with Some o => PortString o | None => PortEmpty end) (UiDirect (user_password user pw)))) (c_p C) (c_q C) (c_f C) false)).
  { clear. intros i C pw Hp (R & A & Hu & Hh & Ho). pose proof R as [(_ & Ha & _) _]. destruct C as [s a p q f]. cbn [c_s c_a c_p c_q c_f] in *.
    unfold builder_from. rewrite (reads_major _ _ _ R). cbn [bind c_s c_a c_p c_q c_f]. subst a.
    destruct (authority_components_spec S _ Ha) as (u & h1 & o1 & X). cbv zeta in X. destruct X as (Eu & Eh & Eo & _ & _ & Es & Hu1 & Hh1 & Ho1).
    cbv zeta. rewrite Eu, Eh, Eo. cbn [bind].
    pose proof (authority_unique S _ _ _ _ _ _ Hu Hh Ho Hu1 Hh1 Ho1 (eq_sym Es)) as Q. injection Q as <- <- <-. reflexivity. }
  eexists _, _. split; [exact (K _ _ _ Hp D)|]. split; [exact (K _ _ _ Hp' D')|]. apply alike_shown.
  unfold alike. cbn. rewrite E1, E2, E3, E4. repeat split; auto. right. exists user, pw, pw'. repeat split; auto; constructor; auto.
Qed.
