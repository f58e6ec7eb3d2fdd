(** * Proofs for C76. *)
From Verif Require Import Base Chars Rfc3986 Utf8 CompSpec RfcResolve PctSpec NormSpec EncodeSpec EditSpec ViewSpec
  MValidate MTrusted MFormat MPct MPath MNormalize MEncode PBase PScan PHost PTypes PPct PPct2 PPct3 PEncode PEncode2 PDecode PPath PPath2 PPath4 PPath5 PRds
  PNorm PNorm2 PNorm7 PNorm8 PBaseNorm PCommute PEditNorm.

Notation slashed := (flat_map (fun x => lit "/" ++ x)).

(** ** Walking along the text *)
Lemma slashed_app l k : slashed (l ++ k) = slashed l ++ slashed k.
Proof. apply flat_map_app. Qed.
Lemma removelast_snoc {A} (l : list A) x : removelast (l ++ [x]) = l.
Proof. apply removelast_last. Qed.
Lemma drop_last o : Forall no_slash o -> remove_last (slashed o) (slashed (removelast o)).
Proof.
  intros H. destruct o as [|g o] using rev_ind; [apply (rl_none []); intros []|]. rewrite removelast_snoc, slashed_app.
  apply Forall_app in H. destruct H as [_ H]. inversion_clear H. cbn [flat_map]. rewrite app_nil_r. apply rl_slash. assumption.
Qed.
Lemma removelast_all {A} (P : A -> Prop) l : Forall P l -> Forall P (removelast l).
Proof.
  intros H. destruct l as [|g l] using rev_ind; [constructor|]. rewrite removelast_snoc. now apply Forall_app in H.
Qed.
Section Walk.
Variables (dot dotdot : lang) (bd bdd : str -> bool).
Hypothesis no_dot : ~ dot [].
Hypothesis no_dotdot : ~ dotdot [].
Definition known (x : str) : Prop := no_slash x /\ (dot x <-> bd x = true) /\ (dotdot x <-> bdd x = true).
Lemma end_slash o : rds_steps dot dotdot ([47], o) ([], o ++ [47]).
Proof.
  eapply rds_next; [|apply rds_refl]. apply (rds_E dot dotdot (lit "/") [] []); auto; try discriminate. intros [].
Qed.
Lemma visit_steps l : forall o, l <> [] -> Forall known l -> Forall no_slash o ->
  rds_steps dot dotdot (slashed l, slashed o) ([], slashed (visit bd bdd [] o l)).
Proof.
  induction l as [|x l IH]; intros o Hl Hk Ho; [now elim Hl|]. inversion_clear Hk as [|? ? (Nx & Dx & Ddx) Hk'].
  assert (E : forall y k, slashed (x :: y :: k) = lit "/" ++ x ++ lit "/" ++ (y ++ slashed k)) by (intros; cbn [flat_map]; now rewrite <- !app_assoc).
  assert (E1 : slashed [x] = lit "/" ++ x) by (cbn [flat_map]; now rewrite app_nil_r).
  cbn [visit]. destruct (bd x) eqn:B1; [|destruct (bdd x) eqn:B2].
  - destruct l as [|y l].
    + cbn [visit]. rewrite slashed_app, E1. eapply rds_next; [apply rds_B'; now apply Dx|]. cbn [flat_map]. apply end_slash.
    + rewrite E. eapply rds_next; [apply rds_B; now apply Dx|].
      replace (lit "/" ++ y ++ slashed l) with (slashed (y :: l)) by (cbn [flat_map]; now rewrite <- app_assoc). apply IH; auto. discriminate.
  - destruct l as [|y l].
    + cbn [visit]. rewrite slashed_app, E1. eapply rds_next; [apply rds_C'; [now apply Ddx|now apply drop_last]|]. cbn [flat_map]. apply end_slash.
    + rewrite E. eapply rds_next; [apply rds_C; [now apply Ddx|now apply drop_last]|].
      replace (lit "/" ++ y ++ slashed l) with (slashed (y :: l)) by (cbn [flat_map]; now rewrite <- app_assoc). apply IH; auto; [discriminate|now apply removelast_all].
  - assert (X : rds_step dot dotdot (slashed (x :: l), slashed o) (slashed l, slashed (o ++ [x]))).
    { cbn [flat_map]. rewrite slashed_app, <- app_assoc. cbn [flat_map]. rewrite app_nil_r. apply (rds_E dot dotdot (lit "/") x (slashed l)); auto; try discriminate.
      - intros X. apply Dx in X. congruence.
      - intros X. apply Ddx in X. congruence.
      - destruct l as [|y l]; [now left|right]. cbn [flat_map]. rewrite <- app_assoc. now eexists. }
    destruct l as [|y l]; [cbn [visit]; eapply rds_next; [exact X|apply rds_refl]|].
    eapply rds_next; [exact X|]. apply IH; [discriminate|exact Hk'|]. apply Forall_app. split; [exact Ho|]. now constructor.
Qed.
Lemma visit_all (P : str -> Prop) l : P [] -> forall o, Forall P o -> Forall P l -> Forall P (visit bd bdd [] o l).
Proof.
  intros P0. induction l as [|x l IH]; intros o Ho Hl; [exact Ho|]. inversion_clear Hl. cbn [visit].
  assert (Hr := removelast_all P o Ho).
  destruct (bd x); [|destruct (bdd x)]; apply IH; auto; try destruct l; auto; apply Forall_app; auto.
Qed.
End Walk.
Lemma visit_map {A B} (f : A -> B) d dd d' dd' e l : Forall (fun x => d' (f x) = d x /\ dd' (f x) = dd x) l -> forall o,
  map f (visit d dd e o l) = visit d' dd' (f e) (map f o) (map f l).
Proof.
  assert (M : forall o, map f (removelast o) = removelast (map f o)).
  { intros o. destruct o as [|g o] using rev_ind; [reflexivity|]. rewrite map_app. cbn [map]. now rewrite !removelast_snoc. }
  induction 1 as [|x l [E1 E2] H IH]; intros o; [reflexivity|]. cbn [visit map]. rewrite E1, E2.
  destruct (d x); [|destruct (dd x)]; rewrite IH; f_equal; destruct l; cbn [map]; rewrite ?map_app, ?M; reflexivity.
Qed.

(** ** Decoding *)
Lemma decoded_of s b : denotes s b -> decoded s = b.
Proof. intros H. exact (proj1 (denotes_decode s b H)). Qed.
Lemma decoded_normal S s t : pct_normal S s t -> decoded t = decoded s.
Proof.
  intros P. destruct (denotes_ex s) as (b & D); [eapply pn_wf_l; exact P|]. rewrite (decoded_of s b D). apply decoded_of. eapply pn_denotes; eauto.
Qed.
Lemma utf8_dot c b r : utf8 c ++ b = 46 :: r -> c = 46 /\ b = r.
Proof.
  unfold utf8. destruct (c <? 128) eqn:E; [cbn [app]; intros [= -> ->]; auto|].
  destruct (c <? 2048), (c <? 65536); cbn [app]; intros H; exfalso; apply (f_equal (@hd N 0)) in H; unfold hd in H; lia.
Qed.
Lemma hex_2e u l : HEXDIG u = true -> HEXDIG l = true -> 16 * hex_value u + hex_value l = 46 -> u = 50 /\ (l = 69 \/ l = 101).
Proof.
  unfold HEXDIG, hex_value, DIGIT, between. intros H1 H2. repeat match goal with |- context [if ?b then _ else _] => destruct b eqn:? end; intros; lia.
Qed.
Lemma denotes_dot s b : denotes s (46 :: b) -> exists d m, s = d ++ m /\ a_dot d /\ denotes m b.
Proof.
  intros H. remember (46 :: b) as x eqn:E. destruct H as [|c s y Hc H|u l s y Hu Hl H]; [discriminate| |].
  - apply utf8_dot in E. destruct E as [-> ->]. exists (lit "."), s. split; [reflexivity|]. split; [now left|exact H].
  - injection E as E ->. destruct (hex_2e u l Hu Hl E) as [-> [-> | ->]].
    + exists (lit "%2E"), s. split; [reflexivity|]. split; [right; now left|exact H].
    + exists (lit "%2e"), s. split; [reflexivity|]. split; [right; now right|exact H].
Qed.
Lemma denotes_nil s : denotes s [] -> s = [].
Proof. intros H. inversion H as [|c s' b Hc Hs E|]; subst; [reflexivity|]. exfalso. apply app_eq_nil in H0. destruct H0 as [H0 _]. revert H0. unfold utf8. destruct (c <? 128), (c <? 2048), (c <? 65536); discriminate. Qed.
Lemma dot_denotes d m b : a_dot d -> denotes m b -> denotes (d ++ m) (46 :: b).
Proof.
  intros [-> | [-> | ->]] H.
  - apply (dn_raw 46); [discriminate|exact H].
  - apply (dn_trip 50 69); [reflexivity|reflexivity|exact H].
  - apply (dn_trip 50 101); [reflexivity|reflexivity|exact H].
Qed.
Lemma single_decoded s : pct_wf s -> (single_dot s <-> seqb (lit ".") (decoded s) = true).
Proof.
  intros W. destruct (denotes_ex s W) as (b & D). rewrite (decoded_of s b D), seqb_eq. split.
  - intros H. assert (X := dot_denotes s [] [] H dn_nil). rewrite app_nil_r in X. exact (denotes_fun _ _ X _ D).
  - intros <-. apply denotes_dot in D. destruct D as (d & m & -> & Hd & Hm). apply denotes_nil in Hm. subst m. rewrite app_nil_r. exact Hd.
Qed.
Lemma double_decoded s : pct_wf s -> (double_dot s <-> seqb (lit "..") (decoded s) = true).
Proof.
  intros W. destruct (denotes_ex s W) as (b & D). rewrite (decoded_of s b D), seqb_eq. split.
  - intros (x & y & -> & Hx & Hy). assert (X := dot_denotes y [] [] Hy dn_nil). rewrite app_nil_r in X. exact (denotes_fun _ _ (dot_denotes x y _ Hx X) _ D).
  - intros <-. apply denotes_dot in D. destruct D as (d & m & -> & Hd & Hm). apply denotes_dot in Hm. destruct Hm as (d' & m' & -> & Hd' & Hm).
    apply denotes_nil in Hm. subst m'. rewrite app_nil_r. now exists d, d'.
Qed.
(** ** The path *)
Lemma single_nil : ~ single_dot []. Proof. intros [H|[H|H]]; discriminate. Qed.
Lemma double_nil : ~ double_dot []. Proof. intros (x & y & E & [H|[H|H]] & _); rewrite H in E; discriminate. Qed.
Lemma segments_wf l : pct_wf (slashed l) -> Forall pct_wf l.
Proof.
  intros W. induction l as [|x l IH]; [constructor|]. cbn [flat_map] in W. inversion W as [|c s Hc W'|]; subst.
  destruct l as [|y l]; [cbn [flat_map app] in W'; rewrite app_nil_r in W'; repeat constructor; exact W'|].
  assert (W2 : pct_wf (x ++ 47 :: y ++ slashed l)) by (cbn [app flat_map] in W'; exact W'). apply wf_slash_dir in W2. destruct W2 as [W2 W3]. constructor; [exact W2|]. apply IH.
  cbn [flat_map app]. constructor; [discriminate|exact W3].
Qed.
Lemma rds_walk p t l : rds p t -> path_segments p l -> pct_wf p -> exists k, path_segments t k /\ map decoded k = walked (map decoded l).
Proof.
  intros R [-> Hn] W.
  pose proof (segments_wf l W) as Wl.
  set (bd := fun s => seqb (lit ".") (decoded s)). set (bdd := fun s => seqb (lit "..") (decoded s)).
  exists (visit bd bdd [] [] l). assert (K : Forall (known single_dot double_dot bd bdd) l).
  { rewrite Forall_forall in Hn, Wl |- *. intros x Hx. split; [now apply Hn|]. split; [apply single_decoded|apply double_decoded]; auto. }
  split; [split; [|apply visit_all; auto; intros []]|].
  - destruct l as [|x l].
    + cbn. eapply rds_fun; [exact R|]. apply rds_refl.
    + eapply rds_fun; [exact R|]. exact (visit_steps single_dot double_dot bd bdd single_nil double_nil (x :: l) [] ltac:(discriminate) K ltac:(constructor)).
  - unfold walked. rewrite (visit_map decoded bd bdd (seqb (lit ".")) (seqb (lit ".."))); [reflexivity|]. rewrite Forall_forall. auto.
Qed.
Lemma normal_segments S l : forall t, Forall pct_wf l -> pct_normal S (slashed l) t -> exists k, t = slashed k /\ Forall2 (pct_normal S) l k.
Proof.
  induction l as [|x l IH]; intros t W P.
  - exists []. split; [|constructor]. exact (pn_fun _ _ _ P _ (pn_nil S)).
  - inversion_clear W as [|? ? Wx Wl].
    destruct (pn_split S 47 [] (x ++ slashed l) t P ltac:(discriminate) wf_nil) as (ta & tb & -> & Pa & Pb). rewrite <- (pn_fun _ _ _ (pn_nil S) _ Pa). cbn [app].
    destruct l as [|y l].
    + cbn [flat_map] in Pb. rewrite app_nil_r in Pb. exists [tb]. split; [cbn [flat_map]; now rewrite app_nil_r|]. constructor; [exact Pb|constructor].
    + assert (Pb' : pct_normal S (x ++ 47 :: (y ++ slashed l)) tb) by exact Pb.
      destruct (pn_split S 47 _ _ _ Pb' ltac:(discriminate) Wx) as (tx & tr & -> & Px & Pr).
      assert (Pk : pct_normal S (slashed (y :: l)) (47 :: tr)) by (apply pn_raw; [discriminate|exact Pr]).
      destruct (IH _ Wl Pk) as (k & E & F). exists (tx :: k). split; [|now constructor]. cbn [flat_map]. rewrite <- E. reflexivity.
Qed.
Lemma normal_walk S p q t l : pct_normal S p q -> rds_literal q t -> path_segments p l -> pct_wf p -> exists k, path_segments t k /\ map decoded k = walked (map decoded l).
Proof.
  intros P R [-> Hn] W. pose proof (segments_wf l W) as Wl. destruct (normal_segments S l q Wl P) as (m & -> & F).
  set (bd := seqb (lit ".")). set (bdd := seqb (lit "..")).
  exists (visit bd bdd [] [] m).
  assert (X : Forall no_slash m /\ map decoded m = map decoded l /\ Forall (fun x => seqb (lit ".") (decoded x) = bd x /\ seqb (lit "..") (decoded x) = bdd x) m).
  { clear R P W. induction F as [|x y l m Pxy F IH]; [repeat split; constructor|]. inversion_clear Hn. inversion_clear Wl. destruct (IH H0 H2) as (I1 & I2 & I3).
    split; [constructor; [eapply pn_no_slash; eauto|exact I1]|]. split; [cbn [map]; now rewrite I2, (decoded_normal S x y Pxy)|]. constructor; [|exact I3].
    rewrite (decoded_normal S x y Pxy). unfold bd, bdd. split; apply Bool.eq_iff_eq_true.
    - rewrite <- single_decoded by assumption. rewrite <- from_segment_dot, (kind_dot S x) by assumption. rewrite (pnf_eq S x y Pxy), seqb_eq. now split; intros ->.
    - rewrite <- double_decoded by assumption. rewrite <- from_segment_dotdot, (kind_dotdot S x) by assumption. rewrite (pnf_eq S x y Pxy), seqb_eq. now split; intros ->. }
  destruct X as (X1 & X2 & X3). split; [split; [|apply visit_all; auto; intros []]|].
  - destruct m as [|x m]; [exact (rds_literal_fun _ _ _ R (rds_refl _ _ _))|]. eapply rds_literal_fun; [exact R|].
    apply (visit_steps (tok ".") (tok "..") bd bdd) with (o := []); [intros H; discriminate|intros H; discriminate|discriminate| |constructor].
    rewrite Forall_forall in X1 |- *. intros y Hy. split; [now apply X1|]. unfold tok, bd, bdd. rewrite !seqb_eq. split; split; intros H; symmetry; exact H.
  - unfold walked. rewrite <- X2. now rewrite (visit_map decoded bd bdd (seqb (lit ".")) (seqb (lit ".."))).
Qed.
