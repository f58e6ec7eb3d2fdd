(** * Basic lemmas (proofs only). *)
From Verif Require Import Base Chars Rfc3986 MValidate.
From Coq Require Export ZifyBool ZifyNat ZifyN.

Ltac bdestr :=
  repeat match goal with
  | H : _ && _ = true |- _ => apply andb_prop in H; destruct H
  | H : negb _ = true |- _ => apply negb_true_iff in H
  | H : negb _ = false |- _ => apply negb_false_iff in H
  end.

Definition none (p : N -> bool) (s : str) : bool := forallb (fun x => negb (p x)) s.

Lemma forallb_app' {A} (f : A -> bool) a b : forallb f (a ++ b) = forallb f a && forallb f b.
Proof. apply forallb_app. Qed.

Lemma forallb_impl {A} (f g : A -> bool) s :
  (forall x, f x = true -> g x = true) -> forallb f s = true -> forallb g s = true.
Proof.
  intros H; induction s as [|c r IH]; cbn; [easy|]; intros E; bdestr.
  rewrite H by assumption; cbn; auto.
Qed.

Lemma forallb_ext' {A} (f g : A -> bool) s : (forall x, f x = g x) -> forallb f s = forallb g s.
Proof. intros H; induction s as [|c r IH]; cbn; [easy|]; now rewrite H, IH. Qed.

Lemma none_app p a b : none p (a ++ b) = none p a && none p b.
Proof. apply forallb_app. Qed.

Lemma none_cons p c r : none p (c :: r) = negb (p c) && none p r.
Proof. reflexivity. Qed.

Lemma split_first_some p s a c b :
  split_first p s = Some (a, c, b) -> s = a ++ c :: b /\ none p a = true /\ p c = true.
Proof.
  revert a; induction s as [|x r IH]; intros a; cbn; [discriminate|].
  destruct (p x) eqn:Hp.
  - intros [= <- <- <-]; auto.
  - destruct (split_first p r) as [[[a' c'] b']|] eqn:E; [|discriminate].
    intros [= <- <- <-]. destruct (IH a' eq_refl) as (-> & Hn & Hc).
    cbn; rewrite Hp; auto.
Qed.

Lemma split_first_none p s : split_first p s = None -> none p s = true.
Proof.
  induction s as [|x r IH]; cbn; [easy|]. destruct (p x); [discriminate|].
  destruct (split_first p r) as [[[? ?] ?]|]; [discriminate|]. cbn; auto.
Qed.

Lemma split_first_app p a c b :
  none p a = true -> p c = true -> split_first p (a ++ c :: b) = Some (a, c, b).
Proof.
  induction a as [|x a IH]; cbn; intros Ha Hc; [now rewrite Hc|].
  bdestr. match goal with H : p x = false |- _ => rewrite H end. now rewrite IH.
Qed.

Lemma split_first_none_app p a : none p a = true -> split_first p a = None.
Proof.
  induction a as [|x a IH]; cbn; intros Ha; [easy|]. bdestr.
  match goal with H : p x = false |- _ => rewrite H end. now rewrite IH.
Qed.

Lemma split_last_some p s a c b :
  split_last p s = Some (a, c, b) -> s = a ++ c :: b /\ none p b = true /\ p c = true.
Proof.
  revert a; induction s as [|x r IH]; intros a; cbn; [discriminate|].
  destruct (split_last p r) as [[[a' c'] b']|] eqn:E.
  - intros [= <- <- <-]. destruct (IH a' eq_refl) as (-> & Hn & Hc). auto.
  - destruct (p x) eqn:Hp; [|discriminate]. intros [= <- <- <-].
    repeat split; auto. clear IH. induction r as [|y r IH]; cbn in *; [easy|].
    destruct (split_last p r) as [[[? ?] ?]|]; [discriminate|].
    destruct (p y) eqn:Hy; [discriminate|]. cbn; auto.
Qed.

Lemma split_last_none_app p a : none p a = true -> split_last p a = None.
Proof.
  induction a as [|x a IH]; cbn; intros Ha; [easy|]. bdestr.
  rewrite IH by assumption. match goal with H : p x = false |- _ => now rewrite H end.
Qed.

Lemma split_last_none p s : split_last p s = None -> none p s = true.
Proof.
  induction s as [|x r IH]; cbn; [easy|].
  destruct (split_last p r) as [[[? ?] ?]|]; [discriminate|].
  destruct (p x); [discriminate|]; cbn; auto.
Qed.

Lemma split_last_app p a c b :
  none p b = true -> p c = true -> split_last p (a ++ c :: b) = Some (a, c, b).
Proof.
  induction a as [|x a IH]; cbn; intros Hb Hc.
  - now rewrite split_last_none_app, Hc.
  - now rewrite IH.
Qed.

Lemma split_first_ext p q s : (forall c, p c = q c) -> split_first p s = split_first q s.
Proof. intros H; induction s as [|c r IH]; cbn; [easy|]. now rewrite H, IH. Qed.

(** Uniqueness of splitting at the first occurrence. *)
Lemma first_unique p a c b a' c' b' :
  a ++ c :: b = a' ++ c' :: b' -> none p a = true -> p c = true ->
  none p a' = true -> p c' = true -> a = a' /\ c = c' /\ b = b'.
Proof.
  intros E Ha Hc Ha' Hc'.
  pose proof (split_first_app p a c b Ha Hc) as H1.
  rewrite E, (split_first_app p a' c' b' Ha' Hc') in H1. now inversion H1.
Qed.

Lemma strip_prefix_some p s r : strip_prefix p s = Some r <-> s = p ++ r.
Proof.
  revert s; induction p as [|x p IH]; intros s; cbn.
  - split; [now intros [= ->] | now intros ->].
  - destruct s as [|y s]; [easy|]. destruct (N.eqb_spec x y) as [->|Hne].
    + rewrite IH. split; [now intros -> | now intros [= ->]].
    + split; [easy | intros [= E _]; congruence].
Qed.

Lemma strip_prefix_none p s : strip_prefix p s = None <-> forall r, s <> p ++ r.
Proof.
  split.
  - intros H r E. apply strip_prefix_some in E. congruence.
  - intros H. destruct (strip_prefix p s) as [r|] eqn:E; [|easy].
    apply strip_prefix_some in E. now apply H in E.
Qed.

Lemma starts_with_iff p s : starts_with p s = true <-> exists r, s = p ++ r.
Proof.
  unfold starts_with. destruct (strip_prefix p s) as [r|] eqn:E.
  - apply strip_prefix_some in E. split; eauto.
  - split; [easy|]. intros [r Hr]. rewrite strip_prefix_none in E. now apply E in Hr.
Qed.

Lemma seqb_eq a b : seqb a b = true <-> a = b.
Proof.
  revert b; induction a as [|x a IH]; intros [|y b]; cbn; try easy.
  rewrite andb_true_iff, IH, N.eqb_eq. split; [now intros [-> ->] | now intros [= -> ->]].
Qed.

Lemma check_ok b k : check b k = Ok tt <-> b = true.
Proof. destruct b; cbn; split; easy. Qed.
Lemma check_np b k : check b k <> Panic.
Proof. now destruct b. Qed.

Lemma is_empty_iff s : is_empty s = true <-> s = [].
Proof. now destruct s. Qed.
Lemma is_empty_false s : is_empty s = false <-> s <> [].
Proof. now destruct s. Qed.

(** Finite sweep over ASCII. *)
Definition sweep (f : N -> bool) : bool := forallb (fun n => f (N.of_nat n)) (seq 0 128).
Lemma sweep_ok f : sweep f = true -> forall c, is_ascii c = true -> f c = true.
Proof.
  unfold sweep. rewrite forallb_forall. intros H c Hc. unfold is_ascii in Hc.
  specialize (H (N.to_nat c)). rewrite N2Nat.id in H. apply H.
  apply in_seq. cbn. lia.
Qed.
Lemma sweep_eq f g : sweep (fun c => Bool.eqb (f c) (g c)) = true ->
  forall c, is_ascii c = true -> f c = g c.
Proof. intros H c Hc. apply eqb_prop. exact (sweep_ok _ H c Hc). Qed.
Lemma sweep_impl f g : sweep (fun c => implb (f c) (g c)) = true ->
  forall c, is_ascii c = true -> f c = true -> g c = true.
Proof. intros H c Hc Hf. pose proof (sweep_ok _ H c Hc) as E. cbn in E. now rewrite Hf in E. Qed.

(** Combinators. *)
Lemma cat_iff A B s : (A +++ B) s <-> exists a b, s = a ++ b /\ A a /\ B b.
Proof. reflexivity. Qed.
Lemma cat_intro (A B : lang) a b : A a -> B b -> (A +++ B) (a ++ b).
Proof. intros; exists a, b; auto. Qed.
Lemma tok_cat (t : string) (B : lang) s : (tok t +++ B) s <-> exists b, s = lit t ++ b /\ B b.
Proof.
  split; [intros (a & b & -> & -> & Hb); eauto | intros (b & -> & Hb); exists (lit t), b; now split].
Qed.
Lemma cls_cat f (B : lang) s : (cls f +++ B) s <-> exists c b, s = c :: b /\ f c = true /\ B b.
Proof.
  split.
  - intros (a & b & -> & (c & -> & Hc) & Hb). exists c, b; auto.
  - intros (c & b & -> & Hc & Hb). exists [c], b; repeat split; auto. exists c; auto.
Qed.
Lemma eps_cat (B : lang) s : (eps +++ B) s <-> B s.
Proof.
  split; [intros (a & b & -> & -> & Hb); auto | intros H; exists [], s; repeat split; auto].
Qed.
Lemma alt_cat (A B C : lang) s : ((A <|> B) +++ C) s <-> (A +++ C) s \/ (B +++ C) s.
Proof.
  split.
  - intros (a & b & -> & [H|H] & Hb); [left|right]; exists a, b; auto.
  - intros [(a & b & -> & H & Hb)|(a & b & -> & H & Hb)]; exists a, b; repeat split; auto;
      [left|right]; auto.
Qed.
Lemma cat_assoc (A B C : lang) s : ((A +++ B) +++ C) s <-> (A +++ B +++ C) s.
Proof.
  split.
  - intros (ab & c & -> & (a & b & -> & Ha & Hb) & Hc).
    exists a, (b ++ c). rewrite app_assoc. repeat split; auto. now apply cat_intro.
  - intros (a & bc & -> & Ha & (b & c & -> & Hb & Hc)).
    exists (a ++ b), c. rewrite app_assoc. repeat split; auto. now apply cat_intro.
Qed.
Lemma cat_impl (A A' B B' : lang) s :
  (forall x, A x -> A' x) -> (forall x, B x -> B' x) -> (A +++ B) s -> (A' +++ B') s.
Proof. intros HA HB (a & b & -> & Ha & Hb). exists a, b; auto. Qed.
Lemma star_app (A : lang) a b : star A a -> star A b -> star A (a ++ b).
Proof.
  intros H; induction H as [|x y Hx Hy IH]; intros Hb; cbn; auto.
  rewrite <- app_assoc. constructor; auto.
Qed.
Lemma star_one (A : lang) a : A a -> star A a.
Proof. intros H. rewrite <- (app_nil_r a). constructor; [auto|constructor]. Qed.
Lemma star_impl (A B : lang) s : (forall x, A x -> B x) -> star A s -> star B s.
Proof. intros H; induction 1; constructor; auto. Qed.

Lemma star_cls f s : star (cls f) s <-> forallb f s = true.
Proof.
  split.
  - induction 1 as [|a b (c & -> & Hc) Hb IH]; cbn; [easy|]. now rewrite Hc.
  - induction s as [|c r IH]; cbn; intros H; [constructor|]. bdestr.
    change (c :: r) with ([c] ++ r). constructor; auto. exists c; auto.
Qed.

Lemma rep_cls n f s : rep n (cls f) s <-> List.length s = n /\ forallb f s = true.
Proof.
  revert s; induction n as [|n IH]; intros s; cbn [rep].
  - unfold eps. destruct s; cbn; split; try easy; intros [? ?]; easy.
  - rewrite cls_cat. split.
    + intros (c & b & -> & Hc & Hb). apply IH in Hb. destruct Hb as [Hl Hb].
      cbn. rewrite Hc, Hl. auto.
    + intros [Hl Hf]. destruct s as [|c b]; [easy|]. cbn in *. bdestr.
      exists c, b. rewrite IH. auto.
Qed.
