(** * Dot-segment removal (proofs only), part 2: segment lists and the segment queue. *)
From Verif Require Import Base Chars Rfc3986 CompSpec RfcResolve MValidate MTrusted MFormat MPct MPath PBase PScan PPath.

Arguments none : simpl never.

(** ** Output of a writer computation that returns. *)
Definition outs {A} (w : W A) : option (str * A) :=
  match w with (cs, Ret a) => Some (concat cs, a) | _ => None end.
Lemma outs_ret {A} (a : A) : outs (wret a) = Some ([], a).
Proof. reflexivity. Qed.
Lemma outs_write s : outs (write s) = Some (s, tt).
Proof. cbn. now rewrite app_nil_r. Qed.
Lemma outs_bind {A B} (x : W A) (f : A -> W B) o a o' b :
  outs x = Some (o, a) -> outs (f a) = Some (o', b) -> outs (wbind x f) = Some (o ++ o', b).
Proof.
  destruct x as [cs [y| |]]; cbn; try discriminate. intros [= <- <-].
  destruct (f y) as [cs' [z| |]]; cbn; try discriminate. intros [= <- <-]. now rewrite concat_app.
Qed.
Lemma outs_text {A} (w : W A) o a : outs w = Some (o, a) -> text w = Ok o.
Proof. destruct w as [cs [y| |]]; cbn; try discriminate. unfold text. cbn. now intros [= <- <-]. Qed.
Lemma outs_lift {A} (a : A) : outs (lift (Ok a)) = Some ([], a).
Proof. reflexivity. Qed.
Lemma lift_bind {A B} (a : A) (f : A -> W B) : wbind (lift (Ok a)) f = f a.
Proof. cbn. now destruct (f a). Qed.
Lemma wret_bind {A B} (a : A) (f : A -> W B) : wbind (wret a) f = f a.
Proof. cbn. now destruct (f a). Qed.

(** ** Segment lists. *)
Definition seg := (bool * str)%type.
Definition seg_str (g : seg) : str := lead_str (fst g) ++ snd g.
Definition join (l : list seg) : str := concat (map seg_str l).
Definition lead_all (l : list seg) : Prop := Forall (fun g => fst g = true) l.
Definition names_ok (l : list seg) : Prop := Forall (fun g => none (N.eqb SLASH) (snd g) = true) l.
Definition wfl (l : list seg) : Prop :=
  names_ok l /\ match l with [] => True | g :: t => (fst g = true \/ snd g <> []) /\ lead_all t end.

Lemma wfl_tail g t : wfl (g :: t) -> wfl t.
Proof.
  intros (H1 & H2 & H3). split; [now inversion H1|]. destruct t as [|g' t]; auto. inversion H3; subst. auto.
Qed.
Lemma wfl_lead_tail g t : wfl (g :: t) -> lead_all t.
Proof. now intros (_ & _ & H). Qed.
Lemma lead_wfl l : lead_all l -> names_ok l -> wfl l.
Proof. intros H H'. split; auto. destruct l; auto. inversion H; subst; auto. Qed.
Lemma lead_slashy l : lead_all l -> slashy (join l).
Proof.
  unfold slashy. destruct l as [|[[|] n] t]; intros H; [left; reflexivity| |inversion H; discriminate].
  right. exists (n ++ join t). unfold join. cbn. reflexivity.
Qed.
Lemma next_seg_join g t : wfl (g :: t) -> next_seg (join (g :: t)) = Some (fst g, snd g, join t).
Proof.
  intros (H1 & H2 & H3). destruct g as [b n]. cbn [fst snd] in *. inversion H1 as [|? ? Hn Ht]; subst. cbn [snd] in Hn.
  assert (Hs : slashy (join t)) by now apply lead_slashy.
  unfold join. cbn [map concat]. fold (join t). unfold seg_str; cbn [fst snd]. destruct b; cbn [lead_str].
  - cbn [app next_seg]. rewrite N.eqb_refl. now rewrite span_seg_app.
  - destruct H2 as [|H2]; [discriminate|]. cbn [app]. destruct n as [|c n]; [easy|]. cbn [app next_seg].
    assert (c =? SLASH = false). { rewrite none_cons in Hn. apply andb_prop in Hn. destruct Hn as [Hn _]. rewrite N.eqb_sym. now apply negb_true_iff. }
    rewrite H. change (c :: n ++ join t) with ((c :: n) ++ join t). now rewrite span_seg_app.
Qed.
Lemma next_seg_nil : next_seg [] = None. Proof. reflexivity. Qed.
Lemma wfl_exists s : exists l, wfl l /\ s = join l.
Proof.
  assert (Hsl : forall k s, (length s <= k)%nat -> slashy s -> exists l, lead_all l /\ names_ok l /\ s = join l).
  { induction k as [|k IH]; intros s' Hk Hs.
    - destruct s'; [|cbn in Hk; lia]. exists []. repeat split; constructor.
    - destruct Hs as [->|(r & ->)]; [exists []; repeat split; constructor|].
      destruct (span_seg r) as [a b] eqn:E. apply span_seg_spec in E. destruct E as (-> & Ha & Hb).
      destruct (IH b) as (l & L1 & L2 & ->); auto. { cbn in Hk. rewrite app_length in Hk. lia. }
      exists ((true, a) :: l). repeat split; try (constructor; auto). }
  destruct (span_seg s) as [a b] eqn:E. apply span_seg_spec in E. destruct E as (-> & Ha & Hb).
  destruct (Hsl (length b) b) as (l & L1 & L2 & ->); auto.
  destruct a as [|c a].
  - exists l. split; auto. now apply lead_wfl.
  - exists ((false, c :: a) :: l). split; [split; [constructor; auto|]|].
    + split; auto. right. discriminate.
    + unfold join. cbn. reflexivity.
Qed.
Lemma join_length l : wfl l -> (length l <= length (join l))%nat.
Proof.
  induction l as [|g t IH]; intros H; [cbn; lia|]. assert (Ht := wfl_tail _ _ H). apply IH in Ht.
  destruct H as (_ & H & _). unfold join. cbn [map concat]. fold (join t). rewrite app_length. cbn [length].
  assert (1 <= length (seg_str g))%nat; [|lia]. unfold seg_str. rewrite app_length. destruct g as [[|] n]; cbn; [lia|].
  cbn in H. destruct H as [|H]; [discriminate|]. destruct n; [easy|]. cbn; lia.
Qed.
Lemma wfl_app_r a b : wfl (a ++ b) -> wfl b.
Proof. induction a as [|g a IH]; cbn; auto. intros H. apply IH. eapply wfl_tail; eauto. Qed.
Lemma join_nil l : wfl l -> join l = [] -> l = [].
Proof. intros H E. apply join_length in H. rewrite E in H. destruct l; auto. cbn in H. lia. Qed.

(** ** Abstract dot-segment removal. *)
Definition step (out : list seg) (g : seg) : list seg :=
  match from_segment (snd g) with Dot => out | DotDot => removelast out | Normal => out ++ [g] end.
Definition frun (l out : list seg) : list seg := fold_left step l out.
Definition dotty (g : seg) : bool := match from_segment (snd g) with Normal => false | _ => true end.
Definition tail_slash (l : list seg) : list seg :=
  match rev l with g :: _ => if dotty g then [(true, [])] else [] | [] => [] end.
Definition rdsl (l : list seg) : list seg := frun l [] ++ tail_slash l.

Lemma frun_app a b o : frun (a ++ b) o = frun b (frun a o).
Proof. apply fold_left_app. Qed.
Lemma tail_slash_snoc l g : tail_slash (l ++ [g]) = if dotty g then [(true, [])] else [].
Proof. unfold tail_slash. now rewrite rev_app_distr. Qed.
Lemma step_dotty_nil g : dotty g = true -> step [] g = [].
Proof. unfold dotty, step. now destruct (from_segment (snd g)). Qed.
Lemma frun_dots l : forallb dotty l = true -> frun l [] = [].
Proof.
  induction l as [|g l IH]; [easy|]. cbn [forallb]. intros H. bdestr. cbn [frun fold_left].
  rewrite step_dotty_nil by assumption. now apply IH.
Qed.
Lemma frun_normal l o : existsb dotty l = false -> frun l o = o ++ l.
Proof.
  revert o; induction l as [|g l IH]; intros o; cbn [existsb]; intros H.
  - cbn. now rewrite app_nil_r.
  - apply orb_false_iff in H. destruct H as [H1 H2]. cbn [frun fold_left].
    assert (E : step o g = o ++ [g]). { unfold step, dotty in *. destruct (from_segment (snd g)); congruence. }
    rewrite E. fold (frun l (o ++ [g])). rewrite IH by exact H2. now rewrite <- app_assoc.
Qed.
Lemma tail_slash_normal l : existsb dotty l = false -> tail_slash l = [].
Proof.
  intros H. unfold tail_slash. destruct (rev l) as [|g r] eqn:E; auto.
  assert (In g l) by (apply in_rev; rewrite E; now left).
  destruct (dotty g) eqn:D; auto. exfalso. rewrite <- not_true_iff_false in H. apply H. apply existsb_exists. eauto.
Qed.
Lemma tail_slash_app a b : b <> [] -> tail_slash (a ++ b) = tail_slash b.
Proof.
  intros H. unfold tail_slash. rewrite rev_app_distr. destruct (rev b) as [|g r] eqn:E; auto.
  apply (f_equal (@rev seg)) in E. rewrite rev_involutive in E. now subst.
Qed.
Lemma rdsl_normal l : existsb dotty l = false -> rdsl l = l.
Proof. intros H. unfold rdsl. rewrite frun_normal, tail_slash_normal by exact H. cbn. now rewrite app_nil_r. Qed.
Lemma rdsl_skip a b : forallb dotty a = true -> b <> [] -> rdsl (a ++ b) = rdsl b.
Proof. intros H Hb. unfold rdsl. rewrite frun_app, frun_dots by exact H. now rewrite tail_slash_app. Qed.
Lemma rdsl_dots l : forallb dotty l = true -> l <> [] -> rdsl l = [(true, [])].
Proof.
  intros H Hl. unfold rdsl. rewrite frun_dots by exact H. destruct (exists_last Hl) as (a & g & ->).
  rewrite tail_slash_snoc. rewrite forallb_app in H. cbn in H. bdestr. now rewrite H0.
Qed.

(** ** Removing the ignorable prefix. *)
(** Cases A and D of the RFC on a segment list: a leading dot segment without slash disappears with
    the slash that follows it. *)
Inductive trim : str -> str -> Prop :=
| trim_nil : trim [] []
| trim_slash : forall s r, s = SLASH :: r -> trim s s
| trim_normal : forall n r, next_seg (n ++ r) = Some (false, n, r) -> from_segment n = Normal -> trim (n ++ r) (n ++ r)
| trim_dot : forall n r t, next_seg (n ++ r) = Some (false, n, r) -> from_segment n <> Normal ->
    trim (skipn 1 r) t -> trim (n ++ r) t.

Lemma remove_ignorable_ok fuel p : pwf p -> (length (flat p) < fuel)%nat -> exists p',
  remove_ignorable_prefix fuel p = Ok p' /\ pwf p' /\ trim (flat p) (flat p').
Proof.
  revert p; induction fuel as [|fuel IH]; intros p W Hf; [lia|]. cbn [remove_ignorable_prefix].
  assert (I := iter_next_ok p 0 W ltac:(lia)). cbn [skipn] in I.
  destruct (next_seg (flat p)) as [[[l n] r]|] eqn:En.
  2:{ destruct I as (-> & E). cbn [bind]. exists p. rewrite E. repeat split; auto. constructor. }
  destruct I as (g & -> & Hl & He & Hle & Hlt & Hsk & Hseg). cbn [bind]. rewrite Hl.
  destruct (next_seg_spec _ _ _ _ En) as (Ef & Hn & Hr & Hne).
  destruct l.
  - exists p. repeat split; auto. eapply trim_slash. rewrite Ef. cbn. reflexivity.
  - unfold seg_kind. rewrite Hseg. cbn [bind]. cbn [lead_str app] in Ef.
    assert (D : from_segment n = Normal \/ from_segment n <> Normal) by (destruct (from_segment n); auto; now right).
    destruct D as [D|D].
    + rewrite D. exists p. repeat split; auto. rewrite Ef in *. now constructor.
    + cbn [lead_len Nat.add] in He. assert (Hlen : length (flat p) = (length n + length r)%nat) by (rewrite Ef, app_length; reflexivity).
      set (k := Nat.min (length (front p)) (seg_end g + 1)).
      assert (Hk : skipn k (flat p) = skipn 1 r).
      { assert (Hk1 : skipn (seg_end g + 1) (flat p) = skipn 1 r) by now rewrite skipn_add, Hsk.
        unfold k. destruct (Nat.le_gt_cases (seg_end g + 1) (length (front p))) as [L|L]; [now rewrite Nat.min_r|].
        rewrite Nat.min_l by lia.
        assert (B : back p = None).
        { destruct (back p) as [bb|] eqn:B; auto. exfalso. assert (W' := W). unfold pwf in W'. rewrite B in W'. destruct W' as (Hbb & a & Ea).
          assert (X : nth_error (flat p) (length a) = Some SLASH).
          { unfold flat. rewrite Ea, <- app_assoc, nth_error_app2, Nat.sub_diag by lia. reflexivity. }
          rewrite Ea, app_length in L. cbn in L. rewrite Ef in X.
          assert (Hl2 : (length a < length n)%nat \/ length a = length n) by lia.
          destruct Hl2 as [Hl2|Hl2].
          - rewrite nth_error_app1 in X by lia. apply nth_error_In in X. unfold none in Hn. rewrite forallb_forall in Hn. apply Hn in X. now rewrite N.eqb_refl in X.
          - assert (length (front p) = S (length a)) by (rewrite Ea, app_length; cbn; lia). lia. }
        assert (Ff : flat p = front p) by (unfold flat; rewrite B; apply app_nil_r).
        rewrite <- Ff. rewrite skipn_all. symmetry. rewrite <- Hk1. apply skipn_all2. rewrite Ff. lia. }
      assert (Hkl : (k <= length (flat p))%nat).
      { unfold k, flat. rewrite app_length. lia. }
      destruct (remove_start_ok p k W Hkl) as (W' & F').
      destruct (IH (remove_start p k) W') as (p' & E' & W2 & T).
      { rewrite F', Hk. rewrite skipn_length. destruct Hne as [|Hne]; [discriminate|]. destruct n; [easy|]. cbn in Hlen. lia. }
      exists p'. rewrite F', Hk in T. split; [|split; auto].
      * destruct (from_segment n); [exact E'|exact E'|congruence].
      * rewrite Ef. apply trim_dot; auto. now rewrite <- Ef.
Qed.
Lemma trim_next s t : trim s t -> t = [] \/ (exists r, t = SLASH :: r) \/
  (exists n r, next_seg t = Some (false, n, r) /\ from_segment n = Normal).
Proof. induction 1; subst; eauto 7. Qed.
