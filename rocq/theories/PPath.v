(** * Dot-segment removal (proofs only), part 1: the two-part path buffer seen as one string. *)
From Verif Require Import Base Chars Rfc3986 CompSpec RfcResolve MValidate MTrusted MFormat MPct MPath PBase PScan.

Definition flat (p : ptn) : str := front p ++ match back p with Some b => b | None => [] end.
Definition pwf (p : ptn) : Prop :=
  match back p with None => True | Some b => b <> [] /\ exists a, front p = a ++ [SLASH] end.


Lemma p_len_flat p : p_len p = length (flat p).
Proof. unfold p_len, flat. rewrite app_length. now destruct (back p). Qed.

Lemma pwf_front p : pwf p -> front p = [] -> back p = None.
Proof.
  unfold pwf. destruct (back p); auto. intros (_ & a & ->) E. destruct a; discriminate.
Qed.
Lemma flat_nil p : pwf p -> (front p = [] <-> flat p = []).
Proof.
  intros H. unfold flat. split.
  - intros E. now rewrite E, (pwf_front p H E).
  - intros E. now apply app_eq_nil in E.
Qed.
Lemma p_is_empty_ok p : pwf p -> p_is_empty p = Ok (is_empty (flat p)).
Proof.
  intros H. unfold p_is_empty. destruct (front p) as [|c r] eqn:E.
  - rewrite (pwf_front p H E). cbn. assert (F : flat p = []) by now apply flat_nil. now rewrite F.
  - unfold flat. now rewrite E.
Qed.
Lemma starts_with_slash_ok p : pwf p -> starts_with_slash p = starts_with [SLASH] (flat p).
Proof.
  intros H. unfold starts_with_slash. destruct (front p) as [|c r] eqn:E.
  - assert (F : flat p = []) by now apply flat_nil. now rewrite F.
  - unfold flat. rewrite E. unfold starts_with. cbn [app strip_prefix]. now destruct (SLASH =? c).
Qed.

Lemma byte_at_ok p i : byte_at p i = Ok (nth_error (flat p) i).
Proof.
  unfold byte_at, flat. destruct (Nat.ltb_spec i (length (front p))) as [H|H].
  - rewrite nth_error_app1 by exact H. apply nth_error_Some in H.
    destruct (nth_error (front p) i) eqn:E; [reflexivity | contradiction].
  - rewrite nth_error_app2 by exact H. destruct (back p); auto. f_equal.
    symmetry. apply nth_error_None. cbn. lia.
Qed.

Lemma slice_tail (s : str) n : (n <= length s)%nat -> slice s n (length s) = Some (skipn n s).
Proof.
  intros H. unfold slice. replace (Nat.leb n (length s)) with true by (symmetry; apply Nat.leb_le; lia).
  rewrite Nat.leb_refl. cbn. f_equal. apply firstn_all2. rewrite skipn_length. lia.
Qed.
Lemma find_pos_app n a b : find_pos n (a ++ b) =
  match find_pos n a with
  | Some k => Some k
  | None => match find_pos n b with Some k => Some (length a + k)%nat | None => None end
  end.
Proof.
  unfold find_pos. destruct (split_first (N.eqb n) a) as [[[x c] y]|] eqn:E.
  - apply split_first_some in E. destruct E as (-> & H1 & H2). rewrite <- app_assoc. cbn.
    now rewrite split_first_app.
  - apply split_first_none in E. destruct (split_first (N.eqb n) b) as [[[x c] y]|] eqn:F.
    + apply split_first_some in F. destruct F as (-> & H1 & H2). rewrite app_assoc.
      rewrite split_first_app; [now rewrite app_length| |exact H2]. rewrite none_app. now rewrite E, H1.
    + apply split_first_none in F. rewrite split_first_none_app; [reflexivity|]. rewrite none_app. now rewrite E, F.
Qed.
Lemma find_pos_last n a : find_pos n (a ++ [n]) <> None.
Proof.
  rewrite find_pos_app. destruct (find_pos n a); [discriminate|]. unfold find_pos. cbn.
  now rewrite N.eqb_refl.
Qed.
Lemma find_next_slash_ok p st : pwf p -> (st <= length (flat p))%nat ->
  find_next_slash_from p st =
  Ok (match find_pos SLASH (skipn st (flat p)) with Some k => Some (st + k)%nat | None => None end).
Proof.
  intros H Hle. unfold find_next_slash_from, flat in *. rewrite app_length in Hle.
  destruct (Nat.leb_spec (length (front p)) st) as [L|L].
  - rewrite skipn_app, (skipn_all2 (front p)) by exact L. cbn [app].
    destruct (back p) as [b|]; cbn in Hle.
    + unfold slice_p. rewrite slice_tail by lia. reflexivity.
    + now rewrite skipn_nil.
  - unfold slice_p. rewrite slice_tail by lia. cbn [bind].
    rewrite skipn_app. replace (st - length (front p))%nat with 0%nat by lia. cbn [skipn].
    rewrite find_pos_app. destruct (find_pos SLASH (skipn st (front p))) eqn:E; auto.
    unfold pwf in H. destruct (back p) as [b|]; [|reflexivity]. exfalso.
    destruct H as (_ & a & Ea). rewrite Ea in *. rewrite app_length in L. cbn in L.
    rewrite skipn_app in E. replace (st - length a)%nat with 0%nat in E by lia. cbn [skipn] in E.
    now apply find_pos_last in E.
Qed.

Lemma remove_start_ok p n : pwf p -> (n <= length (flat p))%nat ->
  pwf (remove_start p n) /\ flat (remove_start p n) = skipn n (flat p).
Proof.
  intros H Hle. unfold remove_start, flat in *. rewrite app_length in Hle.
  destruct (Nat.leb_spec (length (front p)) n) as [L|L].
  - rewrite skipn_app, (skipn_all2 (front p)) by exact L. cbn.
    destruct (back p) as [b|]; cbn in Hle.
    + rewrite slice_tail by lia. rewrite app_nil_r. split; [exact I|reflexivity].
    + rewrite skipn_nil. split; [exact I|reflexivity].
  - cbn. rewrite skipn_app. replace (n - length (front p))%nat with 0%nat by lia. cbn [skipn]. split; auto.
    unfold pwf in *. cbn. destruct (back p) as [b|]; [|exact I]. destruct H as (Hb & a & Ea). split; auto.
    rewrite Ea in *. rewrite app_length in L; cbn in L. exists (skipn n a). rewrite skipn_app.
    now replace (n - length a)%nat with 0%nat by lia.
Qed.

(** ** Segments of a string. *)
Fixpoint span_seg (s : str) : str * str :=
  match s with
  | [] => ([], [])
  | c :: r => if c =? SLASH then ([], s) else let '(a, b) := span_seg r in (c :: a, b)
  end.
Definition next_seg (s : str) : option (bool * str * str) :=
  match s with
  | [] => None
  | c :: r => if c =? SLASH then let '(a, b) := span_seg r in Some (true, a, b)
              else let '(a, b) := span_seg s in Some (false, a, b)
  end.
Definition slashy (s : str) : Prop := s = [] \/ exists r, s = SLASH :: r.
Lemma span_seg_spec s a b : span_seg s = (a, b) ->
  s = a ++ b /\ none (N.eqb SLASH) a = true /\ slashy b.
Proof.
  revert a b; induction s as [|c r IH]; intros a b; cbn.
  - intros [= <- <-]. unfold slashy. auto.
  - destruct (N.eqb_spec c SLASH) as [->|Hc].
    + intros [= <- <-]. unfold slashy. eauto.
    + destruct (span_seg r) as [x y] eqn:E. intros [= <- <-]. destruct (IH x y eq_refl) as (-> & H1 & H2).
      repeat split; auto. rewrite none_cons, H1. rewrite (proj2 (N.eqb_neq SLASH c)) by congruence. reflexivity.
Qed.
Lemma span_seg_app a b : none (N.eqb SLASH) a = true -> slashy b -> span_seg (a ++ b) = (a, b).
Proof.
  induction a as [|c a IH]; cbn [app span_seg]; intros H1 H2.
  - destruct H2 as [->|(r & ->)]; cbn; auto.
  - rewrite none_cons in H1. apply andb_prop in H1. destruct H1 as [H1 H3]. apply negb_true_iff, N.eqb_neq in H1.
    rewrite (proj2 (N.eqb_neq c SLASH)) by congruence. now rewrite IH.
Qed.
Lemma find_pos_span s a b : span_seg s = (a, b) ->
  find_pos SLASH s = if is_empty b then None else Some (length a).
Proof.
  intros E. apply span_seg_spec in E. destruct E as (-> & H1 & [->|(r & ->)]); unfold find_pos.
  - rewrite app_nil_r. now rewrite split_first_none_app.
  - now rewrite split_first_app.
Qed.

Lemma skipn_app_exact (a b : str) : skipn (length a) (a ++ b) = b.
Proof. induction a; cbn; auto. Qed.
Lemma firstn_app_exact (a b : str) : firstn (length a) (a ++ b) = a.
Proof. induction a; cbn; auto. now f_equal. Qed.

Lemma skipn_add {A} a b (l : list A) : skipn (a + b) l = skipn b (skipn a l).
Proof.
  revert l; induction a as [|a IH]; intros l; cbn; auto. destruct l; cbn; auto. now rewrite skipn_nil.
Qed.

(** The iterator step, seen on the flat string. *)
Definition lead_len (l : bool) : nat := if l then 1%nat else 0%nat.
Definition lead_str (l : bool) : str := if l then [SLASH] else [].
Lemma next_seg_spec s l n r : next_seg s = Some (l, n, r) ->
  s = lead_str l ++ n ++ r /\ none (N.eqb SLASH) n = true /\ slashy r /\ (l = true \/ n <> []).
Proof.
  destruct s as [|c s]; cbn; [discriminate|]. destruct (N.eqb_spec c SLASH) as [->|Hc].
  - destruct (span_seg s) as [a b] eqn:E. intros [= <- <- <-]. apply span_seg_spec in E.
    destruct E as (-> & H1 & H2). repeat split; auto.
  - destruct (span_seg s) as [x y] eqn:E. intros [= <- <- <-].
    apply span_seg_spec in E. destruct E as (-> & H1 & H2). repeat split; auto.
    + rewrite none_cons, H1. rewrite (proj2 (N.eqb_neq SLASH c)) by congruence. reflexivity.
    + right. discriminate.
Qed.
Lemma iter_next_ok p cur : pwf p -> (cur <= length (flat p))%nat ->
  match next_seg (skipn cur (flat p)) with
  | None => iter_next p cur = Ok None /\ skipn cur (flat p) = []
  | Some (l, n, r) => exists g, iter_next p cur = Ok (Some (g, seg_end g)) /\
      has_leading_slash g = l /\ seg_end g = (cur + lead_len l + length n)%nat /\
      (seg_end g <= length (flat p))%nat /\ (cur < seg_end g)%nat /\
      skipn (seg_end g) (flat p) = r /\ segment p g = Ok n
  end.
Proof.
  intros W H. unfold iter_next. rewrite byte_at_ok. cbn [bind].
  assert (D : flat p = firstn cur (flat p) ++ skipn cur (flat p)) by (symmetry; apply firstn_skipn).
  assert (L : length (firstn cur (flat p)) = cur) by (rewrite firstn_length; lia).
  destruct (nth_error (flat p) cur) as [c|] eqn:Ec.
  2:{ apply nth_error_None in Ec. rewrite skipn_all2 by exact Ec. cbn. auto. }
  assert (Hcur : (cur < length (flat p))%nat) by (apply nth_error_Some; congruence).
  destruct (skipn cur (flat p)) as [|c' t] eqn:Es.
  { apply (f_equal (@length N)) in Es. rewrite skipn_length in Es. cbn in Es. lia. }
  assert (c' = c).
  { rewrite D, nth_error_app2, L, Nat.sub_diag in Ec by lia. now injection Ec. }
  subst c'. set (st := if c =? SLASH then (cur + 1)%nat else cur).
  assert (Hst : exists a b, span_seg (skipn st (flat p)) = (a, b) /\ next_seg (c :: t) = Some (c =? SLASH, a, b)
     /\ (st <= length (flat p))%nat /\ st = (cur + lead_len (c =? SLASH)%N)%nat /\ flat p = firstn st (flat p) ++ a ++ b
     /\ ((c =? SLASH) = true \/ a <> [])).
  { unfold st. destruct (N.eqb_spec c SLASH) as [->|Hc].
    - assert (Sk : skipn (cur + 1) (flat p) = t).
      { rewrite skipn_add, Es. reflexivity. }
      destruct (span_seg t) as [a b] eqn:E. exists a, b. rewrite Sk. cbn. rewrite E. repeat split; auto; try lia.
      rewrite <- (firstn_skipn (cur + 1) (flat p)) at 1. rewrite Sk. f_equal. now apply span_seg_spec.
    - rewrite Es. cbn [next_seg]. rewrite (proj2 (N.eqb_neq c SLASH)) by exact Hc.
      destruct (span_seg (c :: t)) as [a b] eqn:E. exists a, b. repeat split; auto; try lia; try (cbn; lia).
      + etransitivity; [exact D|]. f_equal. now apply span_seg_spec.
      + right. cbn in E. rewrite (proj2 (N.eqb_neq c SLASH)) in E by exact Hc. destruct (span_seg t). injection E as <- _. discriminate. }
  destruct Hst as (a & b & Hsp & Hns & Hle & Est & Hd & Hne). rewrite Hns.
  rewrite find_next_slash_ok by auto. cbn [bind]. rewrite (find_pos_span _ a b Hsp).
  assert (Lst : length (firstn st (flat p)) = st) by (rewrite firstn_length; lia).
  assert (Hlen : length (flat p) = (st + length a + length b)%nat).
  { rewrite Hd at 1. rewrite !app_length. lia. }
  set (e := (st + length a)%nat).
  assert (Ee : match (if is_empty b then None else Some (length a)) with Some k => Some (st + k)%nat | None => None end
               = (if is_empty b then None else Some e)) by (now destruct b).
  rewrite Ee.
  assert (Ee2 : match (if is_empty b then None else Some e) with Some e0 => e0 | None => p_len p end = e).
  { destruct b; cbn; [|reflexivity]. rewrite p_len_flat, Hlen. unfold e. cbn. lia. }
  rewrite Ee2. exists (mkSeg (c =? SLASH) st e). split; [reflexivity|]. cbn [has_leading_slash seg_start seg_end].
  split; auto. split; [unfold e; lia|]. split; [unfold e; lia|].
  split. { unfold e. rewrite Est. destruct Hne as [->|Hne]; cbn; [lia|]. destruct a; [easy|]. cbn; lia. }
  split.
  { rewrite Hd. replace e with (length (firstn st (flat p) ++ a)) by (rewrite app_length; unfold e; lia).
    rewrite app_assoc. apply skipn_app_exact. }
  (* the segment text *)
  unfold segment. cbn [seg_start seg_end].
  assert (Hs : slice (flat p) st e = Some a).
  { unfold slice. replace (Nat.leb st e) with true by (symmetry; apply Nat.leb_le; unfold e; lia).
    replace (Nat.leb e (length (flat p))) with true by (symmetry; apply Nat.leb_le; unfold e; lia). cbn [andb]. f_equal.
    rewrite Hd. rewrite <- Lst at 2. rewrite skipn_app_exact. replace (e - st)%nat with (length a) by (unfold e; lia).
    apply firstn_app_exact. }
  destruct (Nat.leb_spec e (length (front p))) as [Hf|Hf].
  - assert (Hs2 : slice (front p) st e = Some a).
    { unfold slice. replace (Nat.leb st e) with true by (symmetry; apply Nat.leb_le; unfold e; lia).
      rewrite (proj2 (Nat.leb_le _ _)) by exact Hf. cbn [andb]. f_equal.
      unfold slice in Hs. replace (Nat.leb st e) with true in Hs by (symmetry; apply Nat.leb_le; unfold e; lia).
      replace (Nat.leb e (length (flat p))) with true in Hs by (symmetry; apply Nat.leb_le; unfold e; lia). cbn [andb] in Hs.
      injection Hs as Hs. rewrite <- Hs. unfold flat. rewrite skipn_app. rewrite firstn_app.
      rewrite skipn_length. replace (e - st - (length (front p) - st))%nat with 0%nat by (unfold e in *; lia).
      cbn. now rewrite app_nil_r. }
    now rewrite Hs2.
  - assert (N0 : slice (front p) st e = None).
    { unfold slice. rewrite (proj2 (Nat.leb_gt e (length (front p)))) by exact Hf. now rewrite andb_false_r. }
    rewrite N0. assert (Hb : exists bb, back p = Some bb).
    { destruct (back p) eqn:E; eauto. exfalso. unfold flat in Hlen. rewrite E in Hlen. rewrite app_nil_r in Hlen. unfold e in *. lia. }
    destruct Hb as (bb & Hb). rewrite Hb.
    assert (Hst2 : (length (front p) <= st)%nat).
    { destruct (Nat.le_gt_cases (length (front p)) st) as [|Hlt]; auto. exfalso.
      assert (W' := W). unfold pwf in W'. rewrite Hb in W'. destruct W' as (_ & fa & Efa).
      (* the last char of front is a slash at position length fa, st <= that < e, so it lies in a *)
      apply span_seg_spec in Hsp. destruct Hsp as (Hsk & Hnone & _).
      assert (Hin : nth_error a (length fa - st) = Some SLASH).
      { assert (nth_error (flat p) (length fa) = Some SLASH).
        { unfold flat. rewrite Efa, <- app_assoc, nth_error_app2, Nat.sub_diag by lia. reflexivity. }
        rewrite Efa, app_length in Hlt, Hf. cbn in Hlt, Hf.
        rewrite Hd in H0. rewrite nth_error_app2 in H0 by lia. rewrite Lst in H0.
        rewrite nth_error_app1 in H0 by (unfold e in *; lia). exact H0. }
      apply nth_error_In in Hin. unfold none in Hnone. rewrite forallb_forall in Hnone.
      apply Hnone in Hin. now rewrite N.eqb_refl in Hin. }
    rewrite (proj2 (Nat.leb_le _ _)) by exact Hst2. rewrite (proj2 (Nat.leb_le _ _)) by (unfold e; lia). cbn [andb].
    unfold slice_p. unfold slice in Hs |- *.
    replace (Nat.leb (st - length (front p)) (e - length (front p))) with true by (symmetry; apply Nat.leb_le; unfold e; lia).
    assert (Hlb : length (flat p) = (length (front p) + length bb)%nat) by (unfold flat; rewrite Hb, app_length; lia).
    replace (Nat.leb (e - length (front p)) (length bb)) with true by (symmetry; apply Nat.leb_le; unfold e; lia).
    replace (Nat.leb st e) with true in Hs by (symmetry; apply Nat.leb_le; unfold e; lia).
    replace (Nat.leb e (length (flat p))) with true in Hs by (symmetry; apply Nat.leb_le; unfold e; lia). cbn [andb] in Hs |- *.
    f_equal. injection Hs as Hs. rewrite <- Hs. unfold flat. rewrite Hb. rewrite skipn_app, (skipn_all2 (front p)) by exact Hst2. cbn [app].
    f_equal. unfold e. lia.
Qed.
