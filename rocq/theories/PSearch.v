(** * Search helpers and writers (proofs only). *)
From Verif Require Import Base Chars Utf8 MValidate MFormat MWriters MSearch SearchSpec PBase PPct4.

(** ** Contracts determine the result. *)
Lemma position_first p h i : position p h = Some i -> first_at (fun x => p x = true) h i.
Proof.
  revert i. induction h as [|x r IH]; cbn; [discriminate|]. intros i. destruct (p x) eqn:E.
  - intros [= <-]. split; [exists x; auto|]. intros j y Hj. lia.
  - destruct (position p r) as [k|]; [|discriminate]. intros [= <-]. destruct (IH k eq_refl) as [H1 H2].
    split; [exact H1|]. intros [|j] y Hj; cbn; [intros [= <-]; congruence|]. apply H2. lia.
Qed.
Lemma position_none p h : position p h = None -> Forall (fun x => ~ p x = true) h.
Proof.
  induction h as [|x r IH]; cbn; [constructor|]. destruct (p x) eqn:E; [discriminate|].
  destruct (position p r); [discriminate|]. intros _. constructor; [congruence|auto].
Qed.
Lemma rposition_last p h i : rposition p h = Some i -> last_at (fun x => p x = true) h i.
Proof.
  revert i. induction h as [|x r IH]; cbn; [discriminate|]. intros i.
  destruct (rposition p r) as [k|] eqn:E.
  - intros [= <-]. destruct (IH k eq_refl) as [H1 H2]. split; [exact H1|].
    intros [|j] y Hj; cbn; [lia|]. apply H2. lia.
  - destruct (p x) eqn:Ex; [|discriminate]. intros [= <-]. split; [exists x; auto|].
    intros [|j] y Hj; cbn; [lia|]. clear IH. revert E. clear. revert j.
    induction r as [|z r IH]; intros j; [destruct j; discriminate|]. cbn.
    destruct (rposition p r) eqn:Er; [discriminate|]. destruct (p z) eqn:Ez; [discriminate|].
    intros _. destruct j; cbn; [intros [= <-]; congruence|]. apply IH; reflexivity.
Qed.
Lemma rposition_none p h : rposition p h = None -> Forall (fun x => ~ p x = true) h.
Proof.
  induction h as [|x r IH]; cbn; [constructor|]. destruct (rposition p r); [discriminate|].
  destruct (p x) eqn:E; [discriminate|]. intros _. constructor; [congruence|auto].
Qed.
Lemma Forall_nth {A} (P : A -> Prop) h i x : Forall P h -> nth_error h i = Some x -> P x.
Proof. intros F H. rewrite Forall_forall in F. apply F. eapply nth_error_In; eauto. Qed.

Lemma first_unique_at P h i j : first_at P h i -> first_at P h j -> i = j.
Proof.
  intros [(x & Hx & Px) A] [(y & Hy & Py) B]. destruct (Nat.lt_trichotomy i j) as [H|[H|H]]; auto.
  - exfalso. eapply B; eauto. - exfalso. eapply A; eauto.
Qed.
Lemma last_unique_at P h i j : last_at P h i -> last_at P h j -> i = j.
Proof.
  intros [(x & Hx & Px) A] [(y & Hy & Py) B]. destruct (Nat.lt_trichotomy i j) as [H|[H|H]]; auto.
  - exfalso. eapply A; eauto. - exfalso. eapply B; eauto.
Qed.
Lemma first_iff (P Q : N -> Prop) h i : (forall x, P x <-> Q x) -> first_at P h i -> first_at Q h i.
Proof. intros E [(x & Hx & Px) A]. split; [exists x; split; [auto|now apply E]|]. intros j y Hj Hy Qy. apply (A j y Hj Hy). now apply E. Qed.
Lemma last_iff (P Q : N -> Prop) h i : (forall x, P x <-> Q x) -> last_at P h i -> last_at Q h i.
Proof. intros E [(x & Hx & Px) A]. split; [exists x; split; [auto|now apply E]|]. intros j y Hj Hy Qy. apply (A j y Hj Hy). now apply E. Qed.
Lemma searches_first p (P : N -> Prop) h r : (forall x, P x <-> p x = true) -> searches first_at P h r -> r = position p h.
Proof.
  intros E. destruct r as [i|]; cbn; intros H.
  - destruct (position p h) as [j|] eqn:Ej.
    + f_equal. apply (first_unique_at (fun x => p x = true) h); [eapply first_iff; eauto|]. now apply position_first.
    + apply position_none in Ej. destruct H as [(x & Hx & Px) _]. exfalso.
      apply (Forall_nth _ _ _ _ Ej Hx). now apply E.
  - destruct (position p h) as [j|] eqn:Ej; [|reflexivity]. apply position_first in Ej.
    destruct Ej as [(x & Hx & Px) _]. exfalso. apply (Forall_nth _ _ _ _ H Hx). now apply E.
Qed.
Lemma searches_last p (P : N -> Prop) h r : (forall x, P x <-> p x = true) -> searches last_at P h r -> r = rposition p h.
Proof.
  intros E. destruct r as [i|]; cbn; intros H.
  - destruct (rposition p h) as [j|] eqn:Ej.
    + f_equal. apply (last_unique_at (fun x => p x = true) h); [eapply last_iff; eauto|]. now apply rposition_last.
    + apply rposition_none in Ej. destruct H as [(x & Hx & Px) _]. exfalso.
      apply (Forall_nth _ _ _ _ Ej Hx). now apply E.
  - destruct (rposition p h) as [j|] eqn:Ej; [|reflexivity]. apply rposition_last in Ej.
    destruct Ej as [(x & Hx & Px) _]. exfalso. apply (Forall_nth _ _ _ _ H Hx). now apply E.
Qed.
Lemma is1_iff a x : x = a <-> is1 a x = true.
Proof. unfold is1. now rewrite N.eqb_eq. Qed.
Lemma is2_iff a b x : (x = a \/ x = b) <-> is2 a b x = true.
Proof. unfold is2. now rewrite orb_true_iff, !N.eqb_eq. Qed.
Lemma is3_iff a b c x : (x = a \/ x = b \/ x = c) <-> is3 a b c x = true.
Proof. unfold is3. rewrite !orb_true_iff, !N.eqb_eq. tauto. Qed.
Section contract.
Context (m : memchr_crate) (Hm : memchr_contract m).
Lemma memchr_eq a h : memchr m a h = position (is1 a) h.
Proof using Hm. destruct Hm as [H _]. eapply searches_first; [apply is1_iff|]. apply H. Qed.
Lemma memchr2_eq a b h : memchr2 m a b h = position (is2 a b) h.
Proof using Hm. destruct Hm as (_ & H & _). eapply searches_first; [apply is2_iff|]. apply H. Qed.
Lemma memchr3_eq a b c h : memchr3 m a b c h = position (is3 a b c) h.
Proof using Hm. destruct Hm as (_ & _ & H & _). eapply searches_first; [apply is3_iff|]. apply H. Qed.
Lemma memrchr_eq a h : memrchr m a h = rposition (is1 a) h.
Proof using Hm. destruct Hm as (_ & _ & _ & H & _). eapply searches_last; [apply is1_iff|]. apply H. Qed.
Lemma memrchr2_eq a b h : memrchr2 m a b h = rposition (is2 a b) h.
Proof using Hm. destruct Hm as (_ & _ & _ & _ & H). eapply searches_last; [apply is2_iff|]. apply H. Qed.
Lemma prior_eq h a b : prior_byte2_m m h a b = Ok (prior_byte2_p h a b).
Proof using Hm.
  unfold prior_byte2_m, prior_byte2_p, find_byte. rewrite memchr2_eq.
  induction h as [|x r IH]; cbn; [reflexivity|]. destruct (is2 a b x); [reflexivity|].
  destruct (position (is2 a b) r) eqn:E; cbn in *; exact IH.
Qed.
End contract.

Lemma position_le p h i : position p h = Some i -> (i < length h)%nat.
Proof. revert i. induction h; cbn; [discriminate|]. intros i. destruct (p a); [intros [= <-]; lia|].
  destruct (position p h); [|discriminate]. intros [= <-]. specialize (IHh n eq_refl). lia. Qed.
(** The two-step search of the memchr variant. *)
Lemma four_step a b c d h :
  (match position (is3 a b c) h with
   | Some k => match position (is1 d) (firstn k h) with Some p => Some p | None => Some k end
   | None => position (is1 d) h
   end) = position (is4 a b c d) h.
Proof.
  assert (H4 : forall x, is4 a b c d x = is3 a b c x || is1 d x) by (intros; unfold is4, is3, is1; reflexivity).
  induction h as [|x r IH]; cbn; [reflexivity|]. rewrite H4. destruct (is3 a b c x) eqn:E; cbn; [reflexivity|].
  destruct (position (is3 a b c) r) as [k|] eqn:Ek; cbn.
  - destruct (is1 d x) eqn:Ed; [reflexivity|]. rewrite <- IH. now destruct (position (is1 d) (firstn k r)).
  - destruct (is1 d x) eqn:Ed; [reflexivity|]. now rewrite <- IH.
Qed.

(** ** Bytes and scalars. *)
Lemma utf8_len c : length (utf8 c) = clen c.
Proof. unfold utf8, clen. destruct (c <? 128); [reflexivity|]. destruct (c <? 2048); [reflexivity|]. now destruct (c <? 65536). Qed.
Lemma utf8s_len s : length (utf8s s) = blen s.
Proof. induction s as [|c s IH]; [reflexivity|]. change (utf8s (c :: s)) with (utf8 c ++ utf8s s). rewrite app_length, utf8_len, IH. reflexivity. Qed.
Lemma utf8s_app a b : utf8s (a ++ b) = utf8s a ++ utf8s b.
Proof. unfold utf8s. apply flat_map_app. Qed.
Lemma blen_app a b : blen (a ++ b) = (blen a + blen b)%nat.
Proof. induction a; cbn; [reflexivity|]. rewrite IHa. lia. Qed.
Lemma utf8_ascii_eq c : c < 128 -> utf8 c = [c].
Proof. intros H. unfold utf8. now rewrite (proj2 (N.ltb_lt _ _) H). Qed.
Lemma utf8_high c : 128 <= c -> Forall (fun b => 128 <= b) (utf8 c).
Proof.
  intros H. unfold utf8. rewrite (proj2 (N.ltb_ge _ _) H).
  destruct (c <? 2048); [|destruct (c <? 65536)]; repeat constructor; lia.
Qed.
Lemma clen_pos c : (0 < clen c)%nat.
Proof. unfold clen. destruct (c <? 128); [lia|]. destruct (c <? 2048); [lia|]. destruct (c <? 65536); lia. Qed.
Lemma split_at_app a b : str_split_at (a ++ b) (blen a) = Ok (a, b).
Proof.
  induction a as [|c a IH]; [now destruct b|]. cbn [app blen].
  pose proof (clen_pos c). destruct (clen c + blen a)%nat eqn:E; [lia|]. cbn [str_split_at].
  rewrite <- E. rewrite (proj2 (Nat.ltb_ge _ _)) by lia.
  replace (clen c + blen a - clen c)%nat with (blen a) by lia. now rewrite IH.
Qed.
Definition ascii_pred (p : N -> bool) : Prop := forall b, p b = true -> b < 128.
Lemma pred_high p l : ascii_pred p -> Forall (fun b => 128 <= b) l -> forallb (fun b => negb (p b)) l = true.
Proof. intros H. induction 1; cbn; [reflexivity|]. rewrite IHForall, andb_true_r. destruct (p x) eqn:E; [|reflexivity]. apply H in E. lia. Qed.
Lemma position_app p a b : forallb (fun b => negb (p b)) a = true ->
  position p (a ++ b) = match position p b with Some i => Some (length a + i)%nat | None => None end.
Proof. induction a as [|x r IH]; cbn; [now destruct (position p b)|]. rewrite andb_true_iff. intros [E1 E2].
  destruct (p x); [discriminate|]. rewrite IH by auto. now destruct (position p b). Qed.
Lemma rposition_app p a b : 
  rposition p (a ++ b) = match rposition p b with Some i => Some (length a + i)%nat | None => rposition p a end.
Proof. induction a as [|x r IH]; cbn; [now destruct (rposition p b)|]. rewrite IH. now destruct (rposition p b). Qed.
Lemma rposition_no p a : forallb (fun b => negb (p b)) a = true -> rposition p a = None.
Proof. induction a as [|x r IH]; cbn; [reflexivity|]. rewrite andb_true_iff. intros [E1 E2]. rewrite IH by auto. now destruct (p x). Qed.

Lemma position_split p s : ascii_pred p ->
  position p (utf8s s) = match split_first p s with Some (a, _, _) => Some (blen a) | None => None end.
Proof.
  intros Hp. induction s as [|c r IH]; [reflexivity|]. cbn [utf8s flat_map split_first]. fold (utf8s r).
  destruct (N.ltb_spec c 128) as [L|L].
  - rewrite utf8_ascii_eq by auto. cbn. destruct (p c); [reflexivity|]. rewrite IH.
    destruct (split_first p r) as [[[a x] b]|]; [|reflexivity]. cbn. unfold clen. now rewrite (proj2 (N.ltb_lt _ _) L).
  - destruct (p c) eqn:E; [apply Hp in E; lia|]. rewrite position_app by (apply pred_high; [auto|now apply utf8_high]).
    rewrite IH. destruct (split_first p r) as [[[a x] b]|]; [|reflexivity]. cbn. now rewrite utf8_len.
Qed.
Lemma rposition_split p s : ascii_pred p ->
  rposition p (utf8s s) = match split_last p s with Some (a, _, _) => Some (blen a) | None => None end.
Proof.
  intros Hp. induction s as [|c r IH]; [reflexivity|]. cbn [utf8s flat_map split_last]. fold (utf8s r).
  rewrite rposition_app, IH. destruct (split_last p r) as [[[a x] b]|]; cbn; [now rewrite utf8_len|].
  destruct (N.ltb_spec c 128) as [L|L].
  - rewrite utf8_ascii_eq by auto. cbn. now destruct (p c).
  - destruct (p c) eqn:E; [apply Hp in E; lia|]. apply rposition_no, pred_high; [auto|now apply utf8_high].
Qed.
Lemma nth_utf8s a c b : c < 128 -> nth_error (utf8s (a ++ c :: b)) (blen a) = Some c.
Proof. intros H. rewrite utf8s_app. cbn. rewrite utf8_ascii_eq by auto. rewrite nth_error_app2 by (rewrite utf8s_len; lia). now rewrite utf8s_len, Nat.sub_diag. Qed.
Lemma split_first_facts p s a c b : ascii_pred p -> split_first p s = Some (a, c, b) -> s = a ++ c :: b /\ c < 128.
Proof. intros Hp H. apply split_first_some in H. destruct H as (H1 & _ & H2). split; [easy|]. now apply Hp. Qed.
Lemma split_last_facts p s a c b : ascii_pred p -> split_last p s = Some (a, c, b) -> s = a ++ c :: b /\ c < 128.
Proof. intros Hp H. apply split_last_some in H. destruct H as (H1 & _ & H2). split; [easy|]. now apply Hp. Qed.
Definition keep3 (o : option (str * N * str)) : option (str * str) := match o with Some (a, c, b) => Some (a, c :: b) | None => None end.
Definition drop3 (o : option (str * N * str)) : option (str * str) := match o with Some (a, _, b) => Some (a, b) | None => None end.
Lemma from_after a c b : c < 128 -> str_from (a ++ c :: b) (blen a + 1) = Ok b.
Proof.
  intros H. change (a ++ c :: b) with (a ++ [c] ++ b). rewrite app_assoc.
  replace (blen a + 1)%nat with (blen (a ++ [c])). { unfold str_from. now rewrite split_at_app. }
  rewrite blen_app. cbn. unfold clen. rewrite (proj2 (N.ltb_lt _ _) H). lia.
Qed.
Lemma split_ok p s : ascii_pred p -> split_result s (position p (utf8s s)) = Ok (keep3 (split_first p s)).
Proof. intros Hp. rewrite position_split by auto. destruct (split_first p s) as [[[a c] b]|] eqn:E; [|reflexivity].
  apply split_first_facts in E as [-> Hc]; auto. cbn. now rewrite split_at_app. Qed.
Lemma rsplit_ok p s : ascii_pred p -> split_result s (rposition p (utf8s s)) = Ok (keep3 (split_last p s)).
Proof. intros Hp. rewrite rposition_split by auto. destruct (split_last p s) as [[[a c] b]|] eqn:E; [|reflexivity].
  apply split_last_facts in E as [-> Hc]; auto. cbn. now rewrite split_at_app. Qed.
Lemma hole_ok p s : ascii_pred p -> hole_result s (position p (utf8s s)) = Ok (drop3 (split_first p s)).
Proof. intros Hp. rewrite position_split by auto. destruct (split_first p s) as [[[a c] b]|] eqn:E; [|reflexivity].
  apply split_first_facts in E as [-> Hc]; auto. cbn [hole_result opt_map]. unfold str_to. rewrite split_at_app. cbn [bind].
  now rewrite from_after. Qed.
Lemma rhole_ok p s : ascii_pred p -> hole_result s (rposition p (utf8s s)) = Ok (drop3 (split_last p s)).
Proof. intros Hp. rewrite rposition_split by auto. destruct (split_last p s) as [[[a c] b]|] eqn:E; [|reflexivity].
  apply split_last_facts in E as [-> Hc]; auto. cbn [hole_result opt_map]. unfold str_to. rewrite split_at_app. cbn [bind].
  now rewrite from_after. Qed.
Lemma hole3_ok p s : ascii_pred p -> hole3_result s (position p (utf8s s)) = Ok (split_first p s).
Proof. intros Hp. rewrite position_split by auto. destruct (split_first p s) as [[[a c] b]|] eqn:E; [|reflexivity].
  apply split_first_facts in E as [-> Hc]; auto. cbn [hole3_result opt_map]. unfold str_to, byte_at. rewrite split_at_app. cbn [bind].
  rewrite nth_utf8s by auto. cbn [bind]. now rewrite from_after. Qed.
Lemma hole_bytes_ok p h : hole_result_bytes h (position p h) = Ok (drop3 (split_first p h)).
Proof.
  assert (E : position p h = match split_first p h with Some (a, _, _) => Some (length a) | None => None end).
  { induction h as [|x r IH]; cbn; [reflexivity|]. destruct (p x); [reflexivity|]. rewrite IH. now destruct (split_first p r) as [[[a ?] ?]|]. }
  rewrite E. destruct (split_first p h) as [[[a c] b]|] eqn:F; [|reflexivity]. apply split_first_some in F as (-> & _ & _).
  cbn [hole_result_bytes opt_map drop3]. unfold bytes_to, bytes_from.
  assert (L : length (a ++ c :: b) = (length a + S (length b))%nat) by (rewrite app_length; reflexivity).
  rewrite !(proj2 (Nat.ltb_ge _ _)) by lia. cbn [bind]. rewrite firstn_app, Nat.sub_diag, firstn_all. cbn. rewrite app_nil_r.
  change (a ++ c :: b) with (a ++ [c] ++ b). rewrite app_assoc.
  replace (length a + 1)%nat with (length (a ++ [c])) by (rewrite app_length; reflexivity).
  rewrite skipn_app, skipn_all, Nat.sub_diag. reflexivity.
Qed.

Lemma ap1 n : n < 128 -> ascii_pred (is1 n).
Proof. intros H b E. apply is1_iff in E. now subst. Qed.
Lemma ap2 a b : a < 128 -> b < 128 -> ascii_pred (is2 a b).
Proof. intros ? ? x E. apply is2_iff in E. destruct E; now subst. Qed.
Lemma ap3 a b c : a < 128 -> b < 128 -> c < 128 -> ascii_pred (is3 a b c).
Proof. intros ? ? ? x E. apply is3_iff in E. destruct E as [|[|]]; now subst. Qed.
Lemma ap4 a b c d : a < 128 -> b < 128 -> c < 128 -> d < 128 -> ascii_pred (is4 a b c d).
Proof. intros ? ? ? ? x E. unfold is4 in E. rewrite !orb_true_iff, !N.eqb_eq in E. destruct E as [[[|]|]|]; now subst. Qed.

(** ** Chunks and scanning helper: [is1 n] against [N.eqb n] *)
Lemma first_is1 n s : split_first (is1 n) s = split_first (N.eqb n) s.
Proof. apply split_first_ext. intros c. apply N.eqb_sym. Qed.
Lemma last_is1 n s : split_last (is1 n) s = split_last (N.eqb n) s.
Proof. induction s as [|c r IH]; cbn; [reflexivity|]. rewrite IH. unfold is1. now rewrite N.eqb_sym. Qed.

Lemma find_split_agree m s n : memchr_contract m -> n < 128 ->
  find_split_p s n = Ok (find_split s n) /\ find_split_m m s n = Ok (find_split s n).
Proof. intros Hm Hn. unfold find_split_p, find_split_m, find_split. rewrite (memchr_eq m Hm).
  rewrite (split_ok (is1 n)) by now apply ap1. now rewrite first_is1. Qed.
Lemma find_split2_agree m s a b : memchr_contract m -> a < 128 -> b < 128 ->
  find_split2_p s a b = Ok (find_split2 s a b) /\ find_split2_m m s a b = Ok (find_split2 s a b).
Proof. intros Hm Ha Hb. unfold find_split2_p, find_split2_m, find_split2. rewrite (memchr2_eq m Hm).
  rewrite (split_ok (is2 a b)) by now apply ap2. split; reflexivity. Qed.
Lemma rfind_split2_agree m s a b : memchr_contract m -> a < 128 -> b < 128 ->
  rfind_split2_p s a b = Ok (rfind_split2 s a b) /\ rfind_split2_m m s a b = Ok (rfind_split2 s a b).
Proof. intros Hm Ha Hb. unfold rfind_split2_p, rfind_split2_m, rfind_split2. rewrite (memrchr2_eq m Hm).
  rewrite (rsplit_ok (is2 a b)) by now apply ap2. split; reflexivity. Qed.
Lemma find_split3_agree m s a b c : memchr_contract m -> a < 128 -> b < 128 -> c < 128 ->
  find_split3_p s a b c = Ok (find_split3 s a b c) /\ find_split3_m m s a b c = Ok (find_split3 s a b c).
Proof. intros Hm Ha Hb Hc. unfold find_split3_p, find_split3_m, find_split3. rewrite (memchr3_eq m Hm).
  rewrite (split_ok (is3 a b c)) by now apply ap3. split; reflexivity. Qed.
Lemma find_split_hole_agree m s n : memchr_contract m -> n < 128 ->
  find_split_hole_p s n = Ok (find_split_hole s n) /\ find_split_hole_m m s n = Ok (find_split_hole s n).
Proof. intros Hm Hn. unfold find_split_hole_p, find_split_hole_m, find_split_hole. rewrite (memchr_eq m Hm).
  rewrite (hole_ok (is1 n)) by now apply ap1. now rewrite first_is1. Qed.
Lemma find_split_hole_bytes_agree m h n : memchr_contract m ->
  find_split_hole_bytes_p h n = Ok (find_split_hole h n) /\ find_split_hole_bytes_m m h n = Ok (find_split_hole h n).
Proof. intros Hm. unfold find_split_hole_bytes_p, find_split_hole_bytes_m, find_split_hole. rewrite (memchr_eq m Hm).
  rewrite hole_bytes_ok. now rewrite first_is1. Qed.
Lemma rfind_split_hole_agree m s n : memchr_contract m -> n < 128 ->
  rfind_split_hole_p s n = Ok (rfind_split_hole s n) /\ rfind_split_hole_m m s n = Ok (rfind_split_hole s n).
Proof. intros Hm Hn. unfold rfind_split_hole_p, rfind_split_hole_m, rfind_split_hole. rewrite (memrchr_eq m Hm).
  rewrite (rhole_ok (is1 n)) by now apply ap1. now rewrite last_is1. Qed.
Lemma find_split2_hole_agree m s a b : memchr_contract m -> a < 128 -> b < 128 ->
  find_split2_hole_p s a b = Ok (find_split2_hole s a b) /\ find_split2_hole_m m s a b = Ok (find_split2_hole s a b).
Proof. intros Hm Ha Hb. unfold find_split2_hole_p, find_split2_hole_m, find_split2_hole. rewrite (memchr2_eq m Hm).
  rewrite (hole3_ok (is2 a b)) by now apply ap2. split; reflexivity. Qed.
Lemma find_split4_hole_agree m s a b c d : memchr_contract m -> a < 128 -> b < 128 -> c < 128 -> d < 128 ->
  find_split4_hole_p s a b c d = Ok (find_split4_hole s a b c d) /\
  find_split4_hole_m m s a b c d = Ok (find_split4_hole s a b c d).
Proof.
  intros Hm Ha Hb Hc Hd. pose proof (ap4 _ _ _ _ Ha Hb Hc Hd) as Hp.
  assert (E : find_split4_hole_p s a b c d = Ok (find_split4_hole s a b c d)).
  { unfold find_split4_hole_p. now rewrite hole3_ok. }
  split; [exact E|]. rewrite <- E. unfold find_split4_hole_p, find_split4_hole_m.
  rewrite (memchr3_eq m Hm), <- four_step.
  destruct (position (is3 a b c) (utf8s s)) as [k|] eqn:Ek.
  - unfold bytes_to. rewrite (proj2 (Nat.ltb_ge _ _)) by (apply position_le in Ek; lia). cbn [bind].
    now rewrite (memchr_eq m Hm).
  - cbn [bind]. now rewrite (memchr_eq m Hm).
Qed.

(** ** Writers *)
Lemma run_bytebuf chunks : forall before buffer,
  run bytebuf_write (before, buffer) chunks OOk =
  if Nat.leb (length (utf8s (concat chunks))) (length buffer)
  then ((before ++ utf8s (concat chunks), skipn (length (utf8s (concat chunks))) buffer), OOk)
  else run bytebuf_write (before, buffer) chunks OOk.
Proof.
  induction chunks as [|c r IH]; intros before buffer; cbn [concat run].
  - cbn. now rewrite app_nil_r.
  - destruct (Nat.leb_spec (length (utf8s (c ++ concat r))) (length buffer)) as [L|L]; [|reflexivity].
    rewrite utf8s_app, app_length in *. cbn [bytebuf_write].
    rewrite (proj2 (Nat.ltb_ge _ _)) by lia. rewrite IH.
    rewrite skipn_length, (proj2 (Nat.leb_le _ _)) by lia. f_equal. f_equal; [now rewrite app_assoc|].
    clear. revert buffer. induction (length (utf8s c)); cbn; intros; [reflexivity|]. destruct buffer; [now rewrite !skipn_nil|]. apply IHn.
Qed.
Lemma run_bytebuf_over chunks : forall before buffer, (length buffer < length (utf8s (concat chunks)))%nat ->
  exists k rest, utf8s (concat chunks) = k ++ rest /\
    run bytebuf_write (before, buffer) chunks OOk = ((before ++ k, skipn (length k) buffer), OErr) /\ (length k <= length buffer)%nat.
Proof.
  induction chunks as [|c r IH]; intros before buffer L; cbn [concat run] in *; [cbn in L; lia|].
  rewrite utf8s_app, app_length in L. cbn [bytebuf_write]. rewrite utf8s_app.
  destruct (Nat.ltb_spec (length buffer) (length (utf8s c))) as [H|H].
  - exists [], (utf8s c ++ utf8s (concat r)). cbn. rewrite app_nil_r. repeat split; lia.
  - destruct (IH (before ++ utf8s c) (skipn (length (utf8s c)) buffer)) as (k & rest & E1 & E2 & E3); [rewrite skipn_length; lia|].
    exists (utf8s c ++ k), rest. rewrite E1, E2, <- !app_assoc, app_length. rewrite skipn_length in E3. repeat split; [|lia].
    f_equal. f_equal. clear. revert buffer. induction (length (utf8s c)); cbn; intros; [reflexivity|]. destruct buffer; [now rewrite !skipn_nil|]. apply IHn.
Qed.
Lemma slice_ok {A} buf (d : W A) a : snd d = Ret a -> let out := utf8s (concat (fst d)) in
  (length out <= length buf)%nat -> write_to_slice buf d = (Ok (Some out), out ++ skipn (length out) buf).
Proof.
  intros Hd out L. unfold write_to_slice, run_display. rewrite Hd. cbn [end_of]. rewrite run_bytebuf.
  fold out. rewrite (proj2 (Nat.leb_le _ _) L). cbn [app]. rewrite firstn_app, firstn_all, Nat.sub_diag. cbn. now rewrite app_nil_r.
Qed.
Lemma slice_over {A} buf (d : W A) a : snd d = Ret a -> let out := utf8s (concat (fst d)) in
  (length buf < length out)%nat -> exists k rest, out = k ++ rest /\ (length k <= length buf)%nat /\
    write_to_slice buf d = (Ok None, k ++ skipn (length k) buf).
Proof.
  intros Hd out L. unfold write_to_slice, run_display. rewrite Hd. cbn [end_of].
  destruct (run_bytebuf_over (fst d) [] buf L) as (k & rest & E1 & E2 & E3). exists k, rest. rewrite E2. repeat split; auto.
Qed.
Lemma run_string alloc chunks : forall buf n,
  (forall i, (i < length chunks)%nat -> alloc (n + i)%nat = true) ->
  run (string_write alloc) (mkSW buf false n) chunks OOk = (mkSW (buf ++ concat chunks) false (n + length chunks), OOk).
Proof.
  induction chunks as [|c r IH]; intros buf n H; cbn [run concat length].
  - now rewrite app_nil_r, Nat.add_0_r.
  - cbn [string_write sw_error sw_calls sw_buffer]. rewrite <- (Nat.add_0_r n), H by (cbn; lia). rewrite Nat.add_0_r.
    rewrite IH. { rewrite <- app_assoc. do 2 f_equal. cbn. lia. }
    intros i Hi. replace (S n + i)%nat with (n + S i)%nat by lia. apply H. cbn; lia.
Qed.
Lemma run_string_fail alloc chunks : forall buf n k, (k < length chunks)%nat -> alloc (n + k)%nat = false ->
  (forall i, (i < k)%nat -> alloc (n + i)%nat = true) ->
  run (string_write alloc) (mkSW buf false n) chunks OOk = (mkSW (buf ++ concat (firstn k chunks)) true (S (n + k)), OErr).
Proof.
  induction chunks as [|c r IH]; intros buf n k L F H; cbn [run length] in *; [lia|].
  cbn [string_write sw_error sw_calls sw_buffer]. destruct k as [|k].
  - rewrite Nat.add_0_r in *. rewrite F. cbn. now rewrite app_nil_r.
  - replace (alloc n) with true by (rewrite <- (Nat.add_0_r n); symmetry; apply H; lia).
    rewrite IH with (k := k); [cbn [firstn concat]; rewrite <- app_assoc; do 2 f_equal; lia|lia| |].
    + now replace (S n + k)%nat with (n + S k)%nat by lia.
    + intros i Hi. replace (S n + i)%nat with (n + S i)%nat by lia. apply H. lia.
Qed.
Lemma append_ok {A} alloc dest (d : W A) a : snd d = Ret a ->
  (forall i, (i < length (fst d))%nat -> alloc i = true) ->
  try_append_to_string alloc dest d = (Ok tt, dest ++ concat (fst d)).
Proof. intros Hd H. unfold try_append_to_string, run_display. rewrite Hd. cbn [end_of]. rewrite run_string by exact H. reflexivity. Qed.
Lemma append_fail {A} alloc dest (d : W A) a k : snd d = Ret a -> (k < length (fst d))%nat -> alloc k = false ->
  (forall i, (i < k)%nat -> alloc i = true) ->
  try_append_to_string alloc dest d = (Err AllocFailed, dest ++ concat (firstn k (fst d))).
Proof. intros Hd L F H. unfold try_append_to_string, run_display. rewrite Hd. cbn [end_of]. rewrite (run_string_fail alloc (fst d) dest 0 k L F H). reflexivity. Qed.
Lemma to_string_ok {A} alloc (d : W A) a : snd d = Ret a ->
  (forall i, (i < length (fst d))%nat -> alloc i = true) -> try_to_string alloc d = Ok (concat (fst d)).
Proof. intros Hd H. unfold try_to_string. now rewrite (append_ok alloc [] d a Hd H). Qed.
Lemma to_string_fail {A} alloc (d : W A) a k : snd d = Ret a -> (k < length (fst d))%nat -> alloc k = false ->
  try_to_string alloc d = Err AllocFailed.
Proof.
  intros Hd L F.
  assert (X : exists k', (k' < length (fst d))%nat /\ alloc k' = false /\ forall i, (i < k')%nat -> alloc i = true).
  { clear Hd. revert L F. induction k as [k IH] using lt_wf_ind. intros L F.
    destruct (forallb alloc (seq 0 k)) eqn:E.
    - exists k. repeat split; auto. intros i Hi. rewrite forallb_forall in E. apply E, in_seq. lia.
    - assert (H : exists j, (j < k)%nat /\ alloc j = false).
      { clear -E. induction k as [|k IH]; [discriminate|]. rewrite seq_S, forallb_app in E. cbn [forallb] in E. destruct (forallb alloc (seq 0 k)); cbn [andb] in E.
        - exists k. split; [lia|]. cbn [Nat.add] in E. destruct (alloc k); [discriminate|reflexivity].
        - destruct (IH eq_refl) as (j & ? & ?). exists j. split; [lia|assumption]. }
      destruct H as (j & Hj & Fj). apply (IH j Hj); [lia|assumption]. }
  destruct X as (k' & L' & F' & H'). unfold try_to_string. now rewrite (append_fail alloc [] d a k' Hd L' F' H').
Qed.
Lemma eq_ok {A} s (d : W A) a : snd d = Ret a -> exists b, eq_str_display s d = Ok b /\ (b = true <-> s = concat (fst d)).
Proof. intros Hd. exists (seqb s (concat (fst d))). split; [|apply seqb_eq]. destruct d as [cs e]. cbn in Hd. subst e. now apply (eq_display_ok s (cs, Ret a) (concat cs) a). Qed.
Lemma in_none n s : none (N.eqb n) s = true -> ~ In n s.
Proof. unfold none. rewrite forallb_forall. intros H I. specialize (H _ I). now rewrite N.eqb_refl in H. Qed.
Lemma find_split_hole_meaning s n :
  match find_split_hole s n with Some (a, b) => s = a ++ n :: b /\ ~ In n a | None => ~ In n s end.
Proof.
  unfold find_split_hole. destruct (split_first (N.eqb n) s) as [[[a c] b]|] eqn:E.
  - apply split_first_some in E as (-> & E3 & E2). apply N.eqb_eq in E2. subst c. split; [reflexivity|]. now apply in_none.
  - apply split_first_none in E. now apply in_none.
Qed.
Lemma rfind_split_hole_meaning s n :
  match rfind_split_hole s n with Some (a, b) => s = a ++ n :: b /\ ~ In n b | None => ~ In n s end.
Proof.
  unfold rfind_split_hole. destruct (split_last (N.eqb n) s) as [[[a c] b]|] eqn:E.
  - apply split_last_some in E as (-> & E3 & E2). apply N.eqb_eq in E2. subst c. split; [reflexivity|]. now apply in_none.
  - apply split_last_none in E. now apply in_none.
Qed.
Lemma position_searches p (P : N -> Prop) h : (forall x, P x <-> p x = true) -> searches first_at P h (position p h).
Proof. intros E. destruct (position p h) eqn:F; cbn.
  - apply position_first in F. eapply first_iff; [|exact F]. intros; cbn. symmetry. apply E.
  - apply position_none in F. eapply Forall_impl; [|exact F]. intros x H Px. now apply H, E. Qed.
Lemma rposition_searches p (P : N -> Prop) h : (forall x, P x <-> p x = true) -> searches last_at P h (rposition p h).
Proof. intros E. destruct (rposition p h) eqn:F; cbn.
  - apply rposition_last in F. eapply last_iff; [|exact F]. intros; cbn. symmetry. apply E.
  - apply rposition_none in F. eapply Forall_impl; [|exact F]. intros x H Px. now apply H, E. Qed.
Lemma simple_contract : memchr_contract
  {| memchr := fun a => position (is1 a); memchr2 := fun a b => position (is2 a b);
     memchr3 := fun a b c => position (is3 a b c); memrchr := fun a => rposition (is1 a);
     memrchr2 := fun a b => rposition (is2 a b) |}.
Proof.
  repeat split; intros; cbn.
  - apply position_searches, is1_iff. - apply position_searches, is2_iff. - apply position_searches, is3_iff.
  - apply rposition_searches, is1_iff. - apply rposition_searches, is2_iff.
Qed.
