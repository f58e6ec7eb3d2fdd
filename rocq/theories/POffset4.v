(** * Proofs for C77: path normalization with byte offsets. *)
From Verif Require Import Base Chars Utf8 SearchSpec MValidate MTrusted MFormat MWriters MSearch MPct MPath MNormalize MEdit MOffset PBase PSearch PPath POffset POffset7.

Lemma p_len_flat p : p_len p = length (flat p) /\ o_p_len p = blen (flat p).
Proof. unfold p_len, o_p_len, flat. destruct (back p); rewrite app_length, blen_app; change (blen []) with 0%nat; cbn [length]; split; lia. Qed.
(** Two ways of cutting one string in two. *)
Lemma cuts (x y f b : str) : x ++ y = f ++ b -> (length f <= length x)%nat /\ (blen f <= blen x)%nat /\ (exists x2, x = f ++ x2 /\ b = x2 ++ y) \/
  (length x < length f)%nat /\ (blen x < blen f)%nat /\ (exists c y2, f = x ++ c :: y2 /\ y = c :: y2 ++ b).
Proof.
  revert f. induction x as [|c x IH]; intros f E.
  - destruct f as [|d f]; [left; repeat split; try (cbn; lia); now exists []|]. right. rewrite blen_cons. pose proof (clen_pos d). change (blen []) with 0%nat. cbn [length app] in *.
    split; [lia|]. split; [lia|]. now exists d, f.
  - destruct f as [|d f]; [left; cbn [length]; change (blen []) with 0%nat; split; [lia|split; [lia|]]; now exists (c :: x)|].
    injection E as -> E. rewrite !blen_cons. cbn [length]. destruct (IH f E) as [(A & B & x2 & -> & ->)|(A & B & c' & y2 & -> & ->)].
    + left. split; [lia|]. split; [lia|]. now exists x2.
    + right. split; [lia|]. split; [lia|]. now exists c', y2.
Qed.
Lemma split_beyond s n : (blen s < n)%nat -> str_split_at s n = Panic.
Proof.
  revert n. induction s as [|c s IH]; intros n H; destruct n as [|n]; try (cbn in H; lia); [reflexivity|]. rewrite blen_cons in H. cbn [str_split_at].
  destruct (Nat.ltb (Datatypes.S n) (clen c)) eqn:E; [reflexivity|]. apply Nat.ltb_ge in E. rewrite IH by lia. reflexivity.
Qed.
Lemma bget_beyond s a b : (blen s < b)%nat -> bget s a b = None.
Proof. intros H. unfold bget, bslice. destruct (Nat.ltb b a); [reflexivity|]. now rewrite split_beyond. Qed.
Lemma slice_beyond (s : str) a b : (length s < b)%nat -> slice s a b = None.
Proof. intros H. unfold slice. rewrite (proj2 (Nat.leb_gt b (length s))) by exact H. now rewrite andb_false_r. Qed.
Lemma slice_some s x y z a b : s = x ++ y ++ z -> a = length x -> b = (length x + length y)%nat -> slice s a b = Some y.
Proof. intros A B C. pose proof (slice_mid s x y z a b A B C) as H. unfold slice_p in H. destruct (slice s a b); [now injection H as ->|discriminate]. Qed.
Definition rest_of (p : ptn) : str := match back p with Some b => b | None => [] end.
Lemma flat_eq p : flat p = front p ++ rest_of p.
Proof. reflexivity. Qed.

(** ** The iterator *)
Lemma find_pos_eq t : find_pos SLASH t = None /\ o_find_chr SLASH t = None \/ exists a r, t = a ++ SLASH :: r /\ find_pos SLASH t = Some (length a) /\ o_find_chr SLASH t = Some (blen a).
Proof.
  unfold find_pos. rewrite o_find_chr_eq by reflexivity. destruct (split_first _ t) as [[[a c] r]|] eqn:E; [right|now left].
  apply split_first_some in E. destruct E as (-> & _ & Ec). apply N.eqb_eq in Ec. subst c. now exists a, r.
Qed.
Lemma find_next_sim p x y : flat p = x ++ y -> match find_next_slash_from p (length x) with
  | Ok (Some e) => exists t r, y = t ++ SLASH :: r /\ e = (length x + length t)%nat /\ o_find_next_slash_from p (blen x) = Ok (Some (blen x + blen t)%nat)
  | Ok None => o_find_next_slash_from p (blen x) = Ok None
  | _ => True end.
Proof.
  rewrite flat_eq. intros E. symmetry in E. unfold find_next_slash_from, o_find_next_slash_from.
  destruct (cuts _ _ _ _ E) as [(A & B & x2 & Ex & Eb)|(A & B & c & y2 & Ef & Ey)].
  - rewrite (proj2 (Nat.leb_le _ _) A), (proj2 (Nat.leb_le _ _) B). unfold rest_of in Eb. destruct (back p) as [b|]; [|reflexivity].
    rewrite (slice_mid b x2 y []); [|rewrite Eb, app_nil_r; reflexivity|rewrite Ex, app_length; lia|rewrite Eb, app_length; reflexivity].
    rewrite (str_from_mid b x2 y); [|exact Eb|rewrite Ex, blen_app; lia]. cbn [bind].
    destruct (find_pos_eq y) as [[-> ->]|(a & r & Ey & -> & ->)]; [reflexivity|]. now exists a, r.
  - rewrite (proj2 (Nat.leb_gt _ _) A), (proj2 (Nat.leb_gt _ _) B).
    rewrite (slice_mid (front p) x (c :: y2) []); [|rewrite Ef, app_nil_r; reflexivity|reflexivity|rewrite Ef, app_length; reflexivity].
    rewrite (str_from_mid (front p) x (c :: y2)); [|exact Ef|reflexivity]. cbn [bind].
    destruct (find_pos_eq (c :: y2)) as [[-> ->]|(a & r & Ea & -> & ->)]; [now destruct (is_some (back p))|]. exists a, (r ++ rest_of p).
    split; [|split; reflexivity]. rewrite Ey. change (c :: y2 ++ rest_of p) with ((c :: y2) ++ rest_of p). rewrite Ea. now rewrite <- app_assoc.
Qed.
Definition same_seg (p : ptn) (g g' : pseg) : Prop := has_leading_slash g' = has_leading_slash g /\ exists x y z, flat p = x ++ y ++ z /\
  seg_start g = length x /\ seg_end g = (length x + length y)%nat /\ seg_start g' = blen x /\ seg_end g' = (blen x + blen y)%nat /\ (z = [] \/ exists r, z = SLASH :: r).
Lemma byte_at_sim p x y : flat p = x ++ y -> match byte_at p (length x) with
  | Ok (Some c) => exists b r, y = c :: r /\ o_byte_at p (blen x) = Ok (Some b) /\ (b =? SLASH) = (c =? SLASH)
  | Ok None => o_byte_at p (blen x) = Ok None
  | _ => True end.
Proof.
  rewrite flat_eq. intros E. symmetry in E. unfold byte_at, o_byte_at.
  assert (NB : forall u c v, exists b, nth_error (utf8s (u ++ c :: v)) (blen u) = Some b /\ (b =? SLASH) = (c =? SLASH)).
  { intros u c v. destruct (first_byte c) as (b & l & Eb & F). exists b. split; [|now apply F]. rewrite utf8s_app. rewrite <- utf8s_len, nth_error_app2, Nat.sub_diag by lia.
    cbn [utf8s flat_map]. rewrite Eb. reflexivity. }
  destruct (cuts _ _ _ _ E) as [(A & B & x2 & Ex & Eb)|(A & B & c & y2 & Ef & Ey)].
  - rewrite (proj2 (Nat.ltb_ge _ _) A), (proj2 (Nat.ltb_ge _ _) B). unfold rest_of in Eb. destruct (back p) as [b|]; [|reflexivity].
    replace (length x - length (front p))%nat with (length x2) by (rewrite Ex, app_length; lia). replace (blen x - blen (front p))%nat with (blen x2) by (rewrite Ex, blen_app; lia).
    subst b. destruct y as [|c y].
    + rewrite app_nil_r. rewrite (proj2 (nth_error_None _ _)) by lia. rewrite (proj2 (nth_error_None _ _)) by (rewrite utf8s_len; lia). reflexivity.
    + rewrite nth_mid. destruct (NB x2 c y) as (b & -> & F). now exists b, y.
  - rewrite (proj2 (Nat.ltb_lt _ _) A), (proj2 (Nat.ltb_lt _ _) B). rewrite Ef, nth_mid. unfold MSearch.byte_at. destruct (NB x c y2) as (b & -> & F). now exists b, (y2 ++ rest_of p).
Qed.
Lemma iter_sim p x y : flat p = x ++ y -> match iter_next p (length x) with
  | Ok None => o_iter_next p (blen x) = Ok None
  | Ok (Some (g, k')) => exists g', o_iter_next p (blen x) = Ok (Some (g', seg_end g')) /\ k' = seg_end g /\ same_seg p g g'
  | _ => True end.
Proof.
  intros E. unfold iter_next, o_iter_next. pose proof (byte_at_sim p x y E) as Sb. destruct (byte_at p (length x)) as [[c|]|e|]; try exact I; [|now rewrite Sb].
  destruct Sb as (b & r & Ey & -> & Eb). cbn [bind]. rewrite Eb. destruct (p_len_flat p) as [P1 P2].
  assert (St : exists x' y', flat p = x' ++ y' /\ (if N.eqb c SLASH then length x + 1 else length x)%nat = length x' /\ (if N.eqb c SLASH then blen x + 1 else blen x)%nat = blen x').
  { destruct (c =? SLASH) eqn:Ec; [|now exists x, y]. apply N.eqb_eq in Ec. subst c. exists (x ++ [SLASH]), r. split; [rewrite E, Ey, <- app_assoc; reflexivity|].
    rewrite app_length, blen_app. split; reflexivity. }
  destruct St as (x' & y' & E' & -> & ->). pose proof (find_next_sim p x' y' E') as Sf. destruct (find_next_slash_from p (length x')) as [[e|]|e|]; try exact I; cbn [bind].
  - destruct Sf as (t & r' & Ey' & -> & ->). cbn [bind]. exists (mkSeg (c =? SLASH) (blen x') (blen x' + blen t)). split; [reflexivity|]. split; [reflexivity|]. split; [reflexivity|]. cbn [seg_start seg_end].
    exists x', t, (SLASH :: r'). split; [now rewrite E', Ey'|]. repeat split; auto. right. now exists r'.
  - rewrite Sf. cbn [bind]. exists (mkSeg (c =? SLASH) (blen x') (o_p_len p)). split; [reflexivity|]. split; [reflexivity|]. split; [reflexivity|]. cbn [seg_start seg_end].
    exists x', y', []. rewrite app_nil_r. split; [exact E'|]. rewrite P1, P2, E', app_length, blen_app. repeat split; auto.
Qed.
Lemma segment_sim p g g' s : same_seg p g g' -> MPath.segment p g = Ok s -> o_segment p g' = Ok s.
Proof.
  intros (_ & x & y & z & E & E1 & E2 & E3 & E4 & _). unfold MPath.segment, o_segment. rewrite E1, E2, E3, E4. rewrite flat_eq in E. rewrite app_assoc in E. symmetry in E.
  destruct (Nat.leb (length (x ++ y)) (length (front p))) eqn:L.
  - apply Nat.leb_le in L. assert (Ef : exists z', front p = x ++ y ++ z').
    { destruct (cuts _ _ _ _ E) as [(A & B & x2 & Ex & Eb)|(A & B & c & y2 & Ef & Ey)].
      - assert (x2 = []). { apply (f_equal (@length N)) in Ex. rewrite (app_length (front p)) in Ex. apply len_nil. lia. } subst x2. exists []. rewrite app_nil_r in *. symmetry. exact Ex.
      - exists (c :: y2). now rewrite app_assoc. }
    destruct Ef as (z' & Ef). rewrite (slice_some _ x y z') by auto. unfold bget. rewrite (bslice_mid _ x y z') by auto. auto.
  - apply Nat.leb_gt in L. destruct (cuts _ _ _ _ E) as [(A & B & x2 & Ex & Eb)|(A & B & _)]; [|lia].
    rewrite slice_beyond by (rewrite app_length in L; lia). rewrite bget_beyond.
    2:{ rewrite <- blen_app. rewrite Ex, blen_app. destruct x2 as [|c x2]; [rewrite app_nil_r in Ex; rewrite Ex in L; lia|]. rewrite blen_cons. pose proof (clen_pos c). lia. }
    unfold rest_of in Eb. destruct (back p) as [b|] eqn:Hb; [|discriminate].
    destruct (Nat.leb (length (front p)) (length x)) eqn:Lx; cbn [andb]; [|discriminate]. rewrite (proj2 (Nat.leb_le _ _)) by (apply Nat.leb_le in Lx; lia). apply Nat.leb_le in Lx.
    rewrite <- app_assoc in E. destruct (cuts _ _ _ _ E) as [(A' & B' & x3 & Ex' & Eb')|(A' & _)]; [|lia]. unfold rest_of in Eb'.
    rewrite (proj2 (Nat.leb_le _ _) B'). rewrite (proj2 (Nat.leb_le _ _)) by lia. cbn [andb].
    assert (Bb : b = x3 ++ y ++ z) by (rewrite Hb in Eb'; exact Eb').
    rewrite (slice_mid b x3 y z); [|exact Bb|rewrite Ex', app_length; lia|rewrite Ex', app_length; lia].
    rewrite (bslice_mid b x3 y z); [auto|exact Bb|rewrite Ex', blen_app; lia|rewrite Ex', blen_app; lia].
Qed.
Definition at_ (s : str) (k n : nat) : Prop := exists x y, s = x ++ y /\ k = length x /\ n = blen x.
Lemma remove_start_sim p k n : at_ (flat p) k n -> o_remove_start p n = Ok (remove_start p k).
Proof.
  intros (x & y & E & -> & ->). rewrite flat_eq in E. symmetry in E. unfold remove_start, o_remove_start.
  destruct (cuts _ _ _ _ E) as [(A & B & x2 & Ex & Eb)|(A & B & c & y2 & Ef & Ey)].
  - rewrite (proj2 (Nat.leb_le _ _) A), (proj2 (Nat.leb_le _ _) B). unfold rest_of in Eb. destruct (back p) as [b|]; [|reflexivity].
    rewrite (slice_some b x2 y []); [|rewrite Eb, app_nil_r; reflexivity|rewrite Ex, app_length; lia|rewrite Eb, app_length; reflexivity].
    rewrite (str_from_mid b x2 y); [reflexivity|exact Eb|rewrite Ex, blen_app; lia].
  - rewrite (proj2 (Nat.leb_gt _ _) A), (proj2 (Nat.leb_gt _ _) B). rewrite (str_from_mid (front p) x (c :: y2)) by auto. cbn [bind]. rewrite Ef.
    now rewrite skipn_app, skipn_all, Nat.sub_diag.
Qed.
Lemma seg_end_at p g g' : same_seg p g g' -> at_ (flat p) (seg_end g) (seg_end g').
Proof. intros (_ & x & y & z & E & _ & E2 & _ & E4 & _). exists (x ++ y), z. rewrite E2, E4, app_length, blen_app, <- app_assoc. auto. Qed.
Lemma skip_at p g g' : same_seg p g g' -> at_ (flat p) (Nat.min (length (front p)) (seg_end g + 1)) (Nat.min (blen (front p)) (seg_end g' + 1)).
Proof.
  intros (_ & x & y & z & E & _ & E2 & _ & E4 & Z). rewrite E2, E4, <- app_length, <- blen_app. rewrite app_assoc in E. rewrite flat_eq in *. symmetry in E.
  destruct (cuts _ _ _ _ E) as [(A & B & x2 & Ex & Eb)|(A & B & c & y2 & Ef & Ey)].
  - rewrite !Nat.min_l by lia. now exists (front p), (rest_of p).
  - rewrite !Nat.min_r by (assert (blen (front p) > blen (x ++ y))%nat by lia; lia). destruct Z as [-> | (r & ->)]; [discriminate|]. injection Ey as <- Ey.
    exists ((x ++ y) ++ [SLASH]), (y2 ++ rest_of p). split; [rewrite Ef, <- !app_assoc; reflexivity|]. rewrite (app_length (x ++ y)), (blen_app (x ++ y)). now split.
Qed.
Lemma ignorable_sim f f' p p' : (f <= f')%nat -> remove_ignorable_prefix f p = Ok p' -> o_remove_ignorable_prefix f' p = Ok p'.
Proof.
  revert f' p. induction f as [|f IH]; intros f' p L; [discriminate|]. destruct f' as [|f']; [lia|]. cbn [remove_ignorable_prefix o_remove_ignorable_prefix].
  pose proof (iter_sim p [] (flat p) eq_refl) as I. change (length (@nil N)) with 0%nat in I. change (blen []) with 0%nat in I. destruct (iter_next p 0) as [[[g k]|]|e|]; cbn [bind]; try discriminate; [|now rewrite I].
  destruct I as (g' & -> & _ & Sg). cbn [bind]. rewrite (proj1 Sg). destruct (has_leading_slash g); [auto|]. unfold seg_kind, o_seg_kind.
  destruct (MPath.segment p g) as [s|e|] eqn:Es; cbn [bind]; try discriminate. rewrite (segment_sim _ _ _ _ Sg Es). cbn [bind].
  destruct (from_segment s); auto; rewrite (remove_start_sim p _ _ (skip_at _ _ _ Sg)); cbn [bind]; apply IH; lia.
Qed.
Lemma at_zero s : at_ s 0 0.
Proof. exists [], s. now repeat split. Qed.
Lemma skipped_sim f f' p k n l l' r : (f <= f')%nat -> at_ (flat p) k n -> at_ (flat p) l l' -> skipped_len f p k l = Ok r -> exists r', o_skipped_len f' p n l' = Ok r' /\ at_ (flat p) r r'.
Proof.
  revert f' k n l l'. induction f as [|f IH]; intros f' k n l l' L (x & y & E & -> & ->) Al; [discriminate|]. destruct f' as [|f']; [lia|]. cbn [skipped_len o_skipped_len].
  pose proof (iter_sim p x y E) as I. destruct (iter_next p (length x)) as [[[g k]|]|e|]; cbn [bind]; try discriminate; [|rewrite I; intros [= <-]; cbn [bind]; eauto].
  destruct I as (g' & -> & -> & Sg). cbn [bind]. unfold seg_kind, o_seg_kind.
  destruct (MPath.segment p g) as [s|e|] eqn:Es; cbn [bind]; try discriminate. rewrite (segment_sim _ _ _ _ Sg Es). cbn [bind]. rewrite (proj1 Sg).
  assert (Ae := seg_end_at _ _ _ Sg).
  destruct (from_segment s); [| |intros [= <-]; eauto]; (destruct (has_leading_slash g); cbn [negb]; [|discriminate]); intros H; eapply IH; eauto; lia.
Qed.
Definition same_q (p : ptn) (q q' : qstate) : Prop := queue q' = queue q /\ first_leading q' = first_leading q /\ level q' = level q /\ flag q' = flag q /\ at_ (flat p) (resolved_end q) (resolved_end q').
Lemma queue_step_sim p q q' k g g' s : same_q p q q' -> same_seg p g g' -> same_q p (queue_step q k g s) (queue_step q' k g' s).
Proof.
  intros (A & B & C & D & E) G. assert (Ae := seg_end_at _ _ _ G). destruct k; cbn [queue_step]; rewrite ?A, ?B, ?C, ?D.
  - now repeat split.
  - now repeat split.
  - rewrite (proj1 G). destruct (Nat.ltb _ _); now repeat split.
Qed.
Lemma queue_sim f f' p k n q q' r : (f <= f')%nat -> at_ (flat p) k n -> same_q p q q' -> queue_loop f p k q = Ok r -> exists r', o_queue_loop f' p n q' = Ok r' /\ same_q p r r'.
Proof.
  revert f' k n q q'. induction f as [|f IH]; intros f' k n q q' L (x & y & E & -> & ->) Q; [discriminate|]. destruct f' as [|f']; [lia|]. cbn [queue_loop o_queue_loop].
  pose proof (iter_sim p x y E) as I. destruct (iter_next p (length x)) as [[[g k]|]|e|]; cbn [bind]; try discriminate; [|rewrite I; intros [= <-]; cbn [bind]; eauto].
  destruct I as (g' & -> & -> & Sg). cbn [bind].
  destruct (MPath.segment p g) as [s|e|] eqn:Es; cbn [bind]; try discriminate. rewrite (segment_sim _ _ _ _ Sg Es). cbn [bind].
  intros H. eapply IH; eauto; [lia|now apply seg_end_at|]. now apply queue_step_sim.
Qed.

(** ** Writing *)
Section Write.
Context (m : option memchr_crate) (Hm : sound m) (S : Spec) (mode : NormalizationMode) (auth : bool).
Lemma fuel_le p : (1 + p_len p <= 1 + o_p_len p)%nat.
Proof. destruct (p_len_flat p) as [-> ->]. pose proof (blen_ge (flat p)). lia. Qed.
Lemma write_seg_sim s : wsim (write_seg S mode s) (o_write_seg m S mode s).
Proof using Hm. unfold write_seg, o_write_seg. destruct (case_pct_normalization mode); [now apply pct_sim|apply wsim_refl]. Qed.
Lemma emit_sim q : forall only l, wsim (emit_all S mode auth only l q) (o_emit_all m S mode auth only l q).
Proof using Hm.
  induction q as [|[n|] q IH]; intros only l; cbn [emit_all o_emit_all]; [apply wsim_refl| |apply IH]. apply wsim_bind2; [|intros; apply IH].
  unfold emit_segment, o_emit_segment. apply wsim_bind. intros o. apply wsim_bind2; [apply write_seg_sim|intros; apply wsim_refl].
Qed.
Lemma resolve_prefixes_sim p only mh : wsim (resolve_and_write_path_prefixes S mode auth p only mh) (o_resolve_and_write_path_prefixes m S mode auth p only mh).
Proof.
  unfold resolve_and_write_path_prefixes, o_resolve_and_write_path_prefixes. apply wsim_bind. intros e. destruct e; [apply wsim_refl|]. destruct (negb mh); [apply wsim_refl|].
  apply wsim_lift. intros k Ek. destruct (skipped_sim _ _ _ _ _ _ _ _ (fuel_le p) (at_zero _) (at_zero _) Ek) as (n & En & An). exists n. split; [exact En|].
  rewrite (remove_start_sim _ _ _ An). set (p1 := remove_start p k). change (lift (Ok p1)) with (@wret ptn p1). 
  assert (Rw : forall (C : Type) (g : ptn -> W C), wbind (wret p1) g = g p1) by (intros C g; cbn [wbind wret]; now destruct (g p1)). rewrite Rw.
  apply wsim_bind. intros e. destruct e; [apply wsim_refl|].
  apply wsim_lift. intros q Eq. destruct (queue_sim _ _ p1 _ _ _ (mkQ (repeat None QUEUE_SIZE) false 0 0 mh) _ (fuel_le p1) (at_zero _) (conj eq_refl (conj eq_refl (conj eq_refl (conj eq_refl (at_zero _))))) Eq) as (q' & Eq' & Q1 & Q2 & _ & Q4 & Q5).
  exists q'. split; [exact Eq'|]. rewrite Q1, Q2, Q4. apply wsim_bind2; [apply emit_sim|]. intros o. rewrite (remove_start_sim _ _ _ Q5). cbn [lift wbind wret]. apply wsim_refl.
Qed.
Lemma resolve_loop_sim f f' p only mh : (f <= f')%nat -> wsim (resolve_loop S mode auth f p only mh) (o_resolve_loop m S mode auth f' p only mh).
Proof.
  revert f' p only mh. induction f as [|f IH]; intros f' p only mh L; [exact I|]. destruct f' as [|f']; [lia|]. cbn [resolve_loop o_resolve_loop].
  apply wsim_bind. intros e. destruct (negb e && mh); [|apply wsim_refl]. apply wsim_bind2; [apply resolve_prefixes_sim|]. intros [[[p' o'] mh']|]; [|apply wsim_refl]. apply IH. lia.
Qed.
Lemma remove_slashes p x : (exists y, flat p = x ++ y) -> x = [SLASH] \/ x = [SLASH; SLASH] -> o_remove_start p (length x) = Ok (remove_start p (length x)).
Proof. intros (y & E) X. apply remove_start_sim. exists x, y. split; [exact E|]. split; [reflexivity|]. now destruct X as [-> | ->]. Qed.
Lemma fmt_sim p : wsim (fmt_write_normalize S mode auth p) (o_fmt_write_normalize m S mode auth p).
Proof.
  unfold fmt_write_normalize, o_fmt_write_normalize. apply wsim_bind. intros e. destruct e; [apply wsim_refl|]. destruct (_ && _ && _).
  { apply wsim_bind2; [now apply pct_sim|]. intros _. destruct (back p); [now apply pct_sim|apply wsim_refl]. }
  apply wsim_lift. intros p1 E1. exists p1. split; [eapply ignorable_sim; [apply fuel_le|exact E1]|]. apply wsim_bind. intros e. destruct e; [apply wsim_refl|].
  apply wsim_bind2; [apply resolve_loop_sim, fuel_le|]. intros [[p2 o]|]; [|apply wsim_refl]. apply wsim_bind. intros e. destruct e; [apply wsim_refl|].
  apply wsim_bind2; [|intros p3; apply wsim_bind2; [apply write_seg_sim|]; intros _; destruct (back p3); [apply write_seg_sim|apply wsim_refl]]. destruct auth; [apply wsim_refl|]. destruct o as [[]|]; [|apply wsim_refl|].
  - destruct (starts_with_slash p2) eqn:Es; [|apply wsim_refl]. apply wsim_bind. intros _. unfold starts_with_slash in Es. apply starts_with_iff in Es. destruct Es as (r & Es).
    rewrite (remove_slashes p2 [SLASH] (ex_intro _ (r ++ rest_of p2) (eq_trans (flat_eq p2) (f_equal (fun u => u ++ rest_of p2) Es))) (or_introl eq_refl) : o_remove_start p2 1 = Ok (remove_start p2 1)). apply wsim_refl.
  - destruct (_ || _) eqn:Es; [|apply wsim_refl]. apply wsim_bind. intros _.
    assert (Fl : exists y, flat p2 = [SLASH; SLASH] ++ y).
    2: now rewrite (remove_slashes p2 [SLASH; SLASH] Fl (or_intror eq_refl) : o_remove_start p2 2 = Ok (remove_start p2 2)); apply wsim_refl.
    apply orb_true_iff in Es. destruct Es as [Es|Es].
    + apply andb_true_iff in Es. destruct Es as [Es Eb]. apply seqb_eq in Es. rewrite flat_eq, Es. unfold rest_of. destruct (back p2) as [b|]; [|discriminate].
      apply starts_with_iff in Eb. destruct Eb as (r & ->). now exists r.
    + apply starts_with_iff in Es. destruct Es as (r & Es). exists (r ++ rest_of p2). now rewrite flat_eq, Es.
Qed.
End Write.
