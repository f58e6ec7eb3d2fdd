(** * The work of path normalization (proofs only). *)
From Verif Require Import Base Chars Rfc3986 CompSpec RfcResolve WorkSpec MValidate MTrusted MFormat MPct MPath MNormalize MWork PBase PScan PPath PPath2 PPath3.
Open Scope nat_scope.

(** ** The counting versions return what the model returns. *)
Lemma t_skipped_fst fuel p : forall cur last, fst (t_skipped fuel p cur last) = skipped_len fuel p cur last.
Proof.
  induction fuel as [|fuel IH]; intros cur last; [reflexivity|]. cbn [t_skipped skipped_len tick fst].
  destruct (iter_next p cur) as [[[g c']|]|[]|]; try reflexivity. cbn [bind].
  destruct (seg_kind p g) as [[| |]|[]|]; try reflexivity; cbn [bind]; destruct (negb _); try reflexivity; apply IH.
Qed.
Lemma t_ignorable_fst fuel : forall p, fst (t_ignorable fuel p) = remove_ignorable_prefix fuel p.
Proof.
  induction fuel as [|fuel IH]; intros p; [reflexivity|]. cbn [t_ignorable remove_ignorable_prefix tick fst].
  destruct (iter_next p 0) as [[[g c']|]|[]|]; try reflexivity. cbn [bind].
  destruct (has_leading_slash g); [reflexivity|].
  destruct (seg_kind p g) as [[| |]|[]|]; try reflexivity; cbn [bind]; apply IH.
Qed.
Lemma t_queue_fst fuel p : forall cur q, fst (t_queue fuel p cur q) = queue_loop fuel p cur q.
Proof.
  induction fuel as [|fuel IH]; intros cur q; [reflexivity|]. cbn [t_queue queue_loop tick fst].
  destruct (iter_next p cur) as [[[g c']|]|[]|]; try reflexivity. cbn [bind].
  destruct (segment p g) as [n|[]|]; try reflexivity. cbn [bind]. apply IH.
Qed.
Lemma tbind_fst {A B} (x : W A * nat) (f : A -> W B * nat) : fst (tbind x f) = wbind (fst x) (fun a => fst (f a)).
Proof. unfold tbind. destruct x as [[o [a| |]] w]; reflexivity. Qed.
Lemma wbind_ext {A B} (x : W A) (f g : A -> W B) : (forall a, f a = g a) -> wbind x f = wbind x g.
Proof. intros H. unfold wbind. destruct x as [o [a| |]]; try reflexivity. now rewrite H. Qed.
Lemma t_prefixes_fst S mode auth p only may : fst (t_prefixes S mode auth p only may) = resolve_and_write_path_prefixes S mode auth p only may.
Proof.
  unfold t_prefixes, resolve_and_write_path_prefixes. rewrite tbind_fst. apply wbind_ext. intros e. destruct e; [reflexivity|].
  destruct (negb may); [reflexivity|]. rewrite tbind_fst. unfold tlift. rewrite t_skipped_fst. apply wbind_ext. intros sk. cbv zeta.
  rewrite tbind_fst. apply wbind_ext. intros e. destruct e; [reflexivity|].
  rewrite tbind_fst. rewrite t_queue_fst. apply wbind_ext. reflexivity.
Qed.
Lemma t_loop_fst S mode auth fuel : forall p only may, fst (t_loop S mode auth fuel p only may) = resolve_loop S mode auth fuel p only may.
Proof.
  induction fuel as [|fuel IH]; intros p only may; [reflexivity|]. cbn [t_loop resolve_loop].
  rewrite tbind_fst. apply wbind_ext. intros e. destruct (negb e && may); [|reflexivity].
  rewrite tbind_fst, t_prefixes_fst. apply wbind_ext. intros [[[p' o'] m']|]; [apply IH|reflexivity].
Qed.
Lemma t_path_fst S mode auth p : fst (t_path S mode auth p) = fmt_write_normalize S mode auth p.
Proof.
  unfold t_path, fmt_write_normalize. rewrite tbind_fst. apply wbind_ext. intros e. destruct e; [reflexivity|].
  destruct (_ && _); [reflexivity|]. rewrite tbind_fst. unfold tlift. rewrite t_ignorable_fst. apply wbind_ext. intros p1. 
  rewrite tbind_fst. apply wbind_ext. intros e. destruct e; [reflexivity|]. rewrite tbind_fst, t_loop_fst. apply wbind_ext.
  intros [[p2 o]|]; reflexivity.
Qed.

(** ** The work on lists of segments. *)
Definition seg_cost (g : seg) : nat := 1 + length (seg_str g).
Fixpoint scan_cost (l : list seg) : nat := match l with [] => 1 | g :: t => seg_cost g + scan_cost t end.
Fixpoint skip_cost (l : list seg) : nat :=
  match l with [] => 1 | g :: t => seg_cost g + if dotty g then skip_cost t else 0 end.
Fixpoint drop_dots (l : list seg) : list seg := match l with [] => [] | g :: t => if dotty g then drop_dots t else l end.
(** level, what is left, flag *)
Definition astep (st : nat * list seg * bool) (g : seg) : nat * list seg * bool :=
  let '(lv, post, fl) := st in
  match from_segment (snd g) with
  | Dot => (lv, post ++ [g], true)
  | DotDot => (lv - 1, post ++ [g], true)
  | Normal => if Nat.ltb lv 8 then (lv + 1, [], false) else (lv + 1, post ++ [g], fl)
  end.
Definition arun (l : list seg) (st : nat * list seg * bool) := fold_left astep l st.
Fixpoint loop_cost (fuel : nat) (l : list seg) (may : bool) : nat :=
  match fuel with
  | O => 0
  | S fuel =>
      if match l with [] => true | _ => false end || negb may then 0 else
      skip_cost l +
      match drop_dots l with
      | [] => 0
      | b => scan_cost b + let '(_, post, fl) := arun b (0, [], true) in loop_cost fuel post fl
      end
  end.

Lemma next_work_ok p cur l : pwf p -> cur <= length (flat p) -> skipn cur (flat p) = join l -> wfl l ->
  next_work p cur = match l with [] => 1 | g :: _ => seg_cost g end.
Proof.
  intros W Hc Hs Hw. unfold next_work. assert (I := iter_next_ok p cur W Hc). rewrite Hs in I. destruct l as [|g t].
  - change (join []) with (@nil N) in I. rewrite next_seg_nil in I. destruct I as (-> & _). reflexivity.
  - rewrite (next_seg_join _ _ Hw) in I. destruct I as (gg & -> & Hlead & He & Hle & Hlt & Hsk & Hseg).
    unfold seg_cost, seg_str. rewrite app_length. rewrite He. destruct (fst g); cbn [lead_len lead_str length]; lia.
Qed.
Lemma t_skipped_snd fuel p : forall cur l last, pwf p -> cur <= length (flat p) -> skipn cur (flat p) = join l ->
  wfl l -> (lead_all l \/ (exists g t, l = g :: t /\ dotty g = false)) -> length l < fuel -> snd (t_skipped fuel p cur last) = skip_cost l.
Proof.
  induction fuel as [|fuel IH]; intros cur l last W Hc Hs Hw Hl Hf; [lia|].
  cbn [t_skipped tick snd]. rewrite (next_work_ok p cur l W Hc Hs Hw). assert (I := iter_next_ok p cur W Hc). rewrite Hs in I. destruct l as [|g t].
  - change (join []) with (@nil N) in I. rewrite next_seg_nil in I. destruct I as (-> & _). reflexivity.
  - rewrite (next_seg_join _ _ Hw) in I. destruct I as (gg & -> & Hlead & He & Hle & Hlt & Hsk & Hseg).
    unfold seg_kind. rewrite Hseg. cbn [bind skip_cost]. f_equal. 
    destruct (dotty g) eqn:D.
    + assert (Hg : has_leading_slash gg = true).
      { rewrite Hlead. destruct Hl as [Hl|(g' & t' & E & D')]; [now inversion Hl|]. injection E as -> ->. congruence. }
      rewrite Hg. cbn [negb]. rewrite <- (IH (seg_end gg) t (seg_end gg) W Hle Hsk (wfl_tail _ _ Hw)); [|left; eapply wfl_lead_tail; eauto|cbn in Hf; lia].
      unfold dotty in D. now destruct (from_segment (snd g)).
    + unfold dotty in D. now destruct (from_segment (snd g)).
Qed.
Lemma t_queue_ok fuel p : pwf p -> forall q cur l post, cur <= length (flat p) -> skipn cur (flat p) = join l -> wfl l -> length l < fuel ->
  length (queue q) = 8 -> skipn (resolved_end q) (flat p) = join (post ++ l) -> resolved_end q <= length (flat p) ->
  exists q', t_queue fuel p cur q = (Ok q', scan_cost l) /\
    let '(_, post', fl) := arun l (level q, post, flag q) in
    skipn (resolved_end q') (flat p) = join post' /\ resolved_end q' <= length (flat p) /\ flag q' = fl.
Proof.
  intros W. induction fuel as [|fuel IH]; intros q cur l post Hc Hs Hw Hf Hq Hr Hrl; [lia|].
  cbn [t_queue]. rewrite (next_work_ok p cur l W Hc Hs Hw). assert (NX := iter_next_ok p cur W Hc). rewrite Hs in NX.
  destruct l as [|g t].
  - change (join []) with (@nil N) in NX. rewrite next_seg_nil in NX. destruct NX as (-> & _). rewrite app_nil_r in Hr. exists q. cbn. auto.
  - rewrite (next_seg_join _ _ Hw) in NX. destruct NX as (gg & -> & Hlead & He & Hle & Hlt & Hsk & Hseg). rewrite Hseg.
    change (arun (g :: t) (level q, post, flag q)) with (arun t (astep (level q, post, flag q) g)).
    set (q1 := queue_step q (from_segment (snd g)) gg (snd g)).
    assert (ST : exists post1, astep (level q, post, flag q) g = (level q1, post1, flag q1) /\ length (queue q1) = 8 /\
                   skipn (resolved_end q1) (flat p) = join (post1 ++ t) /\ resolved_end q1 <= length (flat p)).
    { assert (SN : forall i v, length (set_nth (queue q) i v) = length (queue q)).
      { intros i v. generalize (queue q). intros qq. revert i. induction qq as [|x qq IHq]; intros [|i]; cbn; auto. }
      assert (Hr1 : skipn (resolved_end q) (flat p) = join ((post ++ [g]) ++ t)) by (rewrite <- app_assoc; exact Hr).
      unfold q1, astep, queue_step. destruct (from_segment (snd g)); cbn [level flag queue resolved_end].
      - exists (post ++ [g]). auto.
      - exists (post ++ [g]). rewrite SN. auto.
      - rewrite Hq. destruct (Nat.ltb (level q) 8); cbn [level flag queue resolved_end].
        + exists []. rewrite SN. auto.
        + exists (post ++ [g]). auto. }
    destruct ST as (post1 & E1 & Q1 & R1 & L1). rewrite E1.
    destruct (IH q1 (seg_end gg) t post1 Hle Hsk (wfl_tail _ _ Hw) ltac:(cbn in Hf; lia) Q1 R1 L1) as (q' & Eq & P).
    exists q'. rewrite Eq. cbn [tick fst snd scan_cost]. split; [reflexivity|exact P].
Qed.

Lemma tbind_ok {A B} (a : A) n (f : A -> W B * nat) : tbind (wret a, n) f = (fst (f a), n + snd (f a)).
Proof. unfold tbind. cbn [fst snd wret wbind]. destruct (fst (f a)); reflexivity. Qed.
Lemma tfree_ok {A B} (a : A) (f : A -> W B * nat) : tbind (free (lift (Ok a))) f = f a.
Proof. unfold free, lift. rewrite tbind_ok. now destruct (f a). Qed.
Lemma drop_dots_spec l : exists a, l = a ++ drop_dots l /\ forallb dotty a = true /\ (drop_dots l = [] \/ exists g t, drop_dots l = g :: t /\ dotty g = false).
Proof.
  induction l as [|g t (a & E & D & H)]; [exists []; auto|]. cbn [drop_dots]. destruct (dotty g) eqn:G.
  - exists (g :: a). cbn. rewrite G. repeat split; auto. now rewrite <- E.
  - exists []. repeat split; eauto.
Qed.
Lemma drop_dots_unique a b l : l = a ++ b -> forallb dotty a = true -> (b = [] \/ exists g t, b = g :: t /\ dotty g = false) -> drop_dots l = b.
Proof.
  intros ->. induction a as [|g a IH]; cbn [app forallb drop_dots].
  - intros _ [->|(g & t & -> & D)]; [reflexivity|]. cbn. now rewrite D.
  - intros H Hb. apply andb_prop in H. destruct H as [-> H]. auto.
Qed.
Lemma arun_post l : forall st, exists x, snd (fst st) ++ l = x ++ snd (fst (arun l st)).
Proof.
  induction l as [|g t IH]; intros [[lv post] fl]; cbn [fst snd].
  - exists []. cbn. now rewrite app_nil_r.
  - change (arun (g :: t) (lv, post, fl)) with (arun t (astep (lv, post, fl) g)). destruct (IH (astep (lv, post, fl) g)) as (x & E).
    unfold astep in *. destruct (from_segment (snd g)); [| |destruct (Nat.ltb lv 8)]; cbn [fst snd] in *.
    1,2,4: exists x; rewrite <- app_assoc in E; exact E.
    exists (post ++ [g] ++ x). rewrite app_assoc. cbn [app]. rewrite <- !app_assoc. cbn [app] in *. now rewrite <- E.
Qed.

Lemma t_prefixes_ok S mode auth p only l : pwf p -> flat p = join l -> wfl l -> l <> [] -> (lead_all l \/ exists g t, l = g :: t /\ dotty g = false) ->
  snd (t_prefixes S mode auth p only true) = skip_cost l + match drop_dots l with [] => 0 | b => scan_cost b end /\
  match snd (fst (t_prefixes S mode auth p only true)) with
  | Ret None => drop_dots l = []
  | Ret (Some (p', _, fl')) => drop_dots l <> [] /\ let '(_, post, fl) := arun (drop_dots l) (0, [], true) in pwf p' /\ flat p' = join post /\ wfl post /\ fl' = fl /\ lead_all post
  | _ => True
  end.
Proof.
  intros W F Hw Hne Hh. unfold t_prefixes. assert (Hlen := join_length l Hw).
  assert (Hn0 : is_empty (flat p) = false). { rewrite F. destruct (join l) eqn:X; auto. apply join_nil in X; auto. contradiction. }
  rewrite p_is_empty_ok, Hn0 by exact W. rewrite tfree_ok. cbn [negb].
  assert (Hfu : length l < 1 + p_len p) by (rewrite p_len_flat, F; lia).
  destruct (skipped_ok (1 + p_len p) p 0 l W ltac:(lia) F Hw Hh Hfu 0 F ltac:(lia)) as (n & a & b & E1 & El & Hdots & Hb & Hsk & Hnle).
  assert (E2 := t_skipped_snd (1 + p_len p) p 0 l 0 W ltac:(lia) F Hw Hh Hfu).
  unfold tlift at 1 3. rewrite t_skipped_fst, E1, E2. cbn [lift]. rewrite tbind_ok. cbn [fst snd].
  rewrite (drop_dots_unique a b l El Hdots Hb).
  destruct (remove_start_ok p n W Hnle) as (W1 & F1). rewrite p_is_empty_ok by exact W1. rewrite tfree_ok, F1, Hsk.
  assert (Hwb : wfl b) by (eapply wfl_app_r; rewrite <- El; exact Hw).
  destruct Hb as [->|(g & t & -> & Dg)].
  - change (is_empty (join [])) with true. cbv iota. cbn [free fst snd]. split; [lia|].
    destruct (negb auth && _); reflexivity.
  - set (b := g :: t) in *. assert (En : is_empty (join b) = false). { destruct (join b) eqn:X; auto. apply join_nil in X; auto. discriminate. }
    rewrite En. set (p1 := remove_start p n) in *. assert (F1' : flat p1 = join b) by (rewrite F1; exact Hsk). assert (Lb := join_length b Hwb).
    destruct (t_queue_ok (1 + p_len p1) p1 W1 (mkQ (repeat None QUEUE_SIZE) false 0 0 true) 0 b []) as (q' & EQ & P); auto.
    { lia. } { rewrite p_len_flat, F1'. lia. } { cbn. lia. }
    unfold tlift. rewrite EQ. cbn [fst snd lift]. rewrite tbind_ok. cbn [free fst snd level flag] in *. split; [lia|].
    destruct (emit_all S mode auth only (first_leading q') (queue q')) as [o [only'| |]]; cbn [wbind wret snd fst]; auto.
    split; [discriminate|].
    assert (AP := arun_post b (0, [], true)). cbn [fst snd app] in AP. destruct (arun b (0, [], true)) as [[lv post] fl] eqn:EA. cbn [fst snd] in AP. destruct P as (P1 & P2 & P3).
    destruct (remove_start_ok p1 (resolved_end q') W1 P2) as (W2 & F2). destruct AP as (x & Ex).
    assert (Hwp : wfl post). { eapply wfl_app_r. rewrite <- Ex. exact Hwb. }
    repeat split; auto.
    + now rewrite F2.
    + exact (proj1 Hwp). + exact (proj2 Hwp).
    + eapply suffix_lead; [exact Ex|exact Hwb|]. 
      (* the first segment is never left *)
      assert (K : from_segment (snd g) = Normal) by (unfold dotty in Dg; destruct (from_segment (snd g)); congruence).
      unfold b in EA. change (arun (g :: t) (0, [], true)) with (arun t (astep (0, [], true) g)) in EA. unfold astep in EA. rewrite K in EA. cbn in EA.
      destruct (arun_post t (1, [], false)) as (y & Ey). cbn [fst snd app] in Ey. unfold arun in Ey, EA. change (0+1) with 1 in EA. rewrite EA in Ey. cbn [fst snd] in Ey.
      apply (f_equal (@length seg)) in Ey. rewrite app_length in Ey. change (length b) with (1 + length t). lia.
Qed.

Lemma t_loop_ok S mode auth fuel : forall p only l may, pwf p -> flat p = join l -> wfl l -> (l = [] \/ lead_all l \/ exists g t, l = g :: t /\ dotty g = false) ->
  snd (t_loop S mode auth fuel p only may) <= loop_cost fuel l may /\
  (outs (resolve_loop S mode auth fuel p only may) <> None -> snd (t_loop S mode auth fuel p only may) = loop_cost fuel l may).
Proof.
  induction fuel as [|fuel IH]; intros p only l may W F Hw Hh; [cbn; auto|].
  cbn [t_loop loop_cost resolve_loop]. rewrite p_is_empty_ok by exact W. rewrite tfree_ok, lift_bind.
  assert (X : negb (is_empty (flat p)) && may = negb ((match l with [] => true | _ => false end) || negb may)).
  { rewrite F. destruct l as [|g t]; [reflexivity|]. destruct (join (g :: t)) eqn:X; [apply join_nil in X; auto; discriminate|]. cbn. now rewrite negb_involutive. }
  rewrite X. destruct ((match l with [] => true | _ => false end) || negb may) eqn:C; cbn [negb].
  { cbn. auto. }
  assert (Hm : may = true) by (destruct may; auto; now rewrite orb_true_r in C). subst may.
  assert (Hne : l <> []) by (intros ->; discriminate).
  destruct Hh as [Hh|Hh]; [contradiction|].
  destruct (t_prefixes_ok S mode auth p only l W F Hw Hne Hh) as (C1 & C2).
  rewrite <- t_prefixes_fst. unfold tbind. destruct (t_prefixes S mode auth p only true) as [[o r] w]. cbn [fst snd] in *. subst w.
  destruct r as [[[[p' o'] fl']|]| |].
  - destruct C2 as (Hd & C2). destruct (arun (drop_dots l) (0, [], true)) as [[lv post] fl] eqn:EA. destruct C2 as (W' & F' & Hw' & -> & Hl').
    destruct (IH p' o' post fl W' F' Hw') as [I1 I2]; [auto|]. cbn [fst snd].
    destruct (drop_dots l) as [|b0 b] eqn:ED; [contradiction|]. rewrite EA. split; [lia|].
    intros Ho. rewrite I2; [lia|]. intros K. apply Ho. cbn [wbind]. unfold outs in K |- *. destruct (resolve_loop S mode auth fuel p' o' fl) as [o2 r2]. destruct r2; [discriminate K|reflexivity|reflexivity].
  - rewrite C2. cbn [fst snd free]. split; [lia|lia].
  - cbn [fst snd]. split; [destruct (drop_dots l); [lia|]; destruct (arun _ _) as [[? ?] ?]; lia|]. cbn [wbind]. unfold outs. cbn. congruence.
  - cbn [fst snd]. split; [destruct (drop_dots l); [lia|]; destruct (arun _ _) as [[? ?] ?]; lia|]. cbn [wbind]. unfold outs. cbn. congruence.
Qed.

(** ** Bounds. *)
Fixpoint nn (l : list seg) : nat := match l with [] => 0 | g :: t => (if dotty g then 0 else 1) + nn t end.
Lemma nn_app a b : nn (a ++ b) = nn a + nn b.
Proof. induction a; cbn; lia. Qed.
Lemma arun_names l : forall lv post fl D, lv <= D -> (nn post = 0 \/ nn post + 8 <= D) ->
  let '(_, post', _) := arun l (lv, post, fl) in nn post' = 0 \/ nn post' + 8 <= D + nn l.
Proof.
  induction l as [|g t IH]; intros lv post fl D H1 H2.
  - cbn. destruct H2; [now left|right; lia].
  - change (arun (g :: t) (lv, post, fl)) with (arun t (astep (lv, post, fl) g)). unfold astep. cbn [nn]. unfold dotty.
    destruct (from_segment (snd g)) eqn:K.
    + apply (IH lv (post ++ [g]) true D H1). rewrite nn_app. cbn [nn]. unfold dotty. rewrite K. destruct H2; [left|right]; lia.
    + apply (IH (lv - 1) (post ++ [g]) true D). lia. rewrite nn_app. cbn [nn]. unfold dotty. rewrite K. destruct H2; [left|right]; lia.
    + rewrite Nat.add_assoc. destruct (Nat.ltb_spec lv 8).
      * apply (IH (lv + 1) [] false (D + 1)). lia. now left.
      * apply (IH (lv + 1) (post ++ [g]) fl (D + 1)). lia. rewrite nn_app. cbn [nn]. unfold dotty. rewrite K. right. destruct H2; lia.
Qed.
Lemma nn_dots l : forallb dotty l = true -> nn l = 0.
Proof. induction l as [|g t IH]; cbn; auto. intros H. apply andb_prop in H. destruct H as [-> H]. auto. Qed.
Lemma nn_drop l : nn (drop_dots l) = nn l.
Proof. destruct (drop_dots_spec l) as (a & E & D & _). rewrite E at 2. rewrite nn_app, (nn_dots a D). reflexivity. Qed.
Lemma nn_zero l : nn l = 0 -> drop_dots l = [].
Proof. destruct (drop_dots_spec l) as (a & E & D & [H|(g & t & H & G)]); auto. rewrite <- nn_drop, H. cbn. rewrite G. discriminate. Qed.
Lemma scan_cost_eq l : scan_cost l = 1 + length l + length (join l).
Proof. induction l as [|g t IH]; [reflexivity|]. cbn [scan_cost]. rewrite IH. unfold seg_cost. change (join (g :: t)) with (seg_str g ++ join t). rewrite app_length. cbn [length]. lia. Qed.
Lemma skip_cost_le l : skip_cost l <= scan_cost l.
Proof. induction l as [|g t IH]; cbn; [lia|]. destruct (dotty g); lia. Qed.
Lemma join_app a b : join (a ++ b) = join a ++ join b.
Proof. unfold join. now rewrite map_app, concat_app. Qed.
Lemma scan_app a b : scan_cost b <= scan_cost (a ++ b).
Proof. rewrite !scan_cost_eq, join_app, !app_length. lia. Qed.
Lemma scan_le l : wfl l -> scan_cost l <= 1 + 2 * length (join l).
Proof. intros W. rewrite scan_cost_eq. apply join_length in W. lia. Qed.
Definition rounds (m : nat) : nat := (m + 7) / 8 + 1.
Lemma loop_cost_le fuel : forall l may, loop_cost fuel l may <= 2 * scan_cost l * rounds (nn l).
Proof.
  induction fuel as [|fuel IH]; intros l may; cbn [loop_cost]; [lia|].
  destruct (_ || _); [lia|].
  assert (H := skip_cost_le l). destruct (drop_dots l) as [|b0 b] eqn:ED.
  - unfold rounds. nia.
  - rewrite <- ED in *. assert (NZ : nn l <> 0) by (intros Z; apply nn_zero in Z; congruence).
    destruct (drop_dots_spec l) as (a & E & _ & _). assert (B1 := scan_app a (drop_dots l)). rewrite <- E in B1.
    assert (AN := arun_names (drop_dots l) 0 [] true 0 (le_n 0) (or_introl eq_refl)). assert (AP := arun_post (drop_dots l) (0, [], true)).
    destruct (arun (drop_dots l) (0, [], true)) as [[lv post] fl]. cbn [fst snd app] in AP. destruct AP as (x & Ex).
    rewrite nn_drop in AN. cbn [Nat.add] in AN. assert (B2 := scan_app x post). rewrite <- Ex in B2.
    specialize (IH post fl). assert (R : rounds (nn post) + 1 <= rounds (nn l)).
    { unfold rounds. destruct AN as [->|AN].
      - assert (1 <= (nn l + 7) / 8) by (apply Nat.div_le_lower_bound; lia). change ((0 + 7) / 8) with 0. lia.
      - assert ((nn post + 7 + 1 * 8) / 8 <= (nn l + 7) / 8) by (apply Nat.div_le_mono; lia). rewrite Nat.div_add in H0 by lia. lia. }
    assert (IH' : loop_cost fuel post fl <= 2 * scan_cost l * rounds (nn post)) by nia. nia.
Qed.
(** Without dot segments: one round. *)
Lemma arun_plain l : existsb dotty l = false -> forall lv post, let '(_, _, fl) := arun l (lv, post, false) in fl = false.
Proof.
  induction l as [|g t IH]; intros H lv post; [reflexivity|]. cbn [existsb] in H. apply orb_false_iff in H. destruct H as [D H].
  change (arun (g :: t) (lv, post, false)) with (arun t (astep (lv, post, false) g)). unfold astep. unfold dotty in D.
  destruct (from_segment (snd g)); try discriminate. destruct (Nat.ltb lv 8); now apply IH.
Qed.
Lemma loop_cost_false fuel l : loop_cost fuel l false = 0.
Proof. destruct fuel; cbn; auto. now rewrite orb_true_r. Qed.
Lemma loop_cost_plain fuel l may : existsb dotty l = false -> loop_cost fuel l may <= 2 * scan_cost l.
Proof.
  intros H. destruct fuel; cbn [loop_cost]; [lia|]. destruct l as [|g t]; [cbn; lia|]. cbn [orb]. destruct may; cbn [negb]; [|lia].
  assert (H0 := H). cbn [existsb] in H. apply orb_false_iff in H. destruct H as [D H].
  assert (S1 := skip_cost_le (g :: t)). cbn [drop_dots]. rewrite D.
  change (arun (g :: t) (0, [], true)) with (arun t (astep (0, [], true) g)). unfold astep. unfold dotty in D.
  destruct (from_segment (snd g)); try discriminate. change (Nat.ltb 0 8) with true. cbv iota.
  assert (P := arun_plain t H (0 + 1) []). destruct (arun t (0 + 1, [], false)) as [[lv post] fl]. subst fl. rewrite loop_cost_false. lia.
Qed.

Lemma t_ignorable_ok fuel : forall p, pwf p -> length (flat p) < fuel -> exists p' w,
  t_ignorable fuel p = (Ok p', w) /\ pwf p' /\ trim (flat p) (flat p') /\ w <= 2 * length (flat p) + 1.
Proof.
  induction fuel as [|fuel IH]; intros p W Hf; [lia|].
  destruct (wfl_exists (flat p)) as (l & Wl & El).
  assert (NW := next_work_ok p 0 l W ltac:(lia) El Wl). cbn [t_ignorable]. rewrite NW.
  assert (I := iter_next_ok p 0 W ltac:(lia)). cbn [skipn] in I. 
  assert (NB : match l with [] => 1 | g :: _ => seg_cost g end <= length (flat p) + 1).
  { destruct l as [|g t]; [lia|]. rewrite El. change (join (g :: t)) with (seg_str g ++ join t). rewrite app_length. unfold seg_cost. lia. }
  assert (A := remove_ignorable_ok (Datatypes.S fuel) p W Hf). destruct A as (p' & A1 & A2 & A3). rewrite <- t_ignorable_fst in A1. cbn [t_ignorable] in A1. rewrite NW in A1.
  destruct l as [|g t].
  - change (join []) with (@nil N) in El. rewrite El in I. rewrite next_seg_nil in I. destruct I as (I & _). rewrite I in *. cbn [tick fst snd] in *.
    exists p', 1. injection A1 as <-. repeat split; auto. lia.
  - rewrite El in I. rewrite (next_seg_join _ _ Wl) in I. destruct I as (gg & I & Hlead & He & Hle & Hlt & Hsk & Hseg). rewrite I in *.
    cbn [tick fst snd] in A1 |- *. destruct (has_leading_slash gg) eqn:HL.
    { cbn [fst snd] in *. injection A1 as <-. exists p, (seg_cost g + 0). repeat split; auto. lia. }
    unfold seg_kind in *. rewrite Hseg in *. cbn [bind] in *.
    assert (D : from_segment (snd g) = Normal \/ from_segment (snd g) <> Normal) by (destruct (from_segment (snd g)); auto; now right).
    destruct D as [D|D].
    { rewrite D in *. cbn [fst snd] in *. injection A1 as <-. exists p, (seg_cost g + 0). repeat split; auto. lia. }
    set (k := Nat.min (length (front p)) (seg_end gg + 1)) in *.
    assert (Hk : k <= length (flat p)). { unfold k, flat. rewrite app_length. lia. }
    destruct (remove_start_ok p k W Hk) as (W' & F').
    assert (HLg : fst g = false) by congruence.
    assert (CG : seg_cost g = 1 + length (snd g)). { unfold seg_cost, seg_str. rewrite HLg. reflexivity. }
    assert (NE : 1 <= length (snd g)).
    { rewrite HLg in He. cbn [lead_len] in He. lia. }
    assert (KG : length (snd g) <= k).
    { (* the segment lies in [front] *)
      unfold k. apply Nat.min_glb; [|rewrite HLg in He; cbn [lead_len] in He; lia].
      rewrite HLg in He. cbn [lead_len] in He.
      destruct (Nat.le_gt_cases (seg_end gg) (length (front p))); [lia|].
      destruct (back p) as [bb|] eqn:B.
      - exfalso. assert (W0 := W). unfold pwf in W0. rewrite B in W0. destruct W0 as (Hbb & a & Ea).
        destruct g as [gl gn]. cbn [fst snd] in *. subst gl.
        assert (X : flat p = gn ++ join t). { rewrite El. reflexivity. }
        unfold flat in X. rewrite B, Ea in X. rewrite <- app_assoc in X.
        assert (Hno : none (N.eqb SLASH) gn = true). { destruct Wl as [Wn _]. inversion Wn; auto. }
        assert (Y : nth_error (a ++ [SLASH] ++ bb) (length a) = Some SLASH). { rewrite nth_error_app2, Nat.sub_diag by lia. reflexivity. }
        assert (La : length (front p) = Datatypes.S (length a)) by (rewrite Ea, app_length; cbn; lia).
        rewrite X, nth_error_app1 in Y by lia. apply nth_error_In in Y. unfold none in Hno. rewrite forallb_forall in Hno. apply Hno in Y. now rewrite N.eqb_refl in Y.
      - assert (Z : flat p = front p) by (unfold flat; rewrite B; apply app_nil_r). rewrite <- El in *. rewrite <- Z. lia. }
    destruct (IH (remove_start p k) W') as (p2 & w & E2 & _ & _ & Hw).
    { rewrite F', skipn_length. lia. }
    assert (E3 : (match from_segment (snd g) with Normal => (Ok p, 0) | _ => t_ignorable fuel (remove_start p k) end) = (Ok p2, w)).
    { destruct (from_segment (snd g)); [exact E2|exact E2|congruence]. }
    assert (E4 : (match from_segment (snd g) with Normal => (Ok p, 0) | _ => t_ignorable fuel (remove_start p k) end) = (Ok p2, w)) by exact E3.
    exists p2, (seg_cost g + w). destruct (from_segment (snd g)); [| |congruence]; rewrite E2 in *; cbn [fst snd] in *; injection A1 as <-; repeat split; auto; rewrite F', skipn_length in Hw; lia.
Qed.
