(** * Dot-segment removal (proofs only), part 3: the queue loop and the emission. *)
From Verif Require Import Base Chars Rfc3986 CompSpec RfcResolve MValidate MTrusted MFormat MPct MPath PBase PScan PPath PPath2.

Lemma skipped_ok fuel p cur l : pwf p -> (cur <= length (flat p))%nat -> skipn cur (flat p) = join l ->
  wfl l -> (lead_all l \/ (exists g t, l = g :: t /\ dotty g = false)) -> (length l < fuel)%nat ->
  forall last, skipn last (flat p) = join l -> (last <= length (flat p))%nat ->
  exists n a b, skipped_len fuel p cur last = Ok n /\ l = a ++ b /\ forallb dotty a = true /\
    (b = [] \/ exists g t, b = g :: t /\ dotty g = false) /\ skipn n (flat p) = join b /\ (n <= length (flat p))%nat.
Proof.
  revert cur l; induction fuel as [|fuel IH]; intros cur l W Hc Hs Hw Hl Hf last Hlast Hll; [lia|].
  cbn [skipped_len]. assert (I := iter_next_ok p cur W Hc). rewrite Hs in I.
  destruct l as [|g t].
  - change (join []) with (@nil N) in I. rewrite next_seg_nil in I. destruct I as (-> & _). cbn [bind].
    exists last, [], []. repeat split; auto.
  - rewrite (next_seg_join _ _ Hw) in I. destruct I as (gg & -> & Hlead & He & Hle & Hlt & Hsk & Hseg). cbn [bind].
    unfold seg_kind. rewrite Hseg. cbn [bind]. destruct (dotty g) eqn:D.
    + assert (Hg : has_leading_slash gg = true).
      { rewrite Hlead. destruct Hl as [Hl|(g' & t' & E & D')]; [now inversion Hl|]. injection E as -> ->. congruence. }
      destruct (IH (seg_end gg) t W Hle Hsk (wfl_tail _ _ Hw)) with (last := seg_end gg) as (n & a & b & E & -> & H1 & H2 & H3 & H4); auto.
      { left. eapply wfl_lead_tail; eauto. } { cbn in Hf. lia. }
      exists n, (g :: a), b. split; [|repeat split; auto; cbn; now rewrite D].
      rewrite Hg. cbn [negb]. unfold dotty in D. now destruct (from_segment (snd g)).
    + exists last, [], (g :: t). assert (D' := D). unfold dotty in D. destruct (from_segment (snd g)); try discriminate. repeat split; eauto.
Qed.

(** ** Queue invariant. *)
Definition qrep (st : list seg) : list (option str) :=
  map (fun g => Some (snd g)) (firstn 8 st) ++ repeat None (8 - length (firstn 8 st)).
Record qinv (p : ptn) (q : qstate) (cur : nat) (done post rest stack : list seg) : Prop := {
  qi_queue : queue q = qrep stack;
  qi_level : level q = length stack;
  qi_stack : stack = frun done [];
  qi_first : match stack with g :: _ => first_leading q = fst g | [] => True end;
  qi_end : (resolved_end q <= length (flat p))%nat;
  qi_rest : skipn (resolved_end q) (flat p) = join (post ++ rest);
  qi_split : stack = firstn 8 stack ++ frun post [];
  qi_flag : flag q = false -> existsb dotty post = false;
  qi_tail : tail_slash done = tail_slash post;
  qi_len : (length post < length done)%nat
}.

Lemma qrep_length st : length (qrep st) = 8%nat.
Proof.
  unfold qrep. rewrite app_length, map_length, repeat_length. rewrite !firstn_length. lia.
Qed.
Lemma set_nth_app {A} (a b : list A) v : set_nth (a ++ b) (length a) v = a ++ set_nth b 0 v.
Proof. induction a; cbn; auto. now f_equal. Qed.
Lemma set_nth_ge {A} (a : list A) i v : (length a <= i)%nat -> set_nth a i v = a.
Proof. revert i; induction a as [|x a IH]; intros [|i]; cbn; intros; auto; try lia. f_equal. apply IH. lia. Qed.
Lemma qrep_push st g : (length st < 8)%nat -> set_nth (qrep st) (length st) (Some (snd g)) = qrep (st ++ [g]).
Proof.
  intros H. unfold qrep. rewrite !firstn_all2 by (rewrite ?app_length; cbn; lia).
  rewrite map_app, app_length. cbn [map length].
  replace (length st) with (length (map (fun g : seg => Some (snd g)) st)) at 2 by apply map_length.
  rewrite set_nth_app. rewrite <- app_assoc. f_equal. cbn [app].
  replace (8 - length st)%nat with (S (8 - (length st + 1)))%nat by lia. reflexivity.
Qed.
Lemma removelast_length {A} (l : list A) : length (removelast l) = (length l - 1)%nat.
Proof. induction l as [|x [|y l] IH]; auto. cbn [removelast length] in *. lia. Qed.
Lemma qrep_pop st : set_nth (qrep st) (length st - 1) None = qrep (removelast st).
Proof.
  destruct st as [|x st0]; [reflexivity|]. set (st := x :: st0).
  assert (Hst : st <> []) by discriminate. destruct (exists_last Hst) as (a & g & E). rewrite E.
  rewrite removelast_last, app_length. cbn [length]. replace (length a + 1 - 1)%nat with (length a) by lia.
  destruct (Nat.lt_ge_cases (length a) 8) as [L|L].
  - rewrite <- qrep_push by exact L. unfold qrep. rewrite firstn_all2 by lia.
    rewrite <- (map_length (fun g : seg => Some (snd g)) a) in *.
    rewrite set_nth_app. rewrite set_nth_app. f_equal. set (m := length (map (fun g : seg => Some (snd g)) a)) in *. replace (8 - m)%nat with (S (7 - m)) by lia. reflexivity.
  - rewrite set_nth_ge by (rewrite qrep_length; lia). unfold qrep. rewrite firstn_app.
    replace (8 - length a)%nat with 0%nat by lia. rewrite firstn_O, app_nil_r. reflexivity.
Qed.

Lemma qstep_ok p q cur done post g t stack gg : qinv p q cur done post (g :: t) stack ->
  has_leading_slash gg = fst g -> (seg_end gg <= length (flat p))%nat -> skipn (seg_end gg) (flat p) = join t ->
  exists post', qinv p (queue_step q (from_segment (snd g)) gg (snd g)) (seg_end gg) (done ++ [g]) post' t (step stack g)
    /\ (post' = [] \/ post' = post ++ [g]).
Proof.
  intros I Hl He Hs. destruct I as [I1 I2 I3 I4 I5 I6 I7 I8 I9 I10].
  assert (Hpost : skipn (resolved_end q) (flat p) = join ((post ++ [g]) ++ t)) by (rewrite I6, <- app_assoc; reflexivity).
  unfold queue_step, step. destruct (from_segment (snd g)) eqn:K.
  - exists (post ++ [g]). split; [|now right].
    assert (Fg : forall o, step o g = o) by (intros o; unfold step; now rewrite K).
    constructor; cbn [queue level first_leading resolved_end flag]; auto.
    + rewrite frun_app. cbn. now rewrite Fg.
    + rewrite frun_app. cbn. now rewrite Fg.
    + discriminate.
    + rewrite !tail_slash_snoc. reflexivity.
    + rewrite !app_length. cbn. lia.
  - exists (post ++ [g]). split; [|now right].
    assert (Fg : forall o, step o g = removelast o) by (intros o; unfold step; now rewrite K).
    constructor; cbn [queue level first_leading resolved_end flag]; auto.
    + rewrite I1, I2. apply qrep_pop.
    + rewrite removelast_length, I2. reflexivity.
    + rewrite frun_app. cbn. now rewrite Fg, I3.
    + destruct stack as [|x [|y st]]; cbn; auto.
    + rewrite frun_app. cbn [frun fold_left]. rewrite Fg.
      remember (frun post []) as T eqn:ET. destruct T as [|x0 T0].
      * rewrite app_nil_r in I7. cbn [removelast]. rewrite app_nil_r. rewrite firstn_all2; auto.
        rewrite removelast_length. apply (f_equal (@length seg)) in I7. rewrite firstn_length in I7. lia.
      * assert (L8 : length (firstn 8 stack) = 8%nat).
        { assert (X := I7). apply (f_equal (@length seg)) in X. rewrite app_length, firstn_length in X. rewrite firstn_length. cbn [length] in X. lia. }
        rewrite I7 at 1. rewrite removelast_app by discriminate.
        rewrite I7 at 2. rewrite removelast_app by discriminate.
        rewrite firstn_app, L8, Nat.sub_diag, firstn_O, app_nil_r.
        now rewrite (firstn_all2 (firstn 8 stack)) by lia.
    + discriminate.
    + rewrite !tail_slash_snoc. reflexivity.
    + rewrite !app_length. cbn. lia.
  - assert (Fg : forall o, step o g = o ++ [g]) by (intros o; unfold step; now rewrite K).
    assert (Dg : dotty g = false) by (unfold dotty; now rewrite K).
    rewrite I1, qrep_length, I2. destruct (Nat.ltb_spec (length stack) 8) as [L|L].
    + exists []. split; [|now left]. constructor; cbn [queue level first_leading resolved_end flag]; auto.
      * now apply qrep_push.
      * now rewrite app_length.
      * rewrite frun_app. cbn. now rewrite Fg, I3.
      * destruct stack as [|x st]; cbn; auto.
      * rewrite firstn_all2 by (rewrite app_length; cbn; lia). cbn. now rewrite app_nil_r.
      * rewrite tail_slash_snoc, Dg. reflexivity.
      * rewrite app_length. cbn. lia.
    + exists (post ++ [g]). split; [|now right]. constructor; cbn [queue level first_leading resolved_end flag]; auto.
      * unfold qrep. rewrite firstn_app. replace (8 - length stack)%nat with 0%nat by lia. now rewrite firstn_O, app_nil_r.
      * now rewrite app_length.
      * rewrite frun_app. cbn. now rewrite Fg, I3.
      * destruct stack as [|x st]; cbn; auto. cbn in L. lia.
      * rewrite frun_app. cbn [frun fold_left]. rewrite Fg. rewrite firstn_app.
        replace (8 - length stack)%nat with 0%nat by lia. rewrite firstn_O, app_nil_r. rewrite I7 at 1. now rewrite <- app_assoc.
      * intros Hf. rewrite existsb_app. cbn. rewrite I8, Dg by exact Hf. reflexivity.
      * rewrite !tail_slash_snoc. reflexivity.
      * rewrite !app_length. cbn. lia.
Qed.

Lemma qloop_ok fuel p : pwf p -> forall q cur done post l stack, (cur <= length (flat p))%nat -> skipn cur (flat p) = join l ->
  wfl l -> (length l < fuel)%nat -> qinv p q cur done post l stack -> (exists a, done = a ++ post) ->
  exists q' post' stack' cur', queue_loop fuel p cur q = Ok q' /\ qinv p q' cur' (done ++ l) post' [] stack' /\
    (exists a, done ++ l = a ++ post').
Proof.
  intros W. induction fuel as [|fuel IH]; intros q cur done post l stack Hc Hs Hw Hf I Hsuf; [lia|].
  cbn [queue_loop]. assert (NX := iter_next_ok p cur W Hc). rewrite Hs in NX.
  destruct l as [|g t].
  - change (join []) with (@nil N) in NX. rewrite next_seg_nil in NX. destruct NX as (-> & _). cbn [bind].
    rewrite app_nil_r. eauto 10.
  - rewrite (next_seg_join _ _ Hw) in NX. destruct NX as (gg & -> & Hlead & He & Hle & Hlt & Hsk & Hseg). cbn [bind].
    rewrite Hseg. cbn [bind].
    destruct (qstep_ok _ _ _ _ _ _ _ _ gg I Hlead Hle Hsk) as (post' & I' & Hp).
    assert (Hf' : (length t < fuel)%nat) by (cbn in Hf; lia).
    destruct (IH _ _ _ _ _ _ Hle Hsk (wfl_tail _ _ Hw) Hf' I') as (q' & p2 & s2 & c2 & E & I2 & Hx).
    { destruct Hp as [->| ->]; [exists (done ++ [g]); now rewrite app_nil_r|]. destruct Hsuf as (a & ->). exists a. now rewrite app_assoc. }
    rewrite <- app_assoc in I2, Hx. cbn in I2, Hx. eauto 10.
Qed.

Section Emit.
Variable Sp : Spec.
Variable mode : NormalizationMode.
Variable auth : bool.
Variable nrm : str -> str.
Variable good : str -> Prop.
Hypothesis nrm_ok : forall s, good s -> outs (write_seg Sp mode s) = Some (nrm s, tt).
Hypothesis nrm_slash : forall a b, good a -> good b -> nrm (a ++ SLASH :: b) = nrm a ++ SLASH :: nrm b.
Hypothesis nrm_nil : nrm [] = [].
Hypothesis good_app : forall a b, good (a ++ SLASH :: b) <-> good a /\ good b.
Hypothesis good_nil : good [].

Definition njoin (l : list seg) : str := concat (map (fun g => lead_str (fst g) ++ nrm (snd g)) l).
Lemma njoin_app a b : njoin (a ++ b) = njoin a ++ njoin b.
Proof. unfold njoin. now rewrite map_app, concat_app. Qed.
Lemma njoin_one g : njoin [g] = lead_str (fst g) ++ nrm (snd g).
Proof. unfold njoin. cbn. now rewrite app_nil_r. Qed.

Definition dbl (l : list seg) : bool :=
  match l with (true, []) :: (true, _) :: _ => true | _ => false end.
Definition ptext (l : list seg) : str := if negb auth && dbl l then lit "/." ++ njoin l else njoin l.
Definition only_ok (l : list seg) (o : option bool) : Prop :=
  match l with
  | [] => o = None
  | g :: t => exists b, o = Some b /\ (auth = false -> b = match t with [] => fst g && is_empty (snd g) | _ => false end)
  end.

Lemma dbl_snoc l g : (2 <= length l)%nat -> dbl (l ++ [g]) = dbl l.
Proof. destruct l as [|[[|] [|]] [|[[|] ?] ?]]; cbn; auto; lia. Qed.

Lemma emit_segment_ok E o fl g : only_ok E o -> (E = [] -> fl = fst g) -> (E <> [] -> fst g = true) -> good (snd g) ->
  exists d o', outs (emit_segment Sp mode auth o fl (snd g)) = Some (d, o') /\
    ptext (E ++ [g]) = ptext E ++ d /\ only_ok (E ++ [g]) o'.
Proof.
  intros Ho Hfl Hg Hgood. assert (Hn := nrm_ok _ Hgood). destruct E as [|e0 E].
  - cbn in Ho. subst o. rewrite (Hfl eq_refl). exists (lead_str (fst g) ++ nrm (snd g)), (Some (fst g && is_empty (snd g))).
    split; [|split].
    + unfold emit_segment. eapply outs_bind with (o := lead_str (fst g)) (a := Some (fst g && is_empty (snd g))).
      * destruct (fst g); [|reflexivity]. change (lead_str true) with ([SLASH] ++ []). eapply outs_bind; [apply outs_write|reflexivity].
      * rewrite <- (app_nil_r (nrm (snd g))). eapply outs_bind; [exact Hn|reflexivity].
    + cbn [app]. unfold ptext. replace (dbl [g]) with false by (destruct g as [[|] [|]]; reflexivity). cbn [dbl].
      rewrite andb_false_r. rewrite njoin_one. reflexivity.
    + cbn. eexists. split; eauto.
  - specialize (Hg ltac:(discriminate)). destruct g as [gl gn]. cbn [fst snd] in *. subst gl.
    cbn [only_ok] in Ho. destruct Ho as (b & -> & Hb).
    destruct (b && negb auth) eqn:C.
    + apply andb_prop in C. destruct C as [-> C]. apply negb_true_iff in C. specialize (Hb C).
      destruct E as [|e1 E]; [|discriminate]. symmetry in Hb. apply andb_prop in Hb. destruct Hb as [H1 H2].
      destruct e0 as [el en]. cbn in H1, H2. subst el. destruct en; [|discriminate].
      exists (lit "./" ++ [SLASH] ++ nrm gn), (Some false). split; [|split].
      * unfold emit_segment. rewrite C. cbn [andb negb].
        rewrite app_assoc. eapply outs_bind with (a := Some false) (o := lit "./" ++ [SLASH]).
        -- eapply outs_bind with (o := lit "./") (a := Some false).
           ++ rewrite <- (app_nil_r (lit "./")). eapply outs_bind; [apply outs_write|reflexivity].
           ++ change [SLASH] with ([SLASH] ++ []). eapply outs_bind; [apply outs_write|reflexivity].
        -- rewrite <- (app_nil_r (nrm gn)). eapply outs_bind; [exact Hn|reflexivity].
      * cbn [app]. unfold ptext. rewrite C. cbn [negb dbl andb]. change [(true, []); (true, gn)] with ([(true, @nil N)] ++ [(true, gn)]).
        rewrite njoin_app, !njoin_one. cbn [fst snd lead_str]. rewrite nrm_nil. cbn. reflexivity.
      * cbn. exists false. auto.
    + exists ([SLASH] ++ nrm gn), (Some b). split; [|split].
      * unfold emit_segment. rewrite C. rewrite wret_bind.
        eapply outs_bind with (a := Some b) (o := [SLASH]).
        -- change [SLASH] with ([SLASH] ++ []). eapply outs_bind; [apply outs_write|reflexivity].
        -- rewrite <- (app_nil_r (nrm gn)). eapply outs_bind; [exact Hn|reflexivity].
      * unfold ptext. rewrite njoin_app, njoin_one. cbn [fst snd lead_str].
        destruct auth eqn:Ea; [reflexivity|]. cbn [negb andb] in *. rewrite andb_true_r in C. subst b.
        assert (D : dbl ((e0 :: E) ++ [(true, gn)]) = dbl (e0 :: E)).
        { specialize (Hb eq_refl). destruct E as [|e1 E]; [|apply dbl_snoc; cbn; lia].
          destruct e0 as [[|] [|]]; cbn in *; try discriminate; reflexivity. }
        rewrite D. destruct (dbl (e0 :: E)); [|reflexivity]. now rewrite !app_assoc.
      * cbn. exists b. split; auto. intros Ha. rewrite Hb by exact Ha. rewrite Ha, andb_true_r in C. subst b.
        specialize (Hb Ha). destruct E; cbn; auto.
Qed.

Lemma emit_all_ok K : forall E o fl, only_ok E o -> (E = [] -> match K with g :: _ => fl = fst g | [] => True end) ->
  lead_all (match E with [] => tl K | _ => K end) -> Forall (fun g => good (snd g)) K -> forall k,
  exists d o', outs (emit_all Sp mode auth o fl (map (fun g => Some (snd g)) K ++ repeat None k)) = Some (d, o') /\
    ptext (E ++ K) = ptext E ++ d /\ only_ok (E ++ K) o'.
Proof.
  induction K as [|g K IH]; intros E o fl Ho Hfl Hl Hg k.
  - cbn [map app]. exists [], o. rewrite !app_nil_r. split; auto.
    induction k as [|k IHk]; cbn; auto.
  - inversion Hg as [|? ? Hg1 Hg2]; subst. cbn [map app emit_all].
    destruct (emit_segment_ok E o fl g Ho Hfl) as (d & o1 & E1 & P1 & O1); auto.
    { intros HE. destruct E; [easy|]. now inversion Hl. }
    destruct (IH (E ++ [g]) o1 fl O1) with (k := k) as (d2 & o2 & E2 & P2 & O2); auto.
    { intros X. destruct E; discriminate. }
    { destruct E as [|e E]; [exact Hl|]. cbn [app]. now inversion Hl. }
    exists (d ++ d2), o2. rewrite <- app_assoc in P2, O2. cbn [app] in P2, O2. split; [|split; auto].
    + eapply outs_bind; eauto.
    + etransitivity; [exact P2|]. rewrite P1. now rewrite app_assoc.
Qed.

Lemma good_join l : wfl l -> good (join l) -> Forall (fun g => good (snd g)) l.
Proof.
  intros (H1 & H2) H. destruct l as [|g t]; [constructor|]. destruct H2 as [Hh Ht].
  assert (X : good (snd g) /\ Forall (fun g => good (snd g)) t).
  { clear Hh. assert (Y : good (snd g ++ join t)).
    { unfold join in H. cbn [map concat] in H. fold (join t) in H. unfold seg_str in H. destruct (fst g); cbn [lead_str app] in H; auto.
      now apply (good_app []) in H. }
    clear H. revert g H1 Y. induction t as [|h t IH]; intros g H1 Y.
    - unfold join in Y. cbn in Y. rewrite app_nil_r in Y. auto.
    - inversion Ht as [|? ? Hh Ht']; subst. unfold join in Y. cbn [map concat] in Y. fold (join t) in Y. unfold seg_str in Y. rewrite Hh in Y. cbn [lead_str app] in Y.
      apply good_app in Y. destruct Y as [Y1 Y2]. split; auto. inversion H1; subst. destruct (IH Ht' h) as [Z1 Z2]; auto. }
  destruct X. now constructor.
Qed.
Lemma nrm_join l : wfl l -> Forall (fun g => good (snd g)) l -> nrm (join l) = njoin l.
Proof.
  intros (H1 & H2) HG. destruct l as [|g t]; [exact nrm_nil|]. destruct H2 as [Hh Ht]. inversion HG as [|? ? Hg HGt]; subst.
  assert (X : forall n, good n -> good (n ++ join t) /\ nrm (n ++ join t) = nrm n ++ njoin t).
  { clear - Ht HGt nrm_slash nrm_nil good_app. induction t as [|h t IH]; intros n Gn.
    - unfold join, njoin. cbn. now rewrite !app_nil_r.
    - inversion Ht as [|? ? Hh Ht']; subst. inversion HGt; subst. unfold join, njoin. cbn [map concat]. fold (join t). fold (njoin t). unfold seg_str. rewrite Hh. cbn [lead_str app].
      destruct (IH Ht' ltac:(assumption) (snd h)) as [Y1 Y2]; auto. split; [now apply good_app|]. rewrite nrm_slash, Y2 by auto. reflexivity. }
  unfold join, njoin. cbn [map concat]. fold (join t). fold (njoin t). unfold seg_str. destruct (X _ Hg) as [X1 X2]. destruct (fst g); cbn [lead_str app].
  - assert (Y := nrm_slash [] (snd g ++ join t) good_nil X1). cbn [app] in Y. rewrite Y, nrm_nil, X2. reflexivity.
  - now rewrite X2.
Qed.
Lemma good_seg_join l : wfl l -> Forall (fun g => good (snd g)) l -> good (join l).
Proof.
  intros (_ & H2) H. destruct l as [|g t]; [exact good_nil|]. destruct H2 as [_ Ht]. inversion H as [|? ? Hg Hgt]; subst.
  assert (X : forall n, good n -> good (n ++ join t)).
  { clear - Ht Hgt good_app. induction t as [|h t IH]; intros n Hn.
    - unfold join. cbn. now rewrite app_nil_r.
    - inversion Ht as [|? ? Hh Ht']; inversion Hgt; subst. unfold join. cbn [map concat]. fold (join t). unfold seg_str. rewrite Hh. cbn [lead_str app].
      apply good_app. auto. }
  unfold join. cbn [map concat]. fold (join t). unfold seg_str. destruct (fst g); cbn [lead_str app]; auto.
  apply (good_app []). auto.
Qed.

(** The rounds. *)
Lemma firstn_lead K E l : frun l [] = K -> wfl l -> E = @nil seg \/ lead_all l -> lead_all (match E with [] => tl K | _ => K end).
Proof.
  intros <- Hw HE.
  assert (R : forall l o, lead_all l -> lead_all (tl o) -> lead_all (tl (frun l o))).
  { clear. intros l. induction l as [|g l IH]; intros o Hl Ho; auto. inversion Hl; subst. cbn [frun fold_left]. apply IH; auto.
    unfold step. destruct (from_segment (snd g)); auto.
    - destruct o as [|x o]; auto. cbn in Ho. clear - Ho. destruct o as [|y o]; [constructor|]. cbn [removelast tl].
      revert y Ho. induction o as [|z o IH]; intros y Ho; [constructor|]. change (removelast (y :: z :: o)) with (y :: removelast (z :: o)).
      inversion Ho; subst. constructor; auto. now apply IH.
    - destruct o as [|x o]; [constructor|]. cbn. cbn in Ho. apply Forall_app. split; auto. }
  assert (R2 : forall l o, lead_all l -> lead_all o -> lead_all (frun l o)).
  { clear. intros l. induction l as [|g l IH]; intros o Hl Ho; auto. inversion Hl; subst. cbn [frun fold_left]. apply IH; auto.
    unfold step. destruct (from_segment (snd g)); auto.
    - clear - Ho. induction o as [|y o IH]; [constructor|]. destruct o as [|z o]; [constructor|]. inversion Ho; subst.
      change (removelast (y :: z :: o)) with (y :: removelast (z :: o)). constructor; auto. now apply IH.
    - apply Forall_app. split; auto. }
  destruct E.
  - destruct l as [|g t]; [constructor|]. assert (Ht := wfl_lead_tail _ _ Hw). cbn [frun fold_left]. apply R; auto.
    unfold step. destruct (from_segment (snd g)); constructor.
  - destruct HE as [HE|HE]; [discriminate|]. now apply R2; [|constructor].
Qed.
Lemma frun_sub l o : forall g, In g (frun l o) -> In g l \/ In g o.
Proof.
  revert o; induction l as [|x l IH]; intros o g H; auto. cbn [frun fold_left] in H. apply IH in H. destruct H as [H|H]; [left; now right|].
  unfold step in H. destruct (from_segment (snd x)); auto.
  - right. clear - H. induction o as [|y o IH]; auto. destruct o as [|z o]; [contradiction|]. change (removelast (y :: z :: o)) with (y :: removelast (z :: o)) in H.
    destruct H as [->|H]; [now left|right; now apply IH].
  - apply in_app_or in H. destruct H as [H|[->|[]]]; auto. left; now left.
Qed.
Lemma Forall_firstn {A} (P : A -> Prop) n l : Forall P l -> Forall P (firstn n l).
Proof. revert n; induction l; intros [|n] H; cbn; auto. inversion H; subst. constructor; auto. Qed.

Definition head_ok (E l : list seg) : Prop := lead_all l \/ (E = [] /\ exists g t, l = g :: t /\ dotty g = false).

Lemma lead_firstn n (K : list seg) E : lead_all (match E : list seg with [] => tl K | _ => K end) ->
  lead_all (match E with [] => tl (firstn n K) | _ => firstn n K end).
Proof.
  destruct E; [|apply Forall_firstn]. destruct K as [|k K]; [now rewrite firstn_nil|]. destruct n; [constructor|]. cbn. apply Forall_firstn.
Qed.

Lemma suffix_lead done post a : done = a ++ post -> wfl done -> (length post < length done)%nat -> lead_all post.
Proof.
  intros -> Hw Hl. rewrite app_length in Hl. destruct a as [|g a]; [cbn in Hl; lia|].
  apply wfl_lead_tail in Hw. now apply Forall_app in Hw.
Qed.

Lemma round_ok p E o l : pwf p -> flat p = join l -> wfl l -> l <> [] -> only_ok E o -> head_ok E l ->
  Forall (fun g => good (snd g)) l ->
  exists d r, outs (resolve_and_write_path_prefixes Sp mode auth p o true) = Some (d, r) /\
    match r with
    | None => ptext (E ++ rdsl l) = ptext E ++ d
    | Some (p', o', fl) => exists K post, ptext (E ++ K) = ptext E ++ d /\ only_ok (E ++ K) o' /\ rdsl l = K ++ rdsl post /\
        pwf p' /\ flat p' = join post /\ lead_all post /\ wfl post /\ Forall (fun g => good (snd g)) post /\ (length post < length l)%nat /\
        (fl = false -> existsb dotty post = false /\ (post <> [] -> length K = 8%nat))
    end.
Proof.
  intros W F Hw Hne Ho Hh Hg. unfold resolve_and_write_path_prefixes.
  assert (Hlen := join_length l Hw).
  assert (Hn0 : is_empty (flat p) = false). { rewrite F. destruct (join l) eqn:X; auto. apply join_nil in X; auto. contradiction. }
  rewrite p_is_empty_ok, Hn0 by exact W. rewrite lift_bind. cbn [negb].
  assert (Hh' : lead_all l \/ exists g t, l = g :: t /\ dotty g = false) by (destruct Hh as [|[_ ?]]; auto).
  destruct (skipped_ok (1 + p_len p) p 0 l W ltac:(lia) F Hw Hh') with (last := 0%nat) as (n & a & b & E1 & El & Hdots & Hb & Hsk & Hnle); auto.
  { rewrite p_len_flat, F. lia. } { lia. }
  rewrite E1, lift_bind. destruct (remove_start_ok p n W Hnle) as (W1 & F1). rewrite p_is_empty_ok by exact W1. rewrite lift_bind, F1, Hsk.
  destruct Hb as [->|(g & t & -> & Dg)].
  - change (is_empty (join [])) with true. cbv iota.
    assert (Hr : rdsl l = [(true, [])]). { rewrite app_nil_r in El. subst a. now apply rdsl_dots. }
    assert (Hlead : E <> [] \/ E = []) by (destruct E; [now right|left; discriminate]).
    exists (if negb auth && match o with Some true => true | _ => false end then lit ".//" else [SLASH]), None. split.
    + now destruct (negb auth && match o with Some true => true | _ => false end).
    + rewrite Hr. unfold ptext. rewrite njoin_app, njoin_one. cbn [fst snd lead_str]. rewrite nrm_nil. cbn [app].
      destruct auth eqn:Ea; [reflexivity|]. cbn [negb andb].
      destruct E as [|e0 E].
      * cbn in Ho. subst o. reflexivity.
      * cbn in Ho. destruct Ho as (bb & -> & Hbb). specialize (Hbb Ea). destruct bb.
        -- destruct E as [|e1 E]; [|discriminate]. symmetry in Hbb. apply andb_prop in Hbb. destruct Hbb as [B1 B2].
           destruct e0 as [el en]. cbn in B1, B2. subst el. destruct en; [|discriminate]. cbn [app dbl].
           rewrite njoin_one. cbn [fst snd lead_str]. rewrite nrm_nil. reflexivity.
        -- assert (D : dbl ((e0 :: E) ++ [(true, [])]) = dbl (e0 :: E)).
           { destruct E as [|e1 E]; [|apply dbl_snoc; cbn; lia]. destruct e0 as [[|] [|]]; cbn in *; try discriminate; reflexivity. }
           rewrite D. destruct (dbl (e0 :: E)); [|reflexivity]. now rewrite !app_assoc.
  - set (b := g :: t) in *.
    assert (Hwb : wfl b) by (eapply wfl_app_r; rewrite <- El; exact Hw).
    assert (Hbn : b <> []) by discriminate.
    assert (En : is_empty (join b) = false). { destruct (join b) eqn:X; auto. apply join_nil in X; auto. contradiction. }
    rewrite En. set (p1 := remove_start p n) in *.
    assert (F1' : flat p1 = join b) by (rewrite F1; exact Hsk).
    assert (Lb := join_length b Hwb).
    (* first step of the queue loop by hand *)
    set (q0 := mkQ (repeat None QUEUE_SIZE) false 0 0 true).
    assert (QL : exists q' post stack cur, queue_loop (1 + p_len p1) p1 0 q0 = Ok q' /\ qinv p1 q' cur b post [] stack /\ exists x, b = x ++ post).
    { change (1 + p_len p1)%nat with (S (p_len p1)). cbn [queue_loop].
      assert (NX := iter_next_ok p1 0 W1 ltac:(lia)). cbn [skipn] in NX. rewrite F1' in NX. unfold b in NX. rewrite next_seg_join in NX by exact Hwb.
      fold b in NX. destruct NX as (gg & -> & Hlead & He & Hle & Hlt & Hskk & Hseg). cbn [bind]. rewrite Hseg. cbn [bind].
      assert (Kn : from_segment (snd g) = Normal) by (unfold dotty in Dg; destruct (from_segment (snd g)); congruence).
      assert (I0 : qinv p1 (queue_step q0 (from_segment (snd g)) gg (snd g)) (seg_end gg) [g] [] t [g]).
      { rewrite Kn. cbn. constructor; cbn; auto.
        - unfold step; now rewrite Kn.
        - rewrite F1'. exact Hle.
        - rewrite F1'. exact Hskk.
        - unfold tail_slash. cbn. now rewrite Dg. }
      assert (Ht : (length t < p_len p1)%nat) by (rewrite p_len_flat, F1'; change (length b) with (S (length t)) in Lb; lia).
      rewrite <- F1' in Hle. rewrite <- F1' in Hskk.
      destruct (qloop_ok (p_len p1) p1 W1 _ (seg_end gg) [g] [] t [g] Hle Hskk (wfl_tail _ _ Hwb) Ht I0) as (q' & post & st & cur & A1 & A2 & A3).
      { exists [g]. reflexivity. }
      cbn [app] in A2, A3. fold b in A2, A3. exists q', post, st, cur. auto. }
    destruct QL as (q' & post & stack & cur & EQ & IQ & (x & Ex)). rewrite EQ, lift_bind.
    destruct IQ as [I1 I2 I3 I4 I5 I6 I7 I8 I9 I10].
    assert (Hgb : Forall (fun g => good (snd g)) b) by (rewrite El in Hg; apply Forall_app in Hg; tauto).
    assert (Hlb : E = [] \/ lead_all b).
    { destruct Hh as [Hh|[Hh _]]; [right; rewrite El in Hh; now apply Forall_app in Hh|now left]. }
    assert (Hle2 := firstn_lead stack E b (eq_sym I3) Hwb Hlb). 
    destruct (emit_all_ok (firstn 8 stack) E o (first_leading q') Ho) with (k := (8 - length (firstn 8 stack))%nat) as (d & o' & EE & PP & OO).
    { intros _. destruct stack; cbn; auto. }
    { now apply lead_firstn. }
    { apply Forall_firstn. apply Forall_forall. intros y Hy. rewrite I3 in Hy. apply frun_sub in Hy. destruct Hy as [Hy|[]].
      rewrite Forall_forall in Hgb. now apply Hgb. }
    rewrite I1. unfold qrep.
    exists (d ++ []), (Some (remove_start p1 (resolved_end q'), o', flag q')). split.
    { eapply outs_bind; [exact EE|]. reflexivity. }
    rewrite app_nil_r. exists (firstn 8 stack), post. rewrite app_nil_r in I6.
    destruct (remove_start_ok p1 (resolved_end q') W1 I5) as (W2 & F2).
    assert (Lp : lead_all post) by (eapply suffix_lead; [exact Ex|exact Hwb|exact I10]).
    repeat split; auto.
    + rewrite El. rewrite rdsl_skip by assumption. unfold rdsl. rewrite <- I3, I9, app_assoc. f_equal. exact I7.
    + now rewrite F2.
    + rewrite Ex in Hwb. apply wfl_app_r in Hwb. exact (proj1 Hwb).
    + rewrite Ex in Hwb. apply wfl_app_r in Hwb. exact (proj2 Hwb).
    + rewrite Ex in Hgb. now apply Forall_app in Hgb.
    + rewrite El, app_length. lia.
    + intros Hp. assert (Hpn : frun post [] = post) by (rewrite frun_normal; auto). rewrite Hpn in I7.
      rewrite firstn_length. apply (f_equal (@length seg)) in I7. rewrite app_length, firstn_length in I7. destruct post; [easy|]. cbn [length] in I7. lia.
Qed.

Lemma resolve_loop_ok fuel : forall p E o l may, pwf p -> flat p = join l -> wfl l -> only_ok E o -> head_ok E l \/ l = [] ->
  Forall (fun g => good (snd g)) l -> (length l < fuel)%nat ->
  (may = false -> existsb dotty l = false /\ (l <> [] -> (8 <= length E)%nat /\ lead_all l)) ->
  exists d r, outs (resolve_loop Sp mode auth fuel p o may) = Some (d, r) /\
    match r with
    | None => ptext (E ++ rdsl l) = ptext E ++ d
    | Some (p', o') => exists K l', ptext (E ++ K) = ptext E ++ d /\ only_ok (E ++ K) o' /\ rdsl l = K ++ l' /\
        pwf p' /\ flat p' = join l' /\ wfl l' /\ Forall (fun g => good (snd g)) l' /\ (l' <> [] -> lead_all l' /\ (8 <= length (E ++ K))%nat)
    end.
Proof.
  induction fuel as [|fuel IH]; intros p E o l may W F Hw Ho Hh Hg Hf Hm; [lia|].
  cbn [resolve_loop]. rewrite p_is_empty_ok by exact W. rewrite lift_bind.
  destruct (negb (is_empty (flat p)) && may) eqn:C.
  - apply andb_prop in C. destruct C as [C ->].
    assert (Hne : l <> []). { intros ->. rewrite F in C. discriminate. }
    destruct Hh as [Hh|Hh]; [|contradiction].
    destruct (round_ok p E o l W F Hw Hne Ho Hh Hg) as (d & r & E1 & R).
    destruct r as [[[p' o'] fl]|].
    + destruct R as (K & post & P1 & O1 & R1 & W1 & F1 & L1 & Hw1 & G1 & Len & Fl).
      destruct (IH p' (E ++ K) o' post fl W1 F1 Hw1 O1) as (d2 & r2 & E2 & R2); auto.
      { left. now left. } { lia. }
      { intros Hfl. destruct (Fl Hfl) as [X Y]. split; auto. intros Z. specialize (Y Z). rewrite app_length. split; auto; lia. }
      exists (d ++ d2), r2. split; [eapply outs_bind; eauto|].
      destruct r2 as [[p2 o2]|].
      * destruct R2 as (K2 & l2 & P2 & O2 & R2 & Rest). exists (K ++ K2), l2. rewrite app_assoc. split; [|split; [auto|split]].
        -- rewrite P2, P1. now rewrite app_assoc.
        -- rewrite R1, R2. now rewrite app_assoc.
        -- auto.
      * rewrite R1, app_assoc, R2, P1. now rewrite app_assoc.
    + exists (d ++ []), None. split; [eapply outs_bind; [exact E1|reflexivity]|]. now rewrite app_nil_r.
  - exists [], (Some (p, o)). split; [reflexivity|]. exists [], l. rewrite !app_nil_r. 
    assert (Z : l = [] \/ may = false).
    { apply andb_false_iff in C. destruct C as [C|C]; auto. left. apply negb_false_iff, is_empty_iff in C. rewrite F in C. now apply join_nil in C. }
    assert (RL : rdsl l = l). { destruct Z as [->|Z]; [reflexivity|]. apply rdsl_normal. now apply Hm. }
    repeat split; auto.
    + exact (proj1 Hw). + exact (proj2 Hw).
    + destruct Z as [->|Z]; [easy|]. destruct (Hm Z) as [_ Y]. now apply Y.
    + destruct Z as [->|Z]; [easy|]. destruct (Hm Z) as [_ Y]. now apply Y.
Qed.

(** The whole path writer, in the non-opaque modes. *)
Definition opaque_path (p : ptn) : bool :=
  match mode with MPreserve => negb auth && negb (starts_with [SLASH] (flat p)) | _ => false end.

Lemma front_back_good p : pwf p -> good (flat p) -> outs (write_seg Sp mode (front p) >> match back p with Some b => write_seg Sp mode b | None => wret tt end) = Some (nrm (flat p), tt).
Proof.
  intros W G. unfold flat in *. unfold pwf in W. destruct (back p) as [b|].
  - destruct W as (_ & a & Ea). rewrite Ea, <- app_assoc in *. cbn [app] in *.
    destruct (proj1 (good_app a b) G) as [Ga Gb].
    rewrite nrm_slash by auto. replace (nrm a ++ SLASH :: nrm b) with (nrm (a ++ [SLASH]) ++ nrm b) by (rewrite (nrm_slash a []), nrm_nil, <- app_assoc by auto; reflexivity).
    eapply outs_bind; [apply nrm_ok|now apply nrm_ok]. apply good_app. auto.
  - rewrite app_nil_r in *. rewrite <- (app_nil_r (nrm (front p))). eapply outs_bind; [now apply nrm_ok|reflexivity].
Qed.

Lemma fmt_write_ok p : pwf p -> good (flat p) -> opaque_path p = false ->
  (flat p = [] /\ outs (fmt_write_normalize Sp mode auth p) = Some ([], tt)) \/
  (flat p <> [] /\ exists s l, trim (flat p) s /\ s = join l /\ wfl l /\
    (good s -> outs (fmt_write_normalize Sp mode auth p) =
    Some ((if is_empty s then if auth then [SLASH] else [] else ptext (rdsl l)), tt))).
Proof.
  intros W G Hop. unfold fmt_write_normalize. rewrite p_is_empty_ok by exact W. rewrite lift_bind.
  destruct (flat p) as [|c0 f0] eqn:F0; [now left|]. right. split; [discriminate|]. cbn [is_empty].
  rewrite starts_with_slash_ok by exact W.
  replace (match mode with MPreserve => true | _ => false end && negb auth && negb (starts_with [SLASH] (flat p))) with false
    by (unfold opaque_path in Hop; destruct mode; auto).
  destruct (remove_ignorable_ok (1 + p_len p) p W) as (p' & E' & W' & T'). { rewrite p_len_flat. lia. }
  rewrite E', lift_bind. destruct (wfl_exists (flat p')) as (l & Hw & Fl). exists (flat p'), l. rewrite <- F0. split; auto. split; auto. split; auto. intros Gs.
  rewrite p_is_empty_ok by exact W'. rewrite lift_bind.
  destruct (is_empty (flat p')) eqn:Em.
  - destruct auth; [apply outs_write|reflexivity].
  - assert (Hne : l <> []). { intros ->. rewrite Fl in Em. discriminate. }
    assert (Hh : head_ok [] l).
    { destruct (trim_next _ _ T') as [X|[(r & X)|(n & r & X & K)]].
      - rewrite X in Em. discriminate.
      - left. destruct l as [|g t]; [easy|]. assert (NS := next_seg_join _ _ Hw). rewrite <- Fl, X in NS. cbn in NS. destruct (span_seg r). inversion NS; subst.
        constructor; auto. eapply wfl_lead_tail; eauto.
      - right. split; auto. destruct l as [|g t]; [easy|]. exists g, t. split; auto. rewrite Fl, next_seg_join in X by exact Hw. inversion X; subst.
        unfold dotty. now rewrite K. }
    assert (Gl : Forall (fun g => good (snd g)) l) by (apply good_join; auto; now rewrite <- Fl).
    assert (Ll := join_length l Hw).
    destruct (resolve_loop_ok (1 + p_len p') p' [] None l true W' Fl Hw) as (d & r & E1 & R); auto.
    { reflexivity. } { rewrite p_len_flat, Fl. lia. } { discriminate. }
    assert (P0 : ptext [] = []) by (unfold ptext; cbn; now rewrite andb_false_r).
    destruct r as [[p2 o2]|].
    + destruct R as (K & l' & P & O & R & W2 & F2 & Hw2 & G2 & L2). cbn [app] in *. rewrite P0 in P. cbn [app] in P.
      rewrite <- (app_nil_r d) in P. rewrite R.
      destruct l' as [|g' t'].
      * rewrite app_nil_r. rewrite P. eapply outs_bind; [exact E1|]. cbv beta iota. rewrite p_is_empty_ok by exact W2. rewrite lift_bind, F2. reflexivity.
      * destruct (L2 ltac:(discriminate)) as [LL L8]. set (l' := g' :: t') in *.
        assert (D2 : dbl (K ++ l') = dbl K). { destruct K as [|[[|] [|]] [|[[|] ?] ?]]; cbn in L8; try lia; reflexivity. }
        assert (PE : ptext (K ++ l') = d ++ njoin l').
        { rewrite app_nil_r in P. rewrite <- P. unfold ptext. rewrite D2, njoin_app. destruct (negb auth && dbl K); [|reflexivity]. now rewrite app_assoc. }
        rewrite PE. eapply outs_bind; [exact E1|]. cbv beta iota. rewrite p_is_empty_ok by exact W2. rewrite lift_bind, F2.
        assert (En : is_empty (join l') = false). { destruct (join l') eqn:X; auto. apply join_nil in X; auto. discriminate. }
        rewrite En.
        assert (XX : forall q : MFormat.W ptn, q = wret p2 -> outs (wbind q (fun p => write_seg Sp mode (front p) >> match back p with Some b => write_seg Sp mode b | None => wret tt end)) = Some (njoin l', tt)).
        { intros q ->. rewrite wret_bind. rewrite front_back_good; auto; [now rewrite F2, nrm_join|]. rewrite F2. now apply good_seg_join. }
        apply XX. destruct auth eqn:Ea; auto. destruct K as [|k0 [|k1 K]]; cbn in L8; try lia.
        cbn in O. destruct O as (bb & -> & HB). now rewrite (HB Ea).
    + cbn [app] in R. rewrite P0 in R. cbn [app] in R. rewrite R. rewrite <- (app_nil_r d). eapply outs_bind; [exact E1|reflexivity].
Qed.
End Emit.
