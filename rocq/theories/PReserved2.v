(** * The reserved operators on any value (C28, C29): the decoder. *)
From Verif Require Import Base Chars Rfc3986 Utf8 PctSpec EncodeSpec MValidate MTrusted MFormat MSearch MPct MEncode MTemplate MMaybePct MExpand TemplateSpec ExpandSpec ReservedSpec.
From Verif Require Import PBase PScan PSearch PPct PPct2 PPath2 PEncode PEncode2 PTmpl1 PExp1 PExp2 PReserved1.

(** ** Pending texts *)
Inductive tail : str -> Prop := tl0 : tail [] | tl1 : tail [37] | tl2 h : HEXDIG h = true -> tail [37; h].
Lemma octets_spelled bs w t : spelled bs w -> octets (w ++ t) = bs ++ octets t.
Proof. induction 1 as [|u l bs w Hu Hl Hs IH]; [reflexivity|]. cbn [app octets]. now rewrite IH. Qed.
Lemma octets_tail t : tail t -> octets t = [].
Proof. now destruct 1. Qed.
Lemma octets_eq bs w t : spelled bs w -> tail t -> octets (w ++ t) = bs.
Proof. intros Hw Ht. rewrite (octets_spelled bs) by assumption. rewrite octets_tail by assumption. apply app_nil_r. Qed.
Lemma mod_eq bs w t : spelled bs w -> tail t -> (length (w ++ t) mod 3)%nat = length t.
Proof.
  intros Hw Ht. rewrite app_length, (spelled_length _ _ Hw). replace (3 * length bs + length t)%nat with (length t + length bs * 3)%nat by lia.
  rewrite Nat.mod_add by lia. now destruct Ht.
Qed.
Lemma div_eq bs w t : spelled bs w -> tail t -> (length (w ++ t) / 3 * 3)%nat = length w.
Proof.
  intros Hw Ht. rewrite app_length, (spelled_length _ _ Hw). replace (3 * length bs + length t)%nat with (length t + length bs * 3)%nat by lia.
  rewrite Nat.div_add by lia. replace (length t / 3)%nat with 0%nat by now destruct Ht. lia.
Qed.
Lemma whole_eq bs w t : spelled bs w -> tail t -> whole_part (w ++ t) = w.
Proof. intros Hw Ht. unfold whole_part. rewrite (div_eq bs w t) by assumption. rewrite firstn_app, firstn_all, Nat.sub_diag. cbn [firstn]. apply app_nil_r. Qed.
Definition pending (q : str) : Prop := exists bs w t, q = w ++ t /\ spelled bs w /\ tail t /\ fit bs.
Definition db_of (q : str) : DecoderBuffer := mkDB q (octets q).
Definition ascii (s : str) : Prop := Forall (fun c => c < 128) s.
Lemma pending_nil : pending [].
Proof. exists [], [], []. repeat split; try constructor. cbn. lia. Qed.

(** ** One call of the decoder *)
Definition prepend (ps : list piece) (x : list piece * option str) : list piece * option str := let '(qs, e) := x in (ps ++ qs, e).
(** What follows a character that does not go on with [p]. *)
Definition cut_off (debug : bool) (p : str) (fresh : bool) (c : N) (s : str) : list piece * option str :=
  if fresh && (c <? 128) then
    if c =? 37 then if debug then ([], None) else prepend [PPlain []] (reads debug (Pend [37] false) s)
    else reads debug (Text [c]) s
  else if c <? 128 then prepend (given_up p) (reads debug (restart c) s) else (given_up p, None).
Lemma reads_cut debug p fresh c s : goes_on p c = false -> reads debug (Pend p fresh) (c :: s) = cut_off debug p fresh c s.
Proof.
  intros H. cbn [reads read_char]. rewrite H. unfold cut_off. destruct (fresh && (c <? 128)) eqn:E.
  - destruct (c =? 37); [destruct debug; reflexivity|]. now destruct (reads debug (Text [c]) s).
  - destruct (c <? 128); [|reflexivity]. reflexivity.
Qed.
Inductive agree (debug : bool) (q : str) (n : nat) (s : str) : may (nat * PushResult * DecoderBuffer) -> list piece * option str -> Prop :=
| ag_more : ascii s -> pending (q ++ s) -> agree debug q n s (Ok ((n + length s)%nat, NeedMoreBytes, db_of (q ++ s))) ([], Some (q ++ s))
| ag_char s1 s2 w ch : s = s1 ++ s2 -> s1 <> [] -> ascii s1 ->
    agree debug q n s (Ok ((n + length s1)%nat, Decoded w ch, db_empty)) (prepend [PWhole w] (reads debug (Pend [] true) s2))
| ag_bad s1 s2 w bs q2 : s = s1 ++ s2 -> s1 <> [] -> ascii s1 -> spelled bs w -> pending q2 ->
    agree debug q n s (Ok ((n + length s1)%nat, Undecodable w, db_of q2)) (prepend [PBroken w] (reads debug (Pend q2 true) s2))
| ag_stuck : agree debug q n s Panic ([], None)
| ag_cut s1 c s2 : s = s1 ++ c :: s2 -> ascii s1 -> pending (q ++ s1) -> goes_on (q ++ s1) c = false ->
    agree debug q n s (Ok ((n + length s1 + clen c - 1)%nat, Undecodable (q ++ s1), db_empty)) (cut_off debug (q ++ s1) (Nat.eqb (n + length s1) 0) c s2).
Lemma agree_cons debug q n c s x y : c < 128 -> agree debug (q ++ [c]) (n + 1) s x y -> agree debug q n (c :: s) x y.
Proof.
  intros Hc H. destruct H as [Ha Hp|s1 s2 w ch -> Hn Ha|s1 s2 w bs q2 -> Hn Ha Hw Hq| |s1 d s2 -> Ha Hp Hg].
  - replace (n + 1 + length s)%nat with (n + length (c :: s))%nat by (cbn [length]; lia). rewrite <- app_assoc in *. cbn [app] in *. constructor; [now constructor|assumption].
  - replace (n + 1 + length s1)%nat with (n + length (c :: s1))%nat by (cbn [length]; lia). apply ag_char; [reflexivity|discriminate|now constructor].
  - replace (n + 1 + length s1)%nat with (n + length (c :: s1))%nat by (cbn [length]; lia). eapply ag_bad; [reflexivity|discriminate|now constructor|eassumption|assumption].
  - constructor.
  - replace (n + 1 + length s1)%nat with (n + length (c :: s1))%nat by (cbn [length]; lia). rewrite <- app_assoc in *. cbn [app] in *. apply ag_cut; [reflexivity|now constructor|assumption|assumption].
Qed.
Lemma spelled_firstn k : forall bs w, spelled bs w -> spelled (firstn k bs) (firstn (k * 3) w) /\ spelled (skipn k bs) (skipn (k * 3) w).
Proof.
  induction k as [|k IH]; intros bs w H; [split; [constructor|exact H]|]. cbn [Nat.mul Nat.add]. inversion H as [|u l bs' w' Hu Hl Hs]; subst; [split; constructor|].
  cbn [firstn skipn]. destruct (IH _ _ Hs). split; [now constructor|assumption].
Qed.
Lemma fit_one bs : (length bs <= 1)%nat -> fit bs.
Proof. now left. Qed.
Lemma goes_eq bs w t c : spelled bs w -> tail t -> goes_on (w ++ t) c = match t with [] => c =? 37 | _ => HEXDIG c end.
Proof. intros Hw Ht. unfold goes_on. rewrite (mod_eq bs w t) by assumption. now destruct Ht. Qed.
Lemma undec bs w t n c X : spelled bs w -> tail t -> X = (w ++ t) ->
  (do (w, db) <- write_and_pop (mkDB X bs) (length (db_encoded (mkDB X bs))) ; do n <- sub_p (n + clen c) 1 ; Ok (n, Undecodable w, db)) =
  @Ok Empty_set _ ((n + clen c - 1)%nat, Undecodable X, db_empty).
Proof.
  intros _ _ _. cbn [db_encoded]. rewrite pop_all. cbn [bind]. unfold sub_p. pose proof (clen_pos c). destruct (Nat.ltb_spec (n + clen c) 1); [lia|]. reflexivity.
Qed.
Lemma push_agrees debug s : forall bs w t n, spelled bs w -> tail t -> fit bs ->
  agree debug (w ++ t) n s (push_loop debug (mkDB (w ++ t) bs) (length t) n s) (reads debug (Pend (w ++ t) (Nat.eqb n 0)) s).
Proof.
  induction s as [|c s IH]; intros bs w t n Hw Ht Hf.
  { cbn [push_loop reads]. pose proof (ag_more debug (w ++ t) n []) as H. cbn [length] in H. rewrite Nat.add_0_r, app_nil_r in H. unfold db_of in H.
    rewrite (octets_eq bs w t) in H by assumption. apply H; [constructor|]. exists bs, w, t. auto. }
  pose proof (fit_room bs Hf) as R.
  assert (CUT : goes_on (w ++ t) c = false ->
    agree debug (w ++ t) n (c :: s) (Ok ((n + clen c - 1)%nat, Undecodable (w ++ t), db_empty)) (reads debug (Pend (w ++ t) (Nat.eqb n 0)) (c :: s))).
  { intros Hg. rewrite reads_cut by assumption. pose proof (ag_cut debug (w ++ t) n (c :: s) [] c s) as H. cbn [length app] in H. rewrite Nat.add_0_r, app_nil_r in H.
    apply H; [reflexivity|constructor| |assumption]. exists bs, w, t. auto. }
  pose proof (goes_eq bs w t c Hw Ht) as Hg.
  assert (ON : forall t', t' = t ++ [c] -> tail t' -> goes_on (w ++ t) c = true -> reads debug (Pend (w ++ t) (Nat.eqb n 0)) (c :: s) = reads debug (Pend (w ++ t') (Nat.eqb (n + 1) 0)) s).
  { intros t' -> Ht' G. cbn [reads read_char]. rewrite G. rewrite <- app_assoc. rewrite (mod_eq bs w (t ++ [c])) by assumption.
    replace (Nat.eqb (length (t ++ [c])) 0) with false by (destruct t; reflexivity). replace (Nat.eqb (n + 1) 0) with false by (symmetry; apply Nat.eqb_neq; lia).
    now destruct (reads debug (Pend (w ++ t ++ [c]) false) s). }
  destruct Ht as [| |h Hh]; cbn [length push_loop Nat.eqb] in *.
  - change (c =? PCT) with (c =? 37). rewrite app_nil_r in *. destruct (N.eqb_spec c 37) as [->|Hc]; cbn [negb].
    + rewrite push_pct by assumption. cbn [bind]. change (clen 37) with 1%nat. rewrite (ON [37] eq_refl tl1) by assumption. apply agree_cons; [lia|]. apply (IH bs w [37]); [assumption|constructor|assumption].
    + rewrite (undec bs w []) by (assumption || constructor || now rewrite app_nil_r). apply CUT. exact Hg.
  - change (is_hexdigit c) with (HEXDIG c). destruct (HEXDIG c) eqn:Hc; cbn [negb].
    + rewrite push_upper by assumption. cbn [bind]. rewrite (clen_ascii c) by now apply hex_ascii. rewrite (ON [37; c] eq_refl (tl2 c Hc)) by assumption.
      apply agree_cons; [now apply hex_ascii|]. rewrite <- app_assoc. apply (IH bs w [37; c]); [assumption|now constructor|assumption].
    + rewrite (undec bs w [37]) by (assumption || constructor || reflexivity). now apply CUT.
  - change (is_hexdigit c) with (HEXDIG c). destruct (HEXDIG c) eqn:Hc; cbn [negb].
    2:{ rewrite (undec bs w [37; h]) by (assumption || reflexivity || now constructor). now apply CUT. }
    rewrite push_lower by assumption. cbn [bind]. rewrite (clen_ascii c) by now apply hex_ascii. clear ON CUT.
    assert (Hw3 : spelled (bs ++ [bval h c]) (w ++ [PCT; h; c])) by (apply spelled_app; [assumption|apply spelled_cons; [assumption|assumption|constructor]]).
    cbn [reads read_char]. rewrite Hg. rewrite <- app_assoc. cbn [app]. change PCT with 37 in *.
    pose proof (octets_eq _ _ [] Hw3 tl0) as O3. pose proof (mod_eq _ _ [] Hw3 tl0) as M3. rewrite app_nil_r in O3, M3. rewrite M3. cbn [length Nat.eqb]. rewrite O3.
    cbn [db_decoded db_encoded]. pose proof (hex_ascii c Hc) as Ha. set (b3 := bs ++ [bval h c]) in *.
    assert (Hne : b3 <> []) by (unfold b3; intros X; apply app_eq_nil in X as [_ X]; discriminate).
    destruct (utf8_error b3) as [[[|v] [k|]]|] eqn:EU; cbn [Nat.eqb negb].
    + destruct (bad_after bs (bval h c) k Hf EU) as [[K1 K2] K3]. fold b3 in K2, K3. replace (Nat.eqb k 0) with false by (symmetry; apply Nat.eqb_neq; lia).
      destruct (spelled_firstn k _ _ Hw3) as [S1 S2]. pose proof (spelled_length _ _ Hw3) as L3.
      unfold write_and_pop, sub_p. cbn [db_encoded db_decoded]. destruct (Nat.ltb_spec (length (w ++ [37; h; c])) (k * 3)); [lia|]. cbn [bind].
      pose proof (ag_bad debug (w ++ [37; h]) n (c :: s) [c] s (firstn (k * 3) (w ++ [37; h; c])) _ (skipn (k * 3) (w ++ [37; h; c])) eq_refl ltac:(discriminate) ltac:(now repeat constructor) S1) as AG.
      destruct (reads debug (Pend (skipn (k * 3) (w ++ [37; h; c])) true) s) as [qs e] eqn:ER. cbn [prepend] in AG.
      replace (if Nat.eqb (length (w ++ [37; h; c]) - k * 3) 0 then @Ok Empty_set _ (firstn (k * 3) (w ++ [37; h; c]), db_empty)
        else Ok (firstn (k * 3) (w ++ [37; h; c]), mkDB (skipn (k * 3) (w ++ [37; h; c])) (skipn (k * 3 / 3) b3)))
        with (@Ok Empty_set _ (firstn (k * 3) (w ++ [37; h; c]), db_of (skipn (k * 3) (w ++ [37; h; c])))).
      * apply AG. exists (skipn k b3), (skipn (k * 3) (w ++ [37; h; c])), []. rewrite app_nil_r. repeat split; [assumption|constructor|now apply fit_one].
      * pose proof (octets_eq _ _ [] S2 tl0) as OE. rewrite app_nil_r in OE. unfold db_of. rewrite OE. rewrite Nat.div_mul by lia.
        destruct (Nat.eqb_spec (length (w ++ [37; h; c]) - k * 3) 0) as [Z|Z]; [|reflexivity].
        rewrite !skipn_all2 by lia. reflexivity.
    + replace (let '(qs, e) := reads debug (Pend (w ++ [37; h; c]) false) s in ([] ++ qs, e)) with (reads debug (Pend (w ++ [37; h; c]) (Nat.eqb (n + 1) 0)) s).
      2:{ replace (Nat.eqb (n + 1) 0) with false by (symmetry; apply Nat.eqb_neq; lia). now destruct (reads debug (Pend (w ++ [37; h; c]) false) s). }
      apply agree_cons; [assumption|]. rewrite <- app_assoc. cbn [app].
      pose proof (IH _ _ [] (n + 1)%nat Hw3 tl0) as X. rewrite app_nil_r in X. apply X. right. now apply error_short.
    + constructor.
    + constructor.
    + destruct (error_none b3 EU Hne) as (ch & r & ->). rewrite pop_all. cbn [bind].
      pose proof (ag_char debug (w ++ [37; h]) n (c :: s) [c] s (w ++ [37; h; c]) ch eq_refl ltac:(discriminate) ltac:(now repeat constructor)) as AG. exact AG.
Qed.
