(** * The expansion of one variable (C28, C29). *)
From Verif Require Import Base Chars Rfc3986 Utf8 PctSpec EncodeSpec MValidate MTrusted MFormat MSearch MPct MEncode MTemplate MMaybePct MExpand TemplateSpec ExpandSpec.
From Verif Require Import PBase PScan PSearch PPct PPct2 PPath2 PEncode PEncode2 PTmpl1 PTmpl3 PExp1 PExp2.

(** ** Prefixes of reserved values *)
Lemma plain_loop {St} debug (f : St -> Frag -> W (St + unit)) k st c r o x : ~ In 37 (c :: r) -> c < 128 -> outs (f st (NoPctStr (c :: r))) = Some (o, x) ->
  outs (decompose_loop debug f (Datatypes.S (Datatypes.S k)) st db_empty (c :: r)) = Some (o, match x with inl m => inl (m, db_empty) | inr u => inr u end).
Proof.
  intros Hp Hc EX.
  assert (HN : none (N.eqb 37) (c :: r) = true).
  { apply forallb_forall. intros y Hy. destruct (N.eqb_spec 37 y); [subst; contradiction|reflexivity]. }
  assert (FS : find_split (c :: r) PCT = None) by (unfold find_split; change PCT with 37; now rewrite split_first_none_app).
  remember (Datatypes.S k) as k1 eqn:Hk1. cbn [decompose_loop is_empty]. unfold push_encoded. cbn [db_encoded db_empty length Nat.modulo Nat.divmod fst Nat.sub]. fold db_empty.
  rewrite push_plain by (assumption || (intros ->; apply Hp; now left)). rewrite lift_bind. cbv beta iota. cbn [Nat.eqb].
  change (flush db_empty) with (@Ok Empty_set _ (@None (list N * DecoderBuffer))). rewrite lift_bind. cbv beta iota.
  eapply outs_quiet; [apply outs_ret|]. cbv beta iota. rewrite FS. cbn [is_empty]. rewrite andb_false_r. rewrite <- (app_nil_r o). eapply outs_bind; [exact EX|]. cbv beta iota.
  subst k1. destruct x as [m|u]; [cbn [decompose_loop is_empty]|]; apply outs_ret.
Qed.
Lemma all_scalar_firstn n s : all_scalar s = true -> all_scalar (firstn n s) = true.
Proof. intros SC. rewrite <- (firstn_skipn n s) in SC. rewrite all_scalar_app in SC. bdestr. assumption. Qed.
Lemma maxlen_plain S debug n s : ~ In 37 s -> starts_ascii (fun _ => true) s -> all_scalar s = true ->
  (debug = true -> N.of_nat (last_position (N.to_nat n) s) <= n) ->
  outs (process_percent_encoded_best_effort debug (maxlen_frag S debug) n (display s)) = Some (enc_UR S (firstn (N.to_nat n) s), tt).
Proof.
  intros Hp Ha SC Hl. destruct Ha as [->|(c & r & -> & Hc & _)]; [rewrite firstn_nil; reflexivity|].
  assert (X : exists x, outs (maxlen_frag S debug n (NoPctStr (c :: r))) = Some (enc_UR S (firstn (N.to_nat n) (c :: r)), x)).
  { unfold maxlen_frag. destruct (N.eqb_spec n 0) as [->|Hn]; [eexists; apply outs_ret|].
    destruct (take_spec (c :: r) n 0 None) as [T1 T2]. destruct (take_chars n 0 (c :: r) None) as [l t]. cbn [fst snd] in *. subst l t.
    replace (n =? 0) with false by lia. cbn [orb is_empty].
    destruct (usize_sub_ok debug n (0 + N.of_nat (last_position (N.to_nat n) (c :: r)))) as (m' & E & _); [intros D; specialize (Hl D); lia|].
    exists (inl m'). eapply outs_quiet; [exact E|]. cbv beta. eapply outs_then.
    pose proof (all_scalar_firstn (N.to_nat n) _ SC) as SC'.
    assert (Hp' : ~ In 37 (firstn (N.to_nat n) (c :: r))).
    { intros H. apply Hp. rewrite <- (firstn_skipn (N.to_nat n) (c :: r)). apply in_or_app. now left. }
    rewrite <- (app_nil_r (firstn _ _)) at 2. rewrite ur_plain by assumption. cbn [enc_UR]. rewrite app_nil_r. apply pe_outs; [assumption|apply v_character]. }
  destruct X as [x EX].
  unfold process_percent_encoded_best_effort. cbn [fst snd display decompose_chunks]. unfold decompose_write_str.
  replace (2 * (1 + length (c :: r)))%nat with (Datatypes.S (Datatypes.S (2 * length (c :: r)))) by lia.
  pose proof (plain_loop debug _ (2 * length (c :: r)) n c r _ _ Hp Hc EX) as L.
  rewrite <- (app_nil_r (enc_UR S _)). destruct x as [m|u]; cbv iota in L.
  - eapply outs_bind; [rewrite <- (app_nil_r (enc_UR S _)); eapply outs_bind; [exact L|]; cbv beta iota; apply outs_ret|].
    cbv beta iota. reflexivity.
  - eapply outs_bind; [rewrite <- (app_nil_r (enc_UR S _)); eapply outs_bind; [exact L|]; cbv beta iota; apply outs_ret|].
    cbv beta iota. apply outs_ret.
Qed.

(** ** Prefixes of other values *)
Definition clean {A} (x : W A) : Prop := ~ In [] (fst x).
Lemma filter_clean S ctx s : ~ In [] (filter_str S ctx s).
Proof.
  unfold filter_str. intros H. apply in_flat_map in H as (c & _ & H). unfold filter_char in H. destruct (is_valid_char S ctx c).
  - destruct H as [H|[]]. discriminate.
  - unfold pct_encoded_char in H. apply in_map_iff in H as (b & H & _). discriminate.
Qed.
Lemma pe_clean {A} S ctx (d : W A) : clean (PercentEncoded S ctx d).
Proof. unfold clean, PercentEncoded. cbn [fst]. intros H. apply in_flat_map in H as (s & _ & H). now apply filter_clean in H. Qed.
Lemma clean_bind {A B} (x : W A) (f : A -> W B) : clean x -> (forall a, clean (f a)) -> clean (wbind x f).
Proof.
  unfold clean. intros Hx Hf. destruct x as [o [a| |]]; cbn [wbind] in *; auto. specialize (Hf a). destruct (f a) as [o' r].
  cbn [fst] in *. intros H. apply in_app_or in H as [H|H]; auto.
Qed.
Lemma usize_clean debug a b : clean (usize_sub debug a b).
Proof. unfold clean, usize_sub. destruct (b <=? a); [intros []|]. destruct debug; intros []. Qed.
Lemma truncate_clean S debug l : forall n, clean (truncate_chunks S debug n l).
Proof.
  induction l as [|s l IH]; intros n; cbn [truncate_chunks]; [intros []|]. apply clean_bind; [|exact IH].
  unfold truncate_write. destruct (n =? 0); [intros []|]. destruct (take_chars n 0 s None) as [la t]. apply clean_bind; [apply pe_clean|intros _; apply usize_clean].
Qed.
Lemma outs_clean {A} (x : W A) o a : clean x -> outs x = Some (o, a) -> (o = [] <-> fst x = []).
Proof.
  intros Hc H. unfold outs in H. destruct x as [l e]. cbn [fst snd] in *. destruct e; try discriminate. injection H as <- <-.
  destruct l as [|s l]; [tauto|]. split; [|discriminate]. intros E. cbn [concat] in E. apply app_eq_nil in E as [-> _]. exfalso. apply Hc. now left.
Qed.
Lemma truncate_one S debug n s : all_scalar s = true ->
  let skip := if is_empty s then 0 else N.of_nat (last_position (N.to_nat n) s) + 1 in
  (debug = true -> n = 0 \/ skip <= n) ->
  exists m, outs (truncate_write S debug n s) = Some (enc_U S (firstn (N.to_nat n) s), m) /\ (n <> 0 -> skip <= n -> m = n - skip) /\ (n = 0 -> m = 0).
Proof.
  intros SC skip Hd. unfold truncate_write. destruct (N.eqb_spec n 0) as [->|Hn].
  - exists 0. repeat split; auto.
  - destruct (take_spec s n 0 None) as [T1 T2]. destruct (take_chars n 0 s None) as [l t]. cbn [fst snd] in *. subst t.
    replace (n =? 0) with false in T2 by lia. cbn [orb] in T2.
    assert (E : match l with Some i => i + 1 | None => 0 end = skip) by (subst l; unfold skip; destruct (is_empty s); lia).
    rewrite E. clear E T2. destruct (usize_sub_ok debug n skip) as (m & E & Em); [intros D; destruct (Hd D); [contradiction|assumption]|].
    exists m. split; [|split; [auto|contradiction]]. rewrite <- (app_nil_r (enc_U S _)). eapply outs_bind; [|exact E].
    apply pe_outs; [now apply all_scalar_firstn|apply v_unreserve].
Qed.
Lemma last_ascii n s : all_ascii s = true -> s <> [] -> (0 < n)%nat -> (last_position n s + 1 = Nat.min n (length s))%nat.
Proof.
  intros Ha Hs Hn. unfold last_position. destruct (firstn n s) as [|c r] eqn:E.
  { destruct n; [lia|]. destruct s; [contradiction|discriminate]. }
  rewrite <- firstn_length. assert (H : c :: r <> []) by discriminate. pose proof (app_removelast_last 0 H) as X. rewrite <- E in *.
  assert (A : Forall (fun c => c < 128) (removelast (firstn n s))).
  { unfold all_ascii in Ha. rewrite forallb_forall in Ha. apply Forall_forall. intros x Hx. specialize (Ha x). unfold is_ascii in Ha; rewrite N.ltb_lt in Ha. apply Ha.
    rewrite <- (firstn_skipn n s). apply in_or_app. left. rewrite X. apply in_or_app. now left. }
  rewrite (ascii_blen _ A). rewrite X at 2. rewrite app_length. reflexivity.
Qed.
Lemma enc_U_app S a b : enc_U S (a ++ b) = enc_U S a ++ enc_U S b.
Proof. apply encode_app. Qed.
Lemma truncate_zero S debug l : outs (truncate_chunks S debug 0 l) = Some ([], tt).
Proof. induction l as [|s l IH]; [reflexivity|]. cbn [truncate_chunks]. eapply outs_quiet; [apply outs_ret|]. exact IH. Qed.
Lemma truncate_ascii S debug l : forall n, all_ascii (concat l) = true -> all_scalar (concat l) = true ->
  outs (truncate_chunks S debug n l) = Some (enc_U S (firstn (N.to_nat n) (concat l)), tt).
Proof.
  induction l as [|s l IH]; intros n Ha SC; [cbn [concat]; rewrite firstn_nil; reflexivity|].
  destruct (N.eqb_spec n 0) as [->|Hn]; [apply truncate_zero|].
  cbn [concat truncate_chunks] in *. rewrite all_scalar_app in SC. unfold all_ascii in Ha. rewrite forallb_app in Ha. bdestr. fold (all_ascii s) in *. fold (all_ascii (concat l)) in *.
  assert (L : (if is_empty s then 0 else N.of_nat (last_position (N.to_nat n) s) + 1) = N.min n (N.of_nat (length s))).
  { destruct s as [|c s]; [cbn; lia|]. cbn [is_empty]. assert (E : (last_position (N.to_nat n) (c :: s) + 1 = Nat.min (N.to_nat n) (length (c :: s)))%nat) by (apply last_ascii; [assumption|discriminate|lia]). lia. }
  destruct (truncate_one S debug n s) as (m & E & Em & _); [assumption|rewrite L; lia|]. rewrite L in Em.
  rewrite firstn_app, enc_U_app. eapply outs_bind; [exact E|]. rewrite Em by lia.
  replace (N.to_nat n - length s)%nat with (N.to_nat (n - N.min n (N.of_nat (length s)))) by lia. now apply IH.
Qed.
Lemma truncate_short S debug l : forall n, N.of_nat (blen (concat l)) <= n -> all_scalar (concat l) = true ->
  outs (truncate_chunks S debug n l) = Some (enc_U S (concat l), tt).
Proof.
  induction l as [|s l IH]; intros n Hb SC; [reflexivity|]. cbn [concat truncate_chunks] in *. rewrite all_scalar_app in SC. rewrite blen_app in Hb. bdestr.
  assert (L : (if is_empty s then 0 else N.of_nat (last_position (N.to_nat n) s) + 1) <= N.of_nat (blen s)).
  { destruct s as [|c s]; [cbn; lia|]. cbn [is_empty].
    assert (Hn : (0 < N.to_nat n)%nat) by (cbn [blen] in Hb; pose proof (clen_pos c); lia).
    pose proof (last_lt (N.to_nat n) (c :: s) ltac:(discriminate) Hn). lia. }
  destruct (truncate_one S debug n s) as (m & E & Em & Em0); [assumption|lia|].
  rewrite enc_U_app. eapply outs_bind; [rewrite firstn_all2 in E by (pose proof (len_le_blen s); lia); exact E|]. apply IH; [|assumption].
  destruct (N.eq_dec n 0) as [->|Hn]; [rewrite Em0 by reflexivity; lia|]. rewrite Em by lia. lia.
Qed.
Lemma truncate_ok S debug n d s : shows d s -> tame_prefix debug n d ->
  outs (truncate_chunks S debug n (fst d) >> ([], snd d)) = Some (enc_U S (firstn (N.to_nat n) s), tt).
Proof.
  intros (H1 & H2 & SC) HT. rewrite H1. change ([], Ret tt) with (wret tt). apply outs_then with (a := tt). unfold tame_prefix in HT. subst s. destruct HT as [Ha|[Hb|(s & E & Hd)]].
  - now apply truncate_ascii.
  - rewrite firstn_all2; [now apply truncate_short|]. pose proof (len_le_blen (concat (fst d))). lia.
  - rewrite E in *. cbn [concat truncate_chunks] in *. rewrite app_nil_r in *.
    destruct (truncate_one S debug n s) as (m & E1 & _ & _); [assumption| |eapply outs_then; exact E1].
    intros D. destruct (Hd D) as [->|L]; [now left|]. destruct (is_empty s); [right; lia|right; lia].
Qed.
Lemma pe_ok S d s : shows d s -> outs (PercentEncoded S CUnreserve d) = Some (enc_U S s, tt).
Proof.
  intros (H1 & H2 & SC). subst s. unfold outs, PercentEncoded. cbn [fst snd]. rewrite H1. rewrite filter_chunks by assumption.
  f_equal. f_equal. unfold enc_U. apply encode_ext. apply v_unreserve.
Qed.
