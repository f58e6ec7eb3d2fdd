(** * The reserved operators on any value (C28, C29): whole values. *)
From Verif Require Import Base Chars Rfc3986 Utf8 PctSpec EncodeSpec MValidate MTrusted MFormat MSearch MPct MEncode MTemplate MMaybePct MExpand TemplateSpec ExpandSpec ReservedSpec.
From Verif Require Import PBase PScan PSearch PPct PPct2 PPath2 PEncode PEncode2 PTmpl1 PTmpl3 PExp1 PExp2 PExp3 PExp11 PReserved1 PReserved2 PReserved3.

(** ** The states of the automaton *)
Definition valid (st : rstate) : Prop := match st with Pend p _ => pending p | Text acc => all_scalar acc = true end.
Definition plain_scalar (p : piece) : Prop := match p with PPlain s => all_scalar s = true | _ => True end.
Lemma ascii_scalar c : c < 128 -> is_scalar c = true.
Proof. intros H. unfold is_scalar. apply orb_true_intro. left. apply N.ltb_lt. lia. Qed.
Lemma given_scalar q : pending q -> Forall plain_scalar (given_up q).
Proof.
  intros (bs & w & t & -> & Hw & Ht & _). unfold given_up. rewrite (whole_eq bs w t) by assumption. rewrite skipn_app, skipn_all, Nat.sub_diag. cbn [app skipn].
  constructor; [exact I|]. destruct Ht as [| |h Hh]; repeat constructor. cbn. rewrite (ascii_scalar h) by now apply hex_ascii. reflexivity.
Qed.
Lemma pending_pct : pending [37].
Proof. exists [], [], [37]. repeat split; try constructor. cbn. lia. Qed.
Lemma pending_more q c : pending q -> goes_on q c = true -> (length (q ++ [c]) mod 3)%nat <> 0%nat -> pending (q ++ [c]).
Proof.
  intros (bs & w & t & -> & Hw & Ht & Hf) Hg Hm. rewrite (goes_eq bs w t) in Hg by assumption. rewrite <- app_assoc in *. exists bs, w, (t ++ [c]). split; [reflexivity|]. split; [assumption|].
  split; [|assumption]. destruct Ht as [| |h Hh]; cbn [app] in *.
  - apply N.eqb_eq in Hg. subst. constructor.
  - now constructor.
  - exfalso. apply Hm. rewrite app_length, (spelled_length _ _ Hw). cbn [length]. replace (3 * length bs + 3)%nat with ((length bs + 1) * 3)%nat by lia. now apply Nat.mod_mul.
Qed.
Lemma pending_full q c : pending q -> goes_on q c = true -> (length (q ++ [c]) mod 3)%nat = 0%nat ->
  exists bs b, fit bs /\ spelled (bs ++ [b]) (q ++ [c]) /\ octets (q ++ [c]) = bs ++ [b].
Proof.
  intros (bs & w & t & -> & Hw & Ht & Hf) Hg Hm. rewrite (goes_eq bs w t) in Hg by assumption. rewrite <- app_assoc in *. rewrite app_length, (spelled_length _ _ Hw) in Hm.
  destruct Ht as [| |h Hh]; cbn [app length] in *.
  - exfalso. replace (3 * length bs + 1)%nat with (1 + length bs * 3)%nat in Hm by lia. rewrite Nat.mod_add in Hm by lia. discriminate.
  - exfalso. replace (3 * length bs + 2)%nat with (2 + length bs * 3)%nat in Hm by lia. rewrite Nat.mod_add in Hm by lia. discriminate.
  - exists bs, (bval h c). split; [assumption|]. assert (H3 : spelled (bs ++ [bval h c]) (w ++ [37; h; c])) by (apply spelled_app; [assumption|apply spelled_cons; [assumption|assumption|constructor]]).
    split; [assumption|]. pose proof (octets_eq _ _ [] H3 tl0) as O3. now rewrite app_nil_r in O3.
Qed.
Lemma char_valid debug st c ps st' : valid st -> is_scalar c = true -> read_char debug st c = (ps, Some st') -> valid st' /\ Forall plain_scalar ps.
Proof.
  intros Hv Hc E. destruct st as [p fresh|acc]; cbn [read_char] in E.
  - cbn [valid] in Hv. destruct (goes_on p c) eqn:Hg.
    + destruct (Nat.eqb_spec (length (p ++ [c]) mod 3)%nat 0) as [Hm|Hm].
      * destruct (pending_full p c Hv Hg Hm) as (bs & b & Hf & Hs & O). rewrite O in E. destruct (utf8_error (bs ++ [b])) as [[[|v] [k|]]|] eqn:EU; try discriminate; injection E as <- <-.
        -- split; [|repeat constructor]. destruct (bad_after bs b k Hf EU) as [_ K]. destruct (spelled_firstn k _ _ Hs) as [_ S2]. cbn [valid].
           exists (skipn k (bs ++ [b])), (skipn (k * 3) (p ++ [c])), []. rewrite app_nil_r. repeat split; [assumption|constructor|now apply fit_one].
        -- split; [|constructor]. exists (bs ++ [b]), (p ++ [c]), []. rewrite app_nil_r. repeat split; [assumption|constructor|right; now apply error_short].
        -- split; [apply pending_nil|repeat constructor].
      * injection E as <- <-. split; [now apply pending_more|constructor].
    + destruct (fresh && (c <? 128)).
      * destruct (c =? 37); [destruct debug; [discriminate|]|]; injection E as <- <-.
        -- split; [apply pending_pct|repeat constructor].
        -- cbn [valid all_scalar forallb]. rewrite Hc. split; [reflexivity|constructor].
      * destruct (c <? 128); [|discriminate]. injection E as <- <-. split; [|now apply given_scalar]. unfold restart. destruct (c =? 37); [apply pending_pct|]. cbn [valid all_scalar forallb]. now rewrite Hc.
  - cbn [valid] in Hv. destruct (c =? 37); injection E as <- <-.
    + split; [apply pending_pct|]. repeat constructor. exact Hv.
    + cbn [valid]. rewrite all_scalar_app, Hv. cbn [all_scalar forallb]. rewrite Hc. split; [reflexivity|constructor].
Qed.
Lemma char_stuck debug st c ps : valid st -> read_char debug st c = (ps, None) -> Forall plain_scalar ps.
Proof.
  intros Hv E. destruct st as [p fresh|acc]; cbn [read_char] in E; [|destruct (c =? 37); discriminate].
  destruct (goes_on p c).
  - destruct (Nat.eqb _ _); [|discriminate]. destruct (utf8_error _) as [[[|v] [k|]]|]; try discriminate; injection E as <-; constructor.
  - destruct (fresh && (c <? 128)).
    + destruct (c =? 37); [destruct debug|]; try discriminate. injection E as <-. constructor.
    + injection E as <- _. now apply given_scalar.
Qed.
Lemma reads_valid debug s : forall st, valid st -> all_scalar s = true ->
  Forall plain_scalar (fst (reads debug st s)) /\ forall p, snd (reads debug st s) = Some p -> pending p.
Proof.
  induction s as [|c s IH]; intros st Hv SC; cbn [reads].
  - destruct st as [p fresh|acc]; cbn [fst snd].
    + split; [constructor|]. now intros p' [= <-].
    + split; [now repeat constructor|]. intros p [= <-]. apply pending_nil.
  - cbn [all_scalar forallb] in SC. apply andb_prop in SC as [Hc SC]. destruct (read_char debug st c) as [ps [st'|]] eqn:E.
    + destruct (char_valid debug st c ps st' Hv Hc E) as [V F]. destruct (IH st' V SC) as [H1 H2]. destruct (reads debug st' s) as [qs e]. cbn [fst snd] in *. split; [|assumption].
      apply Forall_app. now split.
    + cbn [fst snd]. split; [eapply char_stuck; eassumption|discriminate].
Qed.
Lemma pieces_scalar debug l : forall q, pending q -> all_scalar (concat l) = true -> Forall plain_scalar (fst (pieces debug q l)).
Proof.
  induction l as [|s l IH]; intros q Hq SC; cbn [pieces].
  - cbn [fst]. destruct (is_empty q); [constructor|now apply given_scalar].
  - cbn [concat] in SC. rewrite all_scalar_app in SC. apply andb_prop in SC as [SC1 SC2]. destruct (reads_valid debug s (Pend q true) Hq SC1) as [H1 H2].
    destruct (reads debug (Pend q true) s) as [ps [p|]]; cbn [fst snd] in *; [|assumption]. specialize (IH p (H2 p eq_refl) SC2). destruct (pieces debug p l) as [qs b]. cbn [fst] in *. apply Forall_app. now split.
Qed.

(** ** [process_percent_encoded_best_effort] *)
Section Process.
Context {St : Type} (debug : bool) (f : St -> Frag -> W (St + unit)).
Definition finish (st : St) (x : list piece * bool) : W unit :=
  wdo r <- feed f st (fst x) ; match r with inr _ => wret tt | inl _ => if snd x then wpanic else wret tt end.
Lemma flush_feed st q : pending q -> q <> [] ->
  (wdo r <- (let len_suffix := Nat.modulo (length q) 3 in
     let triplets_end := (length q - len_suffix)%nat in
     andthen (f st (InvalidUtf8PctTriplets (firstn triplets_end q))) (fun st =>
     andthen (if Nat.ltb 0 len_suffix then f st FStrayPercent else wret (inl st)) (fun st =>
     if Nat.ltb 1 len_suffix then f st (NoPctStr (skipn (triplets_end + 1) q)) else wret (inl st)))) ; wret tt) = finish st (given_up q, false).
Proof.
  intros (bs & w & t & -> & Hw & Ht & _) _. unfold finish. cbn [fst snd]. cbv zeta.
  transitivity (wdo _ <- feed f st (given_up (w ++ t)) ; wret tt); [|apply bind_ext; now intros [?|?]].
  f_equal. unfold given_up. rewrite (whole_eq bs w t), (mod_eq bs w t) by assumption.
  replace (length (w ++ t) - length t)%nat with (length w) by (rewrite app_length; lia).
  rewrite firstn_app, firstn_all, Nat.sub_diag. cbn [firstn]. rewrite app_nil_r. rewrite !skipn_app, skipn_all, skipn_all2 by lia.
  rewrite Nat.sub_diag. cbn [app skipn]. replace (length w + 1 - length w)%nat with 1%nat by lia.
  cbn [feed frag_of]. unfold andthen. apply bind_ext. intros [st1|u]; [|reflexivity].
  destruct Ht as [| |h Hh]; cbn [length Nat.ltb Nat.leb feed frag_of skipn]; [now rewrite wret_bind| |].
  - unfold andthen. apply bind_ext. now intros [st2|u].
  - unfold andthen. apply bind_ext. intros [st2|u]; [|reflexivity]. symmetry. exact (feed_one f st2 (PPlain [h])).
Qed.
Hypothesis Hf : forall st w c c', f st (FChar w c) = f st (FChar w c').
Lemma chunks_pieces (K : St * DecoderBuffer + unit -> W unit) l :
  (forall u, K (inr u) = wret tt) ->
  (forall st q, pending q -> K (inl (st, db_of q)) = finish st (if is_empty q then [] else given_up q, false)) ->
  forall st q, pending q -> all_scalar (concat l) = true -> wbind (decompose_chunks debug f st (db_of q) l) K = finish st (pieces debug q l).
Proof using Hf.
  intros K1 K2. induction l as [|s l IH]; intros st q Hq SC; cbn [decompose_chunks pieces]; [rewrite wret_bind; now apply K2|].
  cbn [concat] in SC. rewrite all_scalar_app in SC. apply andb_prop in SC as [SC1 SC2]. destruct (reads_valid debug s (Pend q true) Hq SC1) as [_ H2].
  unfold decompose_write_str. rewrite (loop_reads debug f Hf) by (assumption || unfold weight; destruct (is_empty q); lia).
  destruct (reads debug (Pend q true) s) as [ps e]. unfold run_pieces. cbn [fst snd] in *. rewrite !bind_assoc.
  destruct e as [p|].
  - specialize (IH). destruct (pieces debug p l) as [qs b] eqn:EP. unfold finish. cbn [fst snd]. rewrite feed_app. unfold andthen. rewrite bind_assoc. apply bind_ext. intros [st'|u].
    + rewrite wret_bind. rewrite IH by (assumption || now apply H2). rewrite EP. reflexivity.
    + rewrite !wret_bind. now rewrite K1.
  - unfold finish. cbn [fst snd]. apply bind_ext. intros [st'|u]; [reflexivity|]. rewrite !wret_bind. now rewrite K1.
Qed.
Lemma process_pieces st d s : shows d s -> process_percent_encoded_best_effort debug f st d = finish st (pieces debug [] (fst d)).
Proof using Hf.
  intros (H1 & H2 & SC). subst s. unfold process_percent_encoded_best_effort. change db_empty with (db_of []). rewrite H1. apply chunks_pieces; [reflexivity| |apply pending_nil|assumption].
  intros st' q Hq. unfold flush. cbn [db_of db_encoded]. destruct q as [|c q]; [unfold finish; cbn; reflexivity|]. cbn [is_empty].
  change (db_of (c :: q)) with (mkDB (c :: q) (octets (c :: q))). rewrite pop_all. cbn [bind]. rewrite lift_bind. cbv beta iota. apply flush_feed; [assumption|discriminate].
Qed.
End Process.

(** ** The two output functions *)
Lemma escape_feed S ps : Forall plain_scalar ps -> outs (feed (escape_frag S) tt ps) = Some (flat_map (piece_text S) ps, inl tt).
Proof.
  induction 1 as [|p ps Hp F IH]; cbn [feed flat_map]; [apply outs_ret|]. eapply outs_andthen; [|exact IH].
  unfold escape_frag. eapply outs_then. destruct p as [s| |w|w]; cbn [frag_of piece_text]; try apply outs_write. apply pe_outs; [exact Hp|apply v_character].
Qed.
Lemma escape_whole S debug d s : shows d s -> outs (escape_write S debug d true) = option_map (fun t => (t, tt)) (whole_text S debug d).
Proof.
  intros Hd. unfold escape_write. rewrite (process_pieces debug (escape_frag S)) with (s := s) by (assumption || reflexivity). unfold whole_text.
  destruct Hd as (_ & E & SC). subst s. pose proof (pieces_scalar debug (fst d) [] pending_nil SC) as F. destruct (pieces debug [] (fst d)) as [ps b]. unfold finish. cbn [fst snd] in *.
  destruct b; cbn [option_map].
  - rewrite outs_bind_eq, escape_feed by assumption. reflexivity.
  - rewrite outs_bind_eq, escape_feed by assumption. cbn. now rewrite app_nil_r.
Qed.
Lemma maxlen_plain_exact S debug n s : s <> [] -> all_scalar s = true -> n <> 0 ->
  let used := N.of_nat (last_position (N.to_nat n) s) in
  outs (maxlen_frag S debug n (NoPctStr s)) =
  if debug && (n <? used) then None else Some (encode (character_char S) (firstn (N.to_nat n) s), inl (if used <=? n then n - used else n + (usize_max + 1) - used)).
Proof.
  intros Hs SC Hn used. unfold maxlen_frag. replace (n =? 0) with false by lia. destruct (take_spec s n 0 None) as [T1 T2]. destruct (take_chars n 0 s None) as [l t]. cbn [fst snd] in *. subst t.
  replace (n =? 0) with false in T2 by lia. replace (is_empty s) with false in T2 by now destruct s. cbn [orb] in T2. subst l. rewrite N.add_0_l. fold used.
  rewrite outs_bind_eq. unfold usize_sub. pose proof (pe_outs S CCharacter (firstn (N.to_nat n) s) (character_char S) (all_scalar_firstn _ _ SC) (v_character S)) as P.
  destruct (N.leb_spec used n) as [L|L].
  - replace (n <? used) with false by lia. rewrite andb_false_r. rewrite outs_ret. rewrite (outs_then _ (inl (n - used)) _ _ P). reflexivity.
  - replace (n <? used) with true by lia. rewrite andb_true_r. destruct debug; [reflexivity|]. rewrite outs_ret. rewrite (outs_then _ (inl (n + USIZE - used)) _ _ P). reflexivity.
Qed.
Lemma limited_feed S debug ps b : Forall plain_scalar ps -> forall n,
  outs (finish (maxlen_frag S debug) n (ps, b)) = option_map (fun t => (t, tt)) (limited S debug n ps b).
Proof.
  unfold finish. cbn [fst snd]. induction 1 as [|p ps Hp F IH]; intros n; cbn [feed limited].
  - rewrite wret_bind. now destruct b.
  - destruct (N.eqb_spec n 0) as [->|Hn]; [reflexivity|]. unfold andthen. rewrite bind_assoc.
    assert (G : forall o m, outs (maxlen_frag S debug n (frag_of p)) = Some (o, inl m) ->
      outs (wdo a <- maxlen_frag S debug n (frag_of p) ; wdo r <- match a with inl a0 => feed (maxlen_frag S debug) a0 ps | inr u => wret (inr u) end ; match r with inl _ => if b then wpanic else wret tt | inr _ => wret tt end) =
      option_map (fun t => (t, tt)) (option_map (app o) (limited S debug m ps b))).
    { intros o m E. rewrite outs_bind_eq, E, IH. destruct (limited S debug m ps b); reflexivity. }
    assert (N0 : outs (maxlen_frag S debug n (frag_of p)) = None ->
      outs (wdo a <- maxlen_frag S debug n (frag_of p) ; wdo r <- match a with inl a0 => feed (maxlen_frag S debug) a0 ps | inr u => wret (inr u) end ; match r with inl _ => if b then wpanic else wret tt | inr _ => wret tt end) = None).
    { intros E. now rewrite outs_bind_eq, E. }
    assert (W1 : forall (k : N) (t : str), k <= n -> outs (wdo m <- usize_sub debug n k ; write t >> wret (@inl N unit m)) = Some (t, inl (n - k))).
    { intros k t L. unfold usize_sub. replace (k <=? n) with true by lia. rewrite wret_bind. eapply outs_then. apply outs_write. }
    destruct p as [s| |w|w]; cbn [frag_of piece_text] in *.
    + destruct s as [|c s]; [|].
      * rewrite N0; [reflexivity|]. unfold maxlen_frag. replace (n =? 0) with false by lia. reflexivity.
      * pose proof (maxlen_plain_exact S debug n (c :: s) ltac:(discriminate) Hp Hn) as E. cbv zeta in E. destruct (debug && _); [now rewrite N0|]. now rewrite (G _ _ E).
    + apply G. unfold maxlen_frag. replace (n =? 0) with false by lia. apply W1. lia.
    + apply G. unfold maxlen_frag. replace (n =? 0) with false by lia. apply W1. lia.
    + apply G. unfold maxlen_frag. replace (n =? 0) with false by lia. apply W1. lia.
Qed.
Lemma maxlen_limited S debug o r d s : w_reserved (op_row o) = true -> shows d s ->
  outs (escape_write_with_maxlen S debug d (w_reserved (op_row o)) (match mod_of (r_mod r) with MMaxLen n => Some n | _ => None end)) =
  option_map (fun t => (t, tt)) (limited_text S debug (r_mod r) d).
Proof.
  intros Hw Hd. unfold escape_write_with_maxlen. rewrite Hw. rewrite (process_pieces debug (maxlen_frag S debug)) with (s := s) by (assumption || reflexivity). unfold limited_text.
  destruct Hd as (_ & E & SC). subst s. pose proof (pieces_scalar debug (fst d) [] pending_nil SC) as F. destruct (pieces debug [] (fst d)) as [ps b]. cbn [fst] in F.
  rewrite limited_feed by assumption. destruct (r_mod r); reflexivity.
Qed.
