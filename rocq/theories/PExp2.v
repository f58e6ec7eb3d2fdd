(** * The decomposition of reserved values (C28, C29): feeding the fragments. *)
From Verif Require Import Base Chars Rfc3986 Utf8 PctSpec EncodeSpec MValidate MTrusted MFormat MSearch MPct MEncode MTemplate MMaybePct MExpand TemplateSpec ExpandSpec.
From Verif Require Import PBase PScan PSearch PPct PPct2 PPath2 PEncode PEncode2 PTmpl1 PExp1.

(** ** [enc_UR] *)
Lemma ur_raw S c s : c <> 37 -> enc_UR S (c :: s) = (if character_char S c then [c] else triplets (utf8 c)) ++ enc_UR S s.
Proof. intros H. cbn [enc_UR]. apply N.eqb_neq in H. now rewrite H. Qed.
Lemma ur_plain S p s : ~ In 37 p -> enc_UR S (p ++ s) = encode (character_char S) p ++ enc_UR S s.
Proof.
  induction p as [|c p IH]; intros H; [reflexivity|]. cbn [app]. rewrite ur_raw by (intros ->; apply H; now left).
  rewrite IH by (intros X; apply H; now right). unfold encode. cbn [flat_map]. now rewrite <- app_assoc.
Qed.
Lemma ur_triplet S u l s : HEXDIG u = true -> HEXDIG l = true -> enc_UR S (37 :: u :: l :: s) = 37 :: u :: l :: enc_UR S s.
Proof. intros Hu Hl. cbn [enc_UR]. change (37 =? 37) with true. cbv beta iota. now rewrite Hu, Hl. Qed.
Lemma ur_spelled S bs w s : spelled bs w -> enc_UR S (w ++ s) = w ++ enc_UR S s.
Proof. induction 1 as [|u l bs w Hu Hl Hs IH]; [reflexivity|]. cbn [app]. rewrite ur_triplet by assumption. now rewrite IH. Qed.
Lemma ur_stray S s : not_hex2 s -> enc_UR S (37 :: s) = lit "%25" ++ enc_UR S s.
Proof.
  intros H. cbn [enc_UR]. change (37 =? 37) with true. cbv beta iota. replace (character_char S 37) with false by now destruct S.
  destruct s as [|u [|l s]]; try reflexivity. rewrite (H u l s eq_refl). reflexivity.
Qed.
Lemma hex_character S h : HEXDIG h = true -> character_char S h = true.
Proof.
  intros H. unfold character_char, unreserved. unfold HEXDIG in H. apply orb_prop in H as [H|H]; [apply orb_prop in H as [H|H]|].
  - rewrite H. now rewrite orb_true_r.
  - replace (ALPHA h) with true; [reflexivity|]. unfold ALPHA, between in *. lia.
  - replace (ALPHA h) with true; [reflexivity|]. unfold ALPHA, between in *. lia.
Qed.
Definition tail_text (t : str) : str := match t with [] => [] | _ :: r => lit "%25" ++ r end.
Lemma ur_tail S s t : stray_tail s t -> enc_UR S (t ++ s) = tail_text t ++ enc_UR S s.
Proof.
  intros [Hs|Hs|h Hh Hs]; cbn [app tail_text]; [reflexivity| |].
  - rewrite ur_stray; [reflexivity|]. intros u l r ->. destruct Hs as [Hs|(c & r' & [= <- _] & _ & Hc)]; [discriminate|]. bdestr. now rewrite Hc.
  - rewrite ur_stray.
    + rewrite ur_raw by (intros ->; discriminate). rewrite hex_character by assumption. reflexivity.
    + intros u l r [= <- ->]. destruct Hs as [Hs|(c & r' & [= <- _] & _ & Hc)]; [discriminate|]. bdestr. now rewrite Hc, andb_false_r.
Qed.

(** ** Feeding *)
Lemma str_from_ascii w s : Forall (fun c => c < 128) w -> str_from (w ++ s) (length w) = Ok s.
Proof. intros H. rewrite <- (ascii_blen w H). unfold str_from. now rewrite split_at_app. Qed.
Lemma tail_ascii s t : stray_tail s t -> Forall (fun c => c < 128) t.
Proof. intros [Hs|Hs|h Hh Hs]; repeat constructor; try lia. now apply hex_ascii. Qed.
Lemma tail_mod bs w s t : spelled bs w -> stray_tail s t -> Nat.modulo (length (w ++ t)) 3 = length t.
Proof.
  intros Hw Ht. rewrite app_length, (spelled_length _ _ Hw). replace (3 * length bs + length t)%nat with (length t + length bs * 3)%nat by lia.
  rewrite Nat.mod_add by lia. destruct Ht; reflexivity.
Qed.
Section Feed.
Context {St : Type} (debug : bool) (Sp : Spec) (f : St -> Frag -> W (St + unit)) (I : St -> nat -> Prop).
Definition frag_text (fr : Frag) : str :=
  match fr with NoPctStr s => encode (character_char Sp) s | FStrayPercent => lit "%25" | FChar s _ => s | InvalidUtf8PctTriplets s => s end.
Definition frag_len (fr : Frag) : nat :=
  match fr with NoPctStr s => blen s | FStrayPercent => 1%nat | FChar s _ => length s | InvalidUtf8PctTriplets s => length s end.
Definition frag_ok (fr : Frag) : Prop :=
  match fr with
  | NoPctStr s => s <> [] /\ all_scalar s = true
  | FStrayPercent => True
  | FChar s _ => s <> []
  | InvalidUtf8PctTriplets s => exists m, length s = (m * 3)%nat
  end.
Hypothesis Hf : forall st fr k, frag_ok fr -> (frag_len fr <= k)%nat -> (1 <= k)%nat -> I st k ->
  exists st', outs (f st fr) = Some (frag_text fr, inl st') /\ I st' (k - frag_len fr)%nat.

Lemma outs_andthen {A} (x : W (A + unit)) k o a o' b : outs x = Some (o, inl a) -> outs (k a) = Some (o', b) -> outs (andthen x k) = Some (o ++ o', b).
Proof. intros H1 H2. unfold andthen. eapply outs_bind; [exact H1|]. cbv beta iota. exact H2. Qed.
Lemma spelled_frag bs w : spelled bs w -> frag_ok (InvalidUtf8PctTriplets w).
Proof. intros H. exists (length bs). rewrite (spelled_length _ _ H). lia. Qed.

Lemma hex_frag h : HEXDIG h = true -> frag_ok (NoPctStr [h]) /\ frag_text (NoPctStr [h]) = [h] /\ frag_len (NoPctStr [h]) = 1%nat.
Proof.
  intros H. pose proof (hex_ascii h H) as L. repeat split.
  - discriminate.
  - cbn [all_scalar forallb]. unfold is_scalar. bool_to (h <? 55296) true. reflexivity.
  - cbn [frag_text encode flat_map]. rewrite hex_character by assumption. reflexivity.
  - cbn [frag_len blen]. rewrite clen_ascii by assumption. reflexivity.
Qed.
Lemma output_ok bs w s t st k : spelled bs w -> stray_tail s t -> w ++ t <> [] -> (length (w ++ t) <= k)%nat -> I st k ->
  exists st', outs (output_as_undecodable debug f st (w ++ t)) = Some (w ++ tail_text t, inl st') /\ I st' (k - length (w ++ t))%nat.
Proof.
  intros Hw Ht Hne L HI. unfold output_as_undecodable. rewrite (tail_mod bs w s t Hw Ht).
  assert (Lne : (1 <= length (w ++ t))%nat) by (destruct (w ++ t); [contradiction|cbn; lia]).
  replace (length (w ++ t) - length t)%nat with (length w) by (rewrite app_length; lia).
  rewrite firstn_app, firstn_all, Nat.sub_diag. cbn [firstn]. rewrite app_nil_r.
  destruct (Hf st (InvalidUtf8PctTriplets w) k) as (st1 & E1 & I1); [eapply spelled_frag; eauto|cbn [frag_len]; rewrite app_length in L; lia|lia|assumption|].
  cbn [frag_text frag_len] in *. rewrite app_length in L |- *. destruct Ht as [Hs|Hs|h Hh Hs]; cbn [length tail_text Nat.ltb Nat.leb] in *.
  - exists st1. split; [|now rewrite Nat.add_0_r]. eapply outs_andthen; [exact E1|]. apply outs_ret.
  - destruct (Hf st1 FStrayPercent (k - length w)%nat) as (st2 & E2 & I2); [exact Logic.I|cbn [frag_len]; lia|lia|assumption|].
    exists st2. split; [|cbn [frag_len] in I2; now replace (k - (length w + 1))%nat with (k - length w - 1)%nat by lia].
    eapply outs_andthen; [exact E1|]. rewrite <- (app_nil_r (lit "%25")). eapply outs_andthen; [exact E2|]. apply outs_ret.
  - destruct (Hf st1 FStrayPercent (k - length w)%nat) as (st2 & E2 & I2); [exact Logic.I|cbn [frag_len]; lia|lia|assumption|].
    cbn [frag_len] in I2. destruct (hex_frag h Hh) as (O1 & O2 & O3).
    destruct (Hf st2 (NoPctStr [h]) (k - length w - 1)%nat) as (st3 & E3 & I3); [assumption|rewrite O3; lia|lia|assumption|].
    exists st3. split; [|rewrite O3 in I3; now replace (k - (length w + 2))%nat with (k - length w - 1 - 1)%nat by lia].
    eapply outs_andthen; [exact E1|]. eapply outs_andthen; [exact E2|]. rewrite O2 in E3. cbn [Nat.eqb negb]. rewrite andb_false_r.
    replace (skipn (length w + 1) (w ++ [37; h])) with [h]; [exact E3|].
    rewrite skipn_app. replace (length w + 1 - length w)%nat with 1%nat by lia. rewrite skipn_all2 by lia. reflexivity.
Qed.
Lemma flush_ok bs w t st k : spelled bs w -> stray_tail [] t -> w ++ t <> [] -> (length (w ++ t) <= k)%nat -> I st k ->
  exists st', outs (
     let len_suffix := Nat.modulo (length (w ++ t)) 3 in
     let triplets_end := (length (w ++ t) - len_suffix)%nat in
     andthen (f st (InvalidUtf8PctTriplets (firstn triplets_end (w ++ t)))) (fun st =>
     andthen (if Nat.ltb 0 len_suffix then f st FStrayPercent else wret (inl st)) (fun st =>
     if Nat.ltb 1 len_suffix then f st (NoPctStr (skipn (triplets_end + 1) (w ++ t))) else wret (inl st)))) = Some (w ++ tail_text t, inl st').
Proof.
  intros Hw Ht Hne L HI. cbv zeta. rewrite (tail_mod bs w [] t Hw Ht).
  assert (Lne : (1 <= length (w ++ t))%nat) by (destruct (w ++ t); [contradiction|cbn; lia]).
  replace (length (w ++ t) - length t)%nat with (length w) by (rewrite app_length; lia).
  rewrite firstn_app, firstn_all, Nat.sub_diag. cbn [firstn]. rewrite app_nil_r.
  destruct (Hf st (InvalidUtf8PctTriplets w) k) as (st1 & E1 & I1); [eapply spelled_frag; eauto|cbn [frag_len]; rewrite app_length in L; lia|lia|assumption|].
  cbn [frag_text frag_len] in *. rewrite app_length in L. destruct Ht as [Hs|Hs|h Hh Hs]; cbn [length tail_text Nat.ltb Nat.leb] in *.
  - exists st1. eapply outs_andthen; [exact E1|]. change (@nil N) with (@nil N ++ []) at 1. eapply outs_andthen; apply outs_ret.
  - destruct (Hf st1 FStrayPercent (k - length w)%nat) as (st2 & E2 & I2); [exact Logic.I|cbn [frag_len]; lia|lia|assumption|].
    exists st2. eapply outs_andthen; [exact E1|]. rewrite <- (app_nil_r (lit "%25")). eapply outs_andthen; [exact E2|]. apply outs_ret.
  - destruct (Hf st1 FStrayPercent (k - length w)%nat) as (st2 & E2 & I2); [exact Logic.I|cbn [frag_len]; lia|lia|assumption|].
    cbn [frag_len] in I2. destruct (hex_frag h Hh) as (O1 & O2 & O3).
    destruct (Hf st2 (NoPctStr [h]) (k - length w - 1)%nat) as (st3 & E3 & I3); [assumption|rewrite O3; lia|lia|assumption|].
    exists st3. eapply outs_andthen; [exact E1|]. eapply outs_andthen; [exact E2|]. rewrite O2 in E3.
    replace (skipn (length w + 1) (w ++ [37; h])) with [h]; [exact E3|].
    rewrite skipn_app. replace (length w + 1 - length w)%nat with 1%nat by lia. rewrite skipn_all2 by lia. reflexivity.
Qed.

(** How the loop ends after [s]: what was written, the state and the buffer. *)
Definition ends_as (s : str) (k : nat) (out : str) (st : St) (db : DecoderBuffer) : Prop :=
  (db = db_empty /\ enc_UR Sp s = out /\ I st (k - blen s)%nat) \/
  (exists bs w t, db = mkDB (w ++ t) bs /\ spelled bs w /\ stray_tail [] t /\ w ++ t <> [] /\
     enc_UR Sp s = out ++ w ++ tail_text t /\ exists k', I st k' /\ (length (w ++ t) <= k')%nat).
Lemma ends_more a s k out o st db : enc_UR Sp (a ++ s) = o ++ enc_UR Sp s ->
  ends_as s (k - blen a) out st db -> ends_as (a ++ s) k (o ++ out) st db.
Proof.
  intros E [(H1 & H2 & H3)|(bs & w & t & H1 & H2 & H3 & H4 & H5 & H6)].
  - left. repeat split; auto; [now rewrite E, H2|]. rewrite blen_app. now replace (k - (blen a + blen s))%nat with (k - blen a - blen s)%nat by lia.
  - right. exists bs, w, t. repeat split; auto. now rewrite E, H5, <- app_assoc.
Qed.
Lemma find_pct_split p s : none (N.eqb 37) p = true -> (s = [] \/ exists r, s = 37 :: r) ->
  match find_split (p ++ s) PCT with Some q => q | None => (p ++ s, []) end = (p, s).
Proof.
  intros Hp [->|(r & ->)]; unfold find_split; change PCT with 37.
  - rewrite app_nil_r. now rewrite split_first_none_app.
  - rewrite split_first_app by (assumption || reflexivity). reflexivity.
Qed.
Lemma calm_loop s : calm s -> all_scalar s = true -> forall fuel st k, (length s < fuel)%nat -> I st k -> (blen s <= k)%nat ->
  exists out st' db, outs (decompose_loop debug f fuel st db_empty s) = Some (out, inl (st', db)) /\ ends_as s k out st' db.
Proof using Hf.
  induction 1 as [|c p s Hc Hp Hs Hcs IH|c w s Hc Hw Hcs IH|b w s Hb Hw Hcs IH|bs w t s Hb Hw Ht Hne Hcs IH]; intros SC fuel st k Hfu HI Hk;
  (destruct fuel as [|fuel]; [lia|]).
  - exists [], st, db_empty. split; [reflexivity|]. left. repeat split. cbn [blen] in *. now rewrite Nat.sub_0_r.
  - rewrite all_scalar_app in SC. bdestr. pose proof Hk as Hk0. rewrite blen_app in Hk0. pose proof (clen_pos c) as Hcl.
    assert (HN : none (N.eqb 37) (c :: p) = true).
    { apply forallb_forall. intros x Hx. destruct (N.eqb_spec 37 x); [subst; contradiction|reflexivity]. }
    destruct (Hf st (NoPctStr (c :: p)) k) as (st1 & E1 & I1); [split; [discriminate|assumption]|cbn [frag_len]; lia|cbn [blen] in Hk0; lia|assumption|].
    cbn [frag_text frag_len] in E1, I1.
    destruct (IH H0 fuel st1 (k - blen (c :: p))%nat) as (out & st' & db & E & En); [rewrite app_length in Hfu; cbn [length] in Hfu; lia|assumption|lia|].
    exists (encode (character_char Sp) (c :: p) ++ out), st', db. split; [|apply ends_more; [now apply ur_plain|assumption]].
    change ((c :: p) ++ s) with (c :: (p ++ s)) at 1. cbn [decompose_loop is_empty].
    unfold push_encoded. cbn [db_encoded db_empty length Nat.modulo Nat.divmod fst Nat.sub].
    fold db_empty. rewrite push_plain by (assumption || (intros ->; apply Hp; now left)). rewrite lift_bind. cbv beta iota. cbn [Nat.eqb].
    change (flush db_empty) with (@Ok Empty_set _ (@None (list N * DecoderBuffer))). rewrite lift_bind. cbv beta iota.
    rewrite <- (app_nil_l (encode _ _ ++ out)). eapply outs_bind; [apply outs_ret|]. cbv beta iota.
    change (c :: p ++ s) with ((c :: p) ++ s). rewrite find_pct_split by assumption. cbv beta iota. cbn [is_empty]. rewrite andb_false_r.
    eapply outs_bind; [exact E1|]. cbv beta iota. exact E.
  - rewrite all_scalar_app in SC. bdestr. pose proof (spelled_ascii _ _ Hw) as Ha. pose proof (ascii_blen w Ha) as Lb. rewrite blen_app, Lb in Hk.
    assert (Hne : w <> []). { intros ->. pose proof (utf8_nonempty c) as U. inversion Hw. congruence. }
    assert (Lw : (1 <= length w)%nat) by (destruct w; [contradiction|cbn; lia]).
    destruct (Hf st (FChar w c) k) as (st1 & E1 & I1); [assumption|cbn [frag_len]; lia|lia|assumption|]. cbn [frag_text frag_len] in E1, I1.
    destruct (IH H0 fuel st1 (k - length w)%nat) as (out & st' & db & E & En); [rewrite app_length in Hfu; lia|assumption|lia|].
    exists (w ++ out), st', db. split; [|apply ends_more; [eapply ur_spelled; eassumption|now rewrite Lb]].
    cbn [decompose_loop]. replace (is_empty (w ++ s)) with false by (destruct w; [contradiction|reflexivity]).
    unfold push_encoded. cbn [db_encoded db_empty length Nat.modulo Nat.divmod fst Nat.sub]. fold db_empty. rewrite (push_char debug c) by assumption.
    rewrite lift_bind. cbv beta iota. replace (Nat.eqb (length w) 0) with false by (symmetry; apply Nat.eqb_neq; lia).
    eapply outs_bind; [exact E1|]. cbv beta iota. rewrite str_from_ascii by assumption. rewrite lift_bind. exact E.
  - rewrite all_scalar_app in SC. bdestr. pose proof (spelled_ascii _ _ Hw) as Ha. pose proof (ascii_blen w Ha) as Lb. rewrite blen_app, Lb in Hk.
    assert (Lw : length w = 3%nat) by (rewrite (spelled_length _ _ Hw); reflexivity).
    destruct (output_ok [b] w [] [] st k) as (st1 & E1 & I1); [assumption|constructor; now left|rewrite app_nil_r; intros ->; discriminate|rewrite app_nil_r; lia|assumption|].
    rewrite !app_nil_r in *. cbn [tail_text] in E1.
    destruct (IH H0 fuel st1 (k - length w)%nat) as (out & st' & db & E & En); [rewrite app_length in Hfu; lia|assumption|lia|].
    exists (w ++ out), st', db. split; [|apply ends_more; [eapply ur_spelled; eassumption|now rewrite Lb]].
    cbn [decompose_loop]. replace (is_empty (w ++ s)) with false by (destruct w; [discriminate|reflexivity]).
    unfold push_encoded. cbn [db_encoded db_empty length Nat.modulo Nat.divmod fst Nat.sub]. fold db_empty. rewrite (push_never debug b) by assumption.
    rewrite lift_bind. cbv beta iota. replace (Nat.eqb (length w) 0) with false by (symmetry; apply Nat.eqb_neq; lia).
    eapply outs_bind; [exact E1|]. cbv beta iota. rewrite str_from_ascii by assumption. rewrite lift_bind. exact E.
  - rewrite app_assoc in *. rewrite all_scalar_app in SC. bdestr.
    assert (Ha : Forall (fun c => c < 128) (w ++ t)) by (apply Forall_app; split; [eapply spelled_ascii; eassumption|eapply tail_ascii; eassumption]).
    pose proof (ascii_blen _ Ha) as Lb. rewrite blen_app, Lb in Hk.
    assert (Lw : (1 <= length (w ++ t))%nat) by (destruct (w ++ t); [contradiction|cbn; lia]).
    assert (Eur : enc_UR Sp ((w ++ t) ++ s) = (w ++ tail_text t) ++ enc_UR Sp s).
    { rewrite <- !app_assoc. rewrite (ur_spelled Sp bs w) by assumption. now rewrite ur_tail. }
    cbn [decompose_loop]. replace (is_empty ((w ++ t) ++ s)) with false by (destruct (w ++ t); [contradiction|reflexivity]).
    unfold push_encoded. cbn [db_encoded db_empty length Nat.modulo Nat.divmod fst Nat.sub]. fold db_empty.
    rewrite <- app_assoc. rewrite (push_truncated debug bs w) by assumption.
    destruct s as [|c s].
    + rewrite app_nil_r. rewrite push_tail_end by (assumption || now apply truncated_room). rewrite lift_bind. cbv beta iota.
      rewrite <- app_length. replace (Nat.eqb (length (w ++ t)) 0) with false by (symmetry; apply Nat.eqb_neq; lia).
      exists [], st, (mkDB (w ++ t) bs). split.
      * rewrite <- (app_nil_l []). eapply outs_bind; [apply outs_ret|]. cbv beta iota.
        rewrite <- (app_nil_r (w ++ t)) at 1. rewrite str_from_ascii by assumption. rewrite lift_bind.
        destruct fuel as [|fuel]; [rewrite app_nil_r in Hfu; lia|]. reflexivity.
      * right. exists bs, w, t. repeat split; auto.
        -- rewrite app_nil_r in Eur. rewrite Eur. cbn [enc_UR app]. now rewrite app_nil_r.
        -- exists k. split; [assumption|]. lia.
    + destruct (output_ok bs w (c :: s) t st k) as (st1 & E1 & I1); [assumption|assumption|assumption|lia|assumption|].
      destruct (IH H0 fuel st1 (k - length (w ++ t))%nat) as (out & st' & db & E & En); [rewrite app_length in Hfu; lia|assumption|lia|].
      exists ((w ++ tail_text t) ++ out), st', db. split; [|rewrite app_assoc; apply (ends_more (w ++ t)); [assumption|now rewrite Lb]].
      rewrite push_tail by (assumption || now apply truncated_room). rewrite lift_bind. cbv beta iota.
      rewrite <- app_length. replace (Nat.eqb (length (w ++ t)) 0) with false by (symmetry; apply Nat.eqb_neq; lia).
      eapply outs_bind; [exact E1|]. cbv beta iota. rewrite app_assoc. rewrite str_from_ascii by assumption. rewrite lift_bind. exact E.
Qed.
Lemma process_ok s st : calm s -> all_scalar s = true -> I st (blen s) ->
  outs (process_percent_encoded_best_effort debug f st (display s)) = Some (enc_UR Sp s, tt).
Proof using Hf.
  intros Hc SC HI. unfold process_percent_encoded_best_effort. cbn [fst snd display decompose_chunks].
  destruct (calm_loop s Hc SC (2 * (1 + length s)) st (blen s)) as (out & st' & db & E & En); [lia|assumption|lia|].
  assert (E' : outs (wdo x <- decompose_write_str debug f st db_empty s ; match x with inl (st0, db0) => wret (inl (st0, db0)) | inr u => wret (inr u) end) = Some (out, inl (st', db))).
  { rewrite <- (app_nil_r out). eapply outs_bind; [exact E|]. cbv beta iota. apply outs_ret. }
  destruct En as [(-> & <- & HI')|(bs & w & t & -> & Hw & Ht & Hne & -> & k' & HI' & Hk')].
  - rewrite <- (app_nil_r (enc_UR Sp s)). eapply outs_bind; [exact E'|]. cbv beta iota. reflexivity.
  - eapply outs_bind; [exact E'|]. cbv beta iota. unfold flush. cbn [db_encoded].
    replace (is_empty (w ++ t)) with false by (destruct (w ++ t); [contradiction|reflexivity]).
    rewrite pop_all. cbn [bind]. rewrite lift_bind. cbv beta iota.
    destruct (flush_ok bs w t st' k' Hw Ht Hne Hk' HI') as (st2 & E2). cbv zeta in E2 |- *.
    rewrite <- (app_nil_r (w ++ tail_text t)). eapply outs_bind; [exact E2|]. cbv beta. apply outs_ret.
Qed.
End Feed.

(** ** The two output functions *)
Lemma pe_outs S ctx s ok : all_scalar s = true -> (forall c, is_valid_char S ctx c = ok c) ->
  outs (PercentEncoded S ctx (display s)) = Some (encode ok s, tt).
Proof.
  intros SC H. unfold PercentEncoded, outs, display. cbn [fst snd flat_map]. rewrite app_nil_r.
  rewrite filter_str_text by assumption. now rewrite (encode_ext _ ok) by assumption.
Qed.
Lemma escape_calm S debug s : calm s -> all_scalar s = true ->
  outs (escape_write S debug (display s) true) = Some (enc_UR S s, tt).
Proof.
  intros Hc SC. unfold escape_write. apply (process_ok debug S (escape_frag S) (fun _ _ => True)); auto.
  intros [] fr k Hok _ _ _. exists tt. split; [|exact I]. unfold escape_frag. rewrite <- (app_nil_r (frag_text S fr)).
  eapply outs_bind; [|apply outs_ret]. destruct fr as [s'| |s' c|s']; cbn [frag_text]; try apply outs_write.
  destruct Hok. apply pe_outs; [assumption|apply v_character].
Qed.
(** [take_chars] *)
Lemma take_spec s : forall n i l, snd (take_chars n i s l) = firstn (N.to_nat n) s /\
  fst (take_chars n i s l) = if (n =? 0) || is_empty s then l else Some (i + N.of_nat (last_position (N.to_nat n) s)).
Proof.
  induction s as [|c r IH]; intros n i l; cbn [take_chars].
  - cbn [fst snd is_empty]. rewrite orb_true_r. split; [now destruct (N.to_nat n)|reflexivity].
  - destruct (N.eqb_spec n 0) as [->|Hn]; [split; reflexivity|]. cbn [orb is_empty].
    destruct (IH (n - 1) (i + N.of_nat (clen c)) (Some i)) as [H1 H2].
    destruct (take_chars (n - 1) (i + N.of_nat (clen c)) r (Some i)) as [l' t]. cbn [fst snd] in *. subst.
    replace (N.to_nat n) with (Datatypes.S (N.to_nat (n - 1))) by lia. cbn [firstn]. split; [reflexivity|].
    unfold last_position. cbn [firstn]. destruct (N.eqb_spec (n - 1) 0) as [E|E]; cbn [orb].
    + rewrite E. cbn. f_equal. lia.
    + destruct r as [|d r]; cbn [is_empty].
      * rewrite firstn_nil. cbn. f_equal. lia.
      * destruct (N.to_nat (n - 1)) as [|m] eqn:Em; [lia|]. cbn [firstn].
        change (removelast (c :: d :: firstn m r)) with (c :: removelast (d :: firstn m r)). cbn [blen]. f_equal. lia.
Qed.
Lemma usize_sub_ok debug a b : (debug = true -> b <= a) -> exists m, outs (usize_sub debug a b) = Some ([], m) /\ (b <= a -> m = a - b).
Proof.
  intros H. unfold usize_sub. destruct (N.leb_spec b a); [exists (a - b); split; [reflexivity|auto]|].
  destruct debug; [specialize (H eq_refl); lia|]. eexists. split; [reflexivity|lia].
Qed.
Lemma last_lt n s : s <> [] -> (0 < n)%nat -> (last_position n s < blen s)%nat.
Proof.
  intros Hs Hn. unfold last_position. destruct (firstn n s) as [|c r] eqn:E.
  - destruct n; [lia|]. destruct s; [contradiction|discriminate].
  - assert (H : c :: r <> []) by discriminate. pose proof (app_removelast_last 0 H) as X. rewrite <- E in *.
    pose proof (firstn_skipn n s) as Y. rewrite <- Y at 2. rewrite blen_app. rewrite X at 2. rewrite blen_app. cbn [blen].
    pose proof (clen_pos (last (firstn n s) 0)). lia.
Qed.
Lemma len_le_blen s : (length s <= blen s)%nat.
Proof. induction s as [|c s IH]; cbn; [lia|]. pose proof (clen_pos c). lia. Qed.
Lemma outs_quiet {A B} (x : W A) (g : A -> W B) a r : outs x = Some ([], a) -> outs (g a) = Some r -> outs (wbind x g) = Some r.
Proof. intros H1 H2. destruct r as [o b]. rewrite <- (app_nil_l o). eapply outs_bind; [exact H1|exact H2]. Qed.
Lemma outs_then {A B} (x : W A) (b : B) o a : outs x = Some (o, a) -> outs (x >> wret b) = Some (o, b).
Proof. intros H1. rewrite <- (app_nil_r o). eapply outs_bind; [exact H1|apply outs_ret]. Qed.
Lemma maxlen_calm S debug n s : calm s -> all_scalar s = true -> N.of_nat (blen s) <= n ->
  outs (process_percent_encoded_best_effort debug (maxlen_frag S debug) n (display s)) = Some (enc_UR S s, tt).
Proof.
  intros Hc SC L. apply (process_ok debug S (maxlen_frag S debug) (fun m k => N.of_nat k <= m)); auto.
  clear. intros m fr k Hok Hl H1 HI. unfold maxlen_frag. replace (m =? 0) with false by lia.
  destruct fr as [s| |s c|s]; cbn [frag_text frag_len frag_ok] in *.
  - destruct Hok as [Hne SC]. destruct (take_spec s m 0 None) as [T1 T2]. destruct (take_chars m 0 s None) as [l t]. cbn [fst snd] in *. subst.
    replace (m =? 0) with false by lia. replace (is_empty s) with false by now destruct s. cbn [orb].
    pose proof (last_lt (N.to_nat m) s Hne ltac:(lia)) as LL.
    destruct (usize_sub_ok debug m (0 + N.of_nat (last_position (N.to_nat m) s))) as (m' & E & Em); [intros _; lia|].
    exists m'. rewrite Em by lia. split; [|lia]. eapply outs_quiet; [exact E|]. cbv beta.
    rewrite Em by lia. eapply outs_then.
    rewrite firstn_all2 by (pose proof (len_le_blen s); lia). apply pe_outs; [assumption|apply v_character].
  - destruct (usize_sub_ok debug m 1) as (m' & E & Em); [lia|]. exists m'. rewrite Em by lia. split; [|lia].
    eapply outs_quiet; [exact E|]. cbv beta. rewrite Em by lia. eapply outs_then. apply outs_write.
  - destruct (usize_sub_ok debug m 1) as (m' & E & Em); [lia|]. exists m'. rewrite Em by lia.
    assert (1 <= length s)%nat by (destruct s; [contradiction|cbn; lia]). split; [|lia].
    eapply outs_quiet; [exact E|]. cbv beta. rewrite Em by lia. eapply outs_then. apply outs_write.
  - destruct Hok as [q Hq]. rewrite Hq. rewrite Nat.div_mul by lia. replace (N.min m (N.of_nat q)) with (N.of_nat q) by lia.
    destruct (usize_sub_ok debug m (N.of_nat q)) as (m' & E & Em); [lia|]. exists m'. rewrite Em by lia. split; [|lia].
    eapply outs_quiet; [exact E|]. cbv beta. rewrite Em by lia. eapply outs_then.
    rewrite Nat2N.id. rewrite firstn_all2 by lia. apply outs_write.
Qed.
