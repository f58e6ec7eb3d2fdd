(** * Percent-encoding normalization (proofs only), part 2: the writer meets the specification. *)
From Verif Require Import Base Chars Rfc3986 Utf8 PctSpec MValidate MTrusted MFormat MPct PBase PScan PPath2 PPct.

(** ** Spellings. *)
Lemma spelled_len bs s : spelled bs s -> length s = (3 * length bs)%nat.
Proof. induction 1; cbn [length]; lia. Qed.
Lemma spelled_app a b s t : spelled a s -> spelled b t -> spelled (a ++ b) (s ++ t).
Proof. induction 1; cbn [app]; intros; auto. constructor; auto. Qed.
Lemma spelled_prefix b1 s1 r1 b2 s2 r2 : spelled b1 s1 -> spelled b2 s2 -> s1 ++ r1 = s2 ++ r2 -> (length b1 <= length b2)%nat ->
  exists b3 s3, b2 = b1 ++ b3 /\ s2 = s1 ++ s3 /\ spelled b3 s3 /\ r1 = s3 ++ r2.
Proof.
  intros H. revert b2 s2. induction H as [|u l bs s Hu Hl Hs IH]; intros b2 s2 H2 E L.
  - exists b2, s2. cbn in E. auto.
  - inversion H2; subst; [cbn in L; lia|]. cbn [app] in E. injection E as -> -> E.
    destruct (IH _ _ H1 E) as (b3 & s3 & -> & -> & H3 & ->); [cbn in L; lia|]. exists b3, s3. auto.
Qed.
Lemma spelled_wf bs s t : spelled bs s -> pct_wf (s ++ t) <-> pct_wf t.
Proof.
  induction 1; [reflexivity|]. cbn [app]. rewrite <- IHspelled. split.
  - intros W. inversion W; subst; [congruence|auto].
  - intros W. apply wf_trip; auto.
Qed.
Lemma spelled_inv b bs s : spelled (b :: bs) s -> exists u l s', s = 37 :: u :: l :: s' /\ b = bval u l /\
  is_hexdigit u = true /\ is_hexdigit l = true /\ spelled bs s'.
Proof. inversion 1; subst. exists u, l, s0. repeat split; auto. Qed.
Lemma spelled_nil_inv s : spelled [] s -> s = []. Proof. now inversion 1. Qed.

(** A character whose first byte is [b0] is spelled at the beginning of a string starting with a
    triplet for [b0]. *)
Lemma cont_not_first c k t : is_scalar c = true -> contb k -> utf8 c <> k :: t.
Proof.
  intros H Hk E. destruct (utf8_shape c H) as (f & ks & E' & _ & D). rewrite E' in E. injection E as -> ->.
  unfold contb in Hk. destruct D as [(D & _)|(D & _)]; [lia|]. unfold expected_len, between in D.
  replace ((194 <=? k) && (k <=? 223)) with false in D by lia. replace ((224 <=? k) && (k <=? 239)) with false in D by lia.
  replace ((240 <=? k) && (k <=? 244)) with false in D by lia. discriminate.
Qed.
Lemma nonstart_not_first c k t : is_scalar c = true -> 128 <= k -> expected_len k = None -> utf8 c <> k :: t.
Proof.
  intros H Hk He E. destruct (utf8_shape c H) as (f & ks & E' & _ & D). rewrite E' in E. injection E as -> ->.
  destruct D as [(D & _)|(D & _)]; [lia|congruence].
Qed.
Lemma no_unres_intro Sp b0 bs s : spelled [b0] bs ->
  (forall c t, unreserved Sp c = true -> utf8 c = b0 :: t -> forall s2 s', spelled t s2 -> s = s2 ++ s' -> False) ->
  no_unreserved_here Sp (bs ++ s).
Proof.
  intros H0 H c bs' s' E Hs. destruct (unreserved Sp c) eqn:U; auto. exfalso.
  destruct (utf8_shape c (unreserved_scalar _ _ U)) as (f & ks & Eu & _ & _). rewrite Eu in Hs.
  destruct (spelled_prefix _ _ _ _ _ _ H0 Hs E) as (b3 & s3 & Eb & -> & H3 & ->); [cbn; lia|].
  cbn in Eb. injection Eb as -> ->. eapply H; eauto.
Qed.
Lemma no_unres_cont Sp k bs s : spelled [k] bs -> contb k -> no_unreserved_here Sp (bs ++ s).
Proof.
  intros H Hk. eapply no_unres_intro; eauto. intros c t U E. exfalso. eapply cont_not_first; eauto. eapply unreserved_scalar; eauto.
Qed.

Definition uppers (bs : list N) : str := concat (map pct_upper bs).
Lemma outs_triplets bs : outs (write_triplets bs) = Some (uppers bs, tt).
Proof.
  induction bs as [|b bs IH]; [reflexivity|]. cbn [write_triplets]. unfold uppers. cbn [map concat].
  eapply outs_bind; [apply outs_write|exact IH].
Qed.
(** Keeping one triplet, in terms of its byte. *)
Lemma keep_one Sp b bs s t : spelled [b] bs -> no_unreserved_here Sp (bs ++ s) -> pct_normal Sp s t -> pct_normal Sp (bs ++ s) (pct_upper b ++ t).
Proof.
  intros H N P. destruct (spelled_inv _ _ _ H) as (u & l & s' & -> & -> & Hu & Hl & H'). apply spelled_nil_inv in H'. subst s'. cbn [app] in *.
  rewrite pct_upper_bval by assumption. cbn [app]. now apply pn_keep.
Qed.
Lemma keep_conts Sp ks bs s t : spelled ks bs -> Forall contb ks -> pct_normal Sp s t -> pct_normal Sp (bs ++ s) (uppers ks ++ t).
Proof.
  intros H. induction H as [|u l ks bs Hu Hl Hs IH]; intros F P; [exact P|]. inversion F; subst.
  unfold uppers. cbn [map concat]. fold (uppers ks). rewrite <- app_assoc.
  change ((37 :: u :: l :: bs) ++ s) with ([37; u; l] ++ bs ++ s).
  assert (S1 : spelled [16 * hex_value u + hex_value l] [37; u; l]) by (repeat constructor; auto).
  apply keep_one; auto. eapply no_unres_cont; eauto.
Qed.

(** ** The continuation-byte loop. *)
Lemma read_continue_ok n : forall buf rest, pct_wf rest -> exists ks tr rest' d r,
  rest = tr ++ rest' /\ spelled ks tr /\ Forall contb ks /\ (length ks <= n)%nat /\ pct_wf rest' /\
  outs (read_continue n buf rest) = Some (d, r) /\
  ((length ks = n /\ d = [] /\ r = CDone (buf ++ ks) rest') \/
   ((length ks < n)%nat /\
     ((rest' = [] /\ d = uppers (buf ++ ks) /\ r = CBreak) \/
      (exists c after, rest' = c :: after /\ c <> 37 /\ pct_wf after /\ d = uppers (buf ++ ks) ++ [c] /\ r = CNext after) \/
      (exists b x y, rest' = x ++ y /\ spelled [b] x /\ ~ contb b /\ d = uppers (buf ++ ks) /\ r = CNext rest')))).
Proof.
  induction n as [|n IH]; intros buf rest W.
  - exists [], [], rest, [], (CDone buf rest). repeat split; auto; try apply spelled_nil; try apply Forall_nil. rewrite app_nil_r. auto.
  - cbn [read_continue]. destruct rest as [|c after].
    + exists [], [], [], (uppers buf ++ []), CBreak. rewrite !app_nil_r. repeat split; auto; try apply spelled_nil; try apply Forall_nil; try (cbn; lia).
      * rewrite <- (app_nil_r (uppers buf)). eapply outs_bind; [apply outs_triplets|reflexivity].
      * right. split; [cbn; lia|]. left. auto.
    + destruct (N.eqb_spec c PCT) as [->|Hc].
      * destruct (wf_pct_inv _ W) as (u & l & r' & -> & Hu & Hl & W'). rewrite take_x by assumption. rewrite lift_bind.
        assert (S1 : spelled [bval u l] [37; u; l]) by (repeat constructor; auto).
        destruct (is_utf8_byte_continue (bval u l)) eqn:K; cbn [negb].
        -- apply is_cont in K. destruct (IH (buf ++ [bval u l]) r' W') as (ks & tr & rest' & d & r & -> & Sk & Fk & Lk & Wr & E & D).
           exists (bval u l :: ks), ([37; u; l] ++ tr), rest', d, r. rewrite <- app_assoc in D. cbn [app] in D.
           repeat split; auto.
           ++ apply (spelled_app [bval u l]); auto.
           ++ cbn. lia.
           ++ destruct D as [(D1 & D2)|(D1 & D2)]; [left|right]; cbn [length]; split; auto; lia.
        -- exists [], [], (37 :: u :: l :: r'), (uppers buf ++ []), (CNext (37 :: u :: l :: r')). rewrite !app_nil_r. repeat split; auto; try apply spelled_nil; try apply Forall_nil; try (cbn; lia).
           ++ rewrite <- (app_nil_r (uppers buf)). eapply outs_bind; [apply outs_triplets|reflexivity].
           ++ right. split; [cbn; lia|]. right. right. exists (bval u l), [37; u; l], r'. repeat split; auto.
              intros C. apply is_cont in C. congruence.
      * exists [], [], (c :: after), (uppers buf ++ [c] ++ []), (CNext after). rewrite app_nil_r. cbn [app]. repeat split; auto; try apply spelled_nil; try apply Forall_nil; try (cbn; lia).
        -- eapply outs_bind; [apply outs_triplets|]. change [c] with ([c] ++ []). eapply outs_bind; [apply outs_write|reflexivity].
        -- right. split; [cbn; lia|]. right. left. exists c, after. rewrite app_nil_r. repeat split; auto. now apply wf_raw_inv in W.
Qed.

Lemma raw_prefix Sp a s t : none (N.eqb 37) a = true -> pct_normal Sp s t -> pct_normal Sp (a ++ s) (a ++ t).
Proof.
  induction a as [|c a IH]; cbn [app]; auto. rewrite none_cons. intros H P. bdestr. apply pn_raw; auto. intros ->. discriminate.
Qed.

Lemma pct_loop_ok Sp fuel : forall s, pct_wf s -> (length s < fuel)%nat -> exists t, outs (pct_loop Sp fuel s) = Some (t, tt) /\ pct_normal Sp s t.
Proof.
  induction fuel as [|fuel IH]; intros s W Hf; [lia|]. cbn [pct_loop].
  destruct (is_empty s) eqn:Em. { apply is_empty_iff in Em. subst. exists []. split; [reflexivity|constructor]. }
  unfold find_split_hole. destruct (split_first (N.eqb PCT) s) as [[[a c] b]|] eqn:E.
  2:{ exists s. split; [apply outs_write|]. apply split_first_none in E. rewrite <- (app_nil_r s). apply raw_prefix; auto. constructor. }
  apply split_first_some in E. destruct E as (-> & Na & Hc). apply N.eqb_eq in Hc. subst c.
  assert (W2 := wf_prefix a (37 :: b) Na W). destruct (wf_pct_inv _ W2) as (u & l & r & -> & Hu & Hl & Wr).
  rewrite app_length in Hf. cbn [length] in Hf.
  assert (S1 : spelled [bval u l] [37; u; l]) by (repeat constructor; auto).
  cut (exists t, outs (wdo (first, after_first) <- lift (take_xdigits2 (u :: l :: r));
        (if first <? 128
         then (if is_ascii_unreserved first then write [first] else write (pct_upper first)) >> pct_loop Sp fuel after_first
         else match expected_len first with
            | Some len => wdo r <- read_continue (len - 1) [first] after_first;
                match r with
                | CNext rest => pct_loop Sp fuel rest
                | CBreak => wret tt
                | CDone buf rest => wdo oc <- lift (into_char_trusted buf);
                    match oc with
                    | Some c => (if is_unreserved Sp c then write [c] else write_triplets buf) >> pct_loop Sp fuel rest
                    | None => wdo rest' <- lift (slice_p after_first ((len - 1) * 3) (length after_first)); write_triplets buf >> pct_loop Sp fuel rest'
                    end
                end
            | None => write (pct_upper first) >> pct_loop Sp fuel after_first
            end)) = Some (t, tt) /\ pct_normal Sp (37 :: u :: l :: r) t).
  { intros (t & E & P). exists (a ++ t). split; [|now apply raw_prefix]. eapply outs_bind; [apply outs_write|exact E]. }
  rewrite take_x by assumption. rewrite lift_bind. set (b0 := bval u l) in *.
  change (37 :: u :: l :: r) with ([37; u; l] ++ r).
  assert (KEEP1 : no_unreserved_here Sp ([37; u; l] ++ r) -> exists t, outs (write (pct_upper b0) >> pct_loop Sp fuel r) = Some (t, tt) /\ pct_normal Sp ([37; u; l] ++ r) t).
  { intros N. destruct (IH r Wr) as (t & E & P); [lia|]. exists (pct_upper b0 ++ t). split; [eapply outs_bind; [apply outs_write|exact E]|]. now apply keep_one. }
  destruct (N.ltb_spec b0 128) as [L|L].
  - rewrite (ascii_unreserved_spec Sp) by exact L. destruct (unreserved Sp b0) eqn:U.
    + destruct (IH r Wr) as (t & E & P); [lia|]. exists (b0 :: t). split.
      * change (b0 :: t) with ([b0] ++ t). eapply outs_bind; [apply outs_write|exact E].
      * apply pn_decode; auto. unfold utf8. now replace (b0 <? 128) with true by lia.
    + apply KEEP1. eapply no_unres_intro; eauto. intros c t0 Uc Ec _ _ _ _.
      destruct (utf8_shape c (unreserved_scalar _ _ Uc)) as (f & ks & Eu & _ & D). rewrite Ec in Eu. injection Eu as <- <-.
      destruct D as [(_ & _ & ->)|(D & _)]; [congruence|]. unfold expected_len, between in D.
      replace ((194 <=? b0) && (b0 <=? 223)) with false in D by lia. replace ((224 <=? b0) && (b0 <=? 239)) with false in D by lia.
      replace ((240 <=? b0) && (b0 <=? 244)) with false in D by lia. discriminate.
  - destruct (expected_len b0) as [len|] eqn:El.
    2:{ apply KEEP1. eapply no_unres_intro; eauto. intros c t0 Uc Ec _ _ _ _. eapply nonstart_not_first; eauto. eapply unreserved_scalar; eauto. }
    assert (Hlen : (2 <= len)%nat). { unfold expected_len in El. repeat match type of El with (if ?x then _ else _) = _ => destruct x end; inversion El; lia. }
    destruct (read_continue_ok (len - 1) [b0] r Wr) as (ks & tr & rest' & d & res & -> & Sk & Fk & Lk & Wr' & E & D).
    rewrite app_length in Hf.
    assert (SP : spelled (b0 :: ks) ([37; u; l] ++ tr)) by (apply (spelled_app [b0]); auto).
    (* keeping all the triplets read so far *)
    assert (KEEP : forall t, (forall c t0, unreserved Sp c = true -> utf8 c = b0 :: t0 -> forall s2 s', spelled t0 s2 -> tr ++ rest' = s2 ++ s' -> False) ->
      pct_normal Sp rest' t -> pct_normal Sp ([37; u; l] ++ tr ++ rest') (uppers (b0 :: ks) ++ t)).
    { intros t Hn P. unfold uppers. cbn [map concat]. fold (uppers ks). rewrite <- app_assoc. apply keep_one; auto.
      - eapply no_unres_intro; eauto.
      - apply keep_conts; auto. }
    destruct D as [(Lk' & -> & ->)|(Lk' & D)].
    + cbn [app] in E. destruct (into_char_ok b0 ks len El Lk' Fk) as (oc & Ei & Hoc & Hsc).
      assert (TAIL : forall d2 t, outs (wdo oc <- lift (into_char_trusted (b0 :: ks));
           match oc with
           | Some c => (if is_unreserved Sp c then write [c] else write_triplets (b0 :: ks)) >> pct_loop Sp fuel rest'
           | None => wdo rest'0 <- lift (slice_p (tr ++ rest') ((len - 1) * 3) (length (tr ++ rest'))); write_triplets (b0 :: ks) >> pct_loop Sp fuel rest'0
           end) = Some (d2, tt) -> t = d2 -> pct_normal Sp ([37; u; l] ++ tr ++ rest') t ->
         exists t, outs (wdo r <- read_continue (len - 1) [b0] (tr ++ rest');
                match r with
                | CNext rest => pct_loop Sp fuel rest
                | CBreak => wret tt
                | CDone buf rest => wdo oc <- lift (into_char_trusted buf);
                    match oc with
                    | Some c => (if is_unreserved Sp c then write [c] else write_triplets buf) >> pct_loop Sp fuel rest
                    | None => wdo rest' <- lift (slice_p (tr ++ rest') ((len - 1) * 3) (length (tr ++ rest'))); write_triplets buf >> pct_loop Sp fuel rest'
                    end
                end) = Some (t, tt) /\ pct_normal Sp ([37; u; l] ++ tr ++ rest') t).
      { intros d2 t Ed -> P. exists ([] ++ d2). split; [eapply outs_bind; [exact E|exact Ed]|exact P]. }
      destruct (IH rest' Wr') as (t & Et & Pt); [lia|]. rewrite Ei, lift_bind in TAIL.
      destruct oc as [c|].
      * rewrite is_unreserved_spec in TAIL. assert (Hc := Hsc c eq_refl). assert (Eu : utf8 c = b0 :: ks) by now apply Hoc.
        destruct (unreserved Sp c) eqn:U.
        -- eapply TAIL; [eapply outs_bind; [apply outs_write|exact Et]|reflexivity|].
           change ([37; u; l] ++ tr ++ rest') with (([37; u; l] ++ tr) ++ rest'). apply pn_decode; auto. now rewrite Eu.
        -- eapply TAIL; [eapply outs_bind; [apply outs_triplets|exact Et]|reflexivity|].
           apply KEEP; auto. intros c' t0 Uc Ec s2 s' S2 Es.
           (* c' has the same first byte, hence the same length, hence the same bytes *)
           destruct (utf8_shape c' (unreserved_scalar _ _ Uc)) as (f & ks' & Eu' & Fk' & D'). rewrite Ec in Eu'. injection Eu' as <- <-.
           destruct D' as [(D' & _)|(D' & _)]; [lia|]. rewrite El in D'. injection D' as D'.
           destruct (spelled_prefix _ _ _ _ _ _ Sk S2 Es) as (b3 & s3 & Eb & _ & S3 & _); [lia|].
           subst t0. rewrite app_length in D'. assert (b3 = []) by (destruct b3; auto; cbn in D'; lia). subst b3. rewrite app_nil_r in *.
           assert (Q : Some c = Some c') by (apply Hoc; auto; eapply unreserved_scalar; eauto). injection Q as <-. congruence.
      * assert (Sl : slice_p (tr ++ rest') ((len - 1) * 3) (length (tr ++ rest')) = Ok rest').
        { unfold slice_p. replace ((len - 1) * 3)%nat with (length tr) by (apply spelled_len in Sk; lia).
          rewrite PPath.slice_tail by (rewrite app_length; lia). f_equal. apply PPath.skipn_app_exact. }
        eapply TAIL; [rewrite Sl, lift_bind; eapply outs_bind; [apply outs_triplets|exact Et]|reflexivity|].
        apply KEEP; auto. intros c' t0 Uc Ec s2 s' S2 Es.
        destruct (utf8_shape c' (unreserved_scalar _ _ Uc)) as (f & ks' & Eu' & Fk' & D'). rewrite Ec in Eu'. injection Eu' as <- <-.
        destruct D' as [(D' & _)|(D' & _)]; [lia|]. rewrite El in D'. injection D' as D'.
        destruct (spelled_prefix _ _ _ _ _ _ Sk S2 Es) as (b3 & s3 & Eb & _ & S3 & _); [lia|].
        subst t0. rewrite app_length in D'. assert (b3 = []) by (destruct b3; auto; cbn in D'; lia). subst b3. rewrite app_nil_r in *.
        assert (Q : None = Some c') by (apply Hoc; auto; eapply unreserved_scalar; eauto). discriminate.
    + (* incomplete sequence *)
      assert (NOT : (rest' = [] \/ (exists c after, rest' = c :: after /\ c <> 37) \/ exists b x y, rest' = x ++ y /\ spelled [b] x /\ ~ contb b) ->
        forall c t0, unreserved Sp c = true -> utf8 c = b0 :: t0 -> forall s2 s', spelled t0 s2 -> tr ++ rest' = s2 ++ s' -> False).
      { intros HR c t0 Uc Ec s2 s' S2 Es.
        destruct (utf8_shape c (unreserved_scalar _ _ Uc)) as (f & ks' & Eu' & Fk' & D'). rewrite Ec in Eu'. injection Eu' as <- <-.
        destruct D' as [(D' & _)|(D' & _)]; [lia|]. rewrite El in D'. injection D' as D'.
        destruct (spelled_prefix _ _ _ _ _ _ Sk S2 Es) as (b3 & s3 & Eb & _ & S3 & Er); [lia|].
        subst t0. rewrite app_length in D'. destruct b3 as [|k b3]; [rewrite Nat.add_0_r in D'; lia|].
        apply Forall_app in Fk'. destruct Fk' as [_ Fk']. assert (Hk := Forall_inv Fk').
        destruct HR as [HR|[(c0 & after & HR & Hc0)|(b & x & y & HR & Sx & Hb)]].
        - rewrite HR in Er. inversion S3; subst. discriminate.
        - rewrite HR in Er. inversion S3; subst. cbn in Er. congruence.
        - rewrite HR in Er. destruct (spelled_prefix _ _ _ _ _ _ Sx S3 Er) as (b4 & s4 & Eb4 & _ & _ & _); [cbn; lia|].
          cbn in Eb4. injection Eb4 as -> _. contradiction. }
      cbn [app] in D. destruct D as [(-> & -> & ->)|[(c & after & -> & Hc & Wa & -> & ->)|(b & x & y & Er & Sx & Hb & -> & ->)]].
      * exists (uppers (b0 :: ks) ++ []). split; [eapply outs_bind; [exact E|reflexivity]|]. apply KEEP; [apply NOT; auto|constructor].
      * cbn [length] in Hf. destruct (IH after Wa) as (t & Et & Pt); [lia|]. exists ((uppers (b0 :: ks) ++ [c]) ++ t). split; [eapply outs_bind; [exact E|exact Et]|].
        rewrite <- app_assoc. apply KEEP; [apply NOT; right; left; exists c, after; auto|]. cbn [app]. now apply pn_raw.
      * destruct (IH rest' Wr') as (t & Et & Pt); [lia|]. exists (uppers (b0 :: ks) ++ t). split; [eapply outs_bind; [exact E|exact Et]|].
        apply KEEP; [apply NOT; right; right; exists b, x, y; auto|exact Pt].
Qed.
Lemma pct_normalized_ok Sp s : pct_wf s -> exists t, outs (PctCaseNormalized Sp s) = Some (t, tt) /\ pct_normal Sp s t.
Proof. intros W. apply pct_loop_ok; auto. Qed.
