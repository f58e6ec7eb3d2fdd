(** Proofs for C19 (percent-encoding) and C20 (percent-decoding). *)
From Verif Require Import Base Chars Rfc3986 Utf8 CompSpec PctSpec RfcResolve MValidate MTrusted MFormat MWriters MPct MEncode EncodeSpec PBase PScan PHost PTrusted PPct PSearch.

(** ** Triplets *)
Lemma small_nat b : b < 16 -> b = 0 \/ b = 1 \/ b = 2 \/ b = 3 \/ b = 4 \/ b = 5 \/ b = 6 \/ b = 7 \/ b = 8 \/ b = 9 \/ b = 10 \/ b = 11 \/ b = 12 \/ b = 13 \/ b = 14 \/ b = 15.
Proof. lia. Qed.
Lemma hex_digit_facts d : d < 16 -> hex_upper d = hex_digit d /\ HEXDIG (hex_digit d) = true /\ hex_value (hex_digit d) = d /\ hexdigit_at d = Ok (hex_digit d) /\ hex_digit d < 128.
Proof. intros H. apply small_nat in H. repeat (destruct H as [->|H]; [vm_compute; auto|]). subst. vm_compute. auto. Qed.
Lemma byte_div b : b < 256 -> b / 16 < 16.
Proof. intros H. apply N.div_lt_upper_bound; lia. Qed.
Lemma byte_mod b : b mod 16 < 16.
Proof. apply N.mod_lt. lia. Qed.
Lemma byte_land b : N.land b 15 = b mod 16.
Proof. change 15 with (2 ^ 4 - 1). apply land_mod. Qed.
Lemma triplet_upper b : b < 256 -> pct_upper b = triplet b.
Proof.
  intros H. unfold pct_upper, triplet. destruct (hex_digit_facts (b / 16) (byte_div b H)) as [-> _]. destruct (hex_digit_facts (b mod 16) (byte_mod b)) as [-> _]. reflexivity.
Qed.
Lemma triplet_denotes b s d : b < 256 -> denotes s d -> denotes (triplet b ++ s) (b :: d).
Proof.
  intros H D. destruct (hex_digit_facts (b / 16) (byte_div b H)) as (_ & Hu & Vu & _). destruct (hex_digit_facts (b mod 16) (byte_mod b)) as (_ & Hl & Vl & _).
  unfold triplet. cbn [app]. replace b with (16 * hex_value (hex_digit (b / 16)) + hex_value (hex_digit (b mod 16))) at 3; [now apply dn_trip|].
  rewrite Vu, Vl. symmetry. apply N.div_mod. lia.
Qed.
Lemma triplet_pct b : b < 256 -> pct_encoded (triplet b).
Proof.
  intros H. destruct (hex_digit_facts (b / 16) (byte_div b H)) as (_ & Hu & _). destruct (hex_digit_facts (b mod 16) (byte_mod b)) as (_ & Hl & _).
  apply pct_encoded_iff. do 2 eexists. split; [reflexivity|]. auto.
Qed.
Definition bytes (bs : list N) := Forall (fun b => b < 256) bs.
Lemma triplets_denote bs s d : bytes bs -> denotes s d -> denotes (triplets bs ++ s) (bs ++ d).
Proof.
  induction 1; cbn [triplets flat_map app]; auto. intros D. rewrite <- app_assoc. apply triplet_denotes; auto. 
Qed.
Lemma utf8_bytes c : is_scalar c = true -> bytes (utf8 c).
Proof.
  intros H. unfold bytes. destruct (utf8_cases c H) as [(Hc&X)|[(a&b&X&?)|[(a&b&d&X&?)|(a&b&d&e&X&?)]]]; rewrite X; repeat constructor; lia.
Qed.
Lemma utf8s_bytes s : all_scalar s = true -> bytes (utf8s s).
Proof.
  induction s as [|c s IH]; cbn [utf8s flat_map]; [constructor|]. cbn [all_scalar forallb]. intros H. bdestr. apply Forall_app. split; [now apply utf8_bytes|now apply IH].
Qed.
Lemma upper_triplets bs : bytes bs -> concat (map pct_upper bs) = triplets bs.
Proof. induction 1; cbn [map concat triplets flat_map]; auto. rewrite triplet_upper by assumption. now f_equal. Qed.

(** ** C19 *)
Lemma encode_app ok a b : encode ok (a ++ b) = encode ok a ++ encode ok b.
Proof. apply flat_map_app. Qed.
Lemma encode_ext f g s : (forall c, f c = g c) -> encode f s = encode g s.
Proof. intros H. unfold encode. apply flat_map_ext. intros c. now rewrite H. Qed.
Lemma concat_flat_map {A} (f : A -> list str) s : concat (flat_map f s) = flat_map (fun c => concat (f c)) s.
Proof. induction s; cbn [flat_map]; auto. rewrite concat_app. now f_equal. Qed.
Lemma filter_str_text S ctx s : all_scalar s = true -> concat (filter_str S ctx s) = encode (is_valid_char S ctx) s.
Proof.
  unfold filter_str, encode. rewrite concat_flat_map. induction s as [|c s IH]; cbn [flat_map all_scalar forallb]; auto. intros H. bdestr.
  rewrite IH by assumption. f_equal. unfold filter_char. destruct (is_valid_char S ctx c); [reflexivity|].
  unfold pct_encoded_char. now rewrite upper_triplets by now apply utf8_bytes.
Qed.
Lemma filter_chunks S ctx l : all_scalar (concat l) = true -> concat (flat_map (filter_str S ctx) l) = encode (is_valid_char S ctx) (concat l).
Proof.
  induction l as [|s l IH]; cbn [flat_map concat]; auto. unfold all_scalar. rewrite forallb_app'. intros H. bdestr. rewrite concat_app, encode_app.
  rewrite filter_str_text by assumption. f_equal. now apply IH.
Qed.
Lemma pe_text {A} S ctx (d : W A) a ok : snd d = Ret a -> all_scalar (concat (fst d)) = true -> (forall c, is_valid_char S ctx c = ok c) ->
  text (PercentEncoded S ctx d) = Ok (encode ok (concat (fst d))).
Proof. intros H Hs E. unfold text, PercentEncoded. cbn [fst snd]. rewrite H. rewrite filter_chunks by assumption. now rewrite (encode_ext _ ok). Qed.
Lemma encode_star ok s : all_scalar s = true -> star (cls ok <|> pct_encoded) (encode ok s).
Proof.
  induction s as [|c s IH]; cbn [all_scalar forallb]; intros H; [constructor|]. bdestr. change (encode ok (c :: s)) with ((if ok c then [c] else triplets (utf8 c)) ++ encode ok s).
  apply star_app; [|now apply IH]. destruct (ok c) eqn:E; [apply star_one; left; now exists c|].
  assert (B := utf8_bytes c H). induction B; cbn [triplets flat_map]; [constructor|]. apply star_cons; auto. right. now apply triplet_pct.
Qed.
Lemma encode_scan ok s : ok 37 = false -> all_scalar s = true -> scan ok (encode ok s) = true.
Proof. intros H Hs. apply (star_scan (cls ok <|> pct_encoded)); [|exact H|now apply encode_star]. intros x. unfold alt, cls. tauto. Qed.
Lemma encode_denotes ok s : ok 37 = false -> all_scalar s = true -> denotes (encode ok s) (utf8s s).
Proof.
  intros H37. induction s as [|c s IH]; cbn [all_scalar forallb]; intros H; [constructor|]. bdestr. change (encode ok (c :: s)) with ((if ok c then [c] else triplets (utf8 c)) ++ encode ok s). cbn [utf8s flat_map].
  destruct (ok c) eqn:E.
  - apply dn_raw; auto. intros ->. congruence.
  - apply triplets_denote; auto. now apply utf8_bytes.
Qed.

(** The predicates of the eight contexts. *)
Lemma v_regname S c : is_valid_char S CRegName c = regname_char S c.
Proof. change (regname_char S c) with (f_regname S c). rewrite <- regname_ok. unfold both, is_valid_char. now destruct (is_ascii c). Qed.
Lemma v_user S c : is_valid_char S CUserOrPassword c = user_char S c.
Proof.
  change (user_char S c) with (unreserved S c || sub_delims c). transitivity (f_userinfo S c && negb (c =? COLON)).
  - rewrite <- userinfo_ok. unfold both, is_valid_char. destruct (is_ascii c) eqn:A; [apply andb_comm|]. rewrite (const_nonascii _ _ A) by reflexivity. now rewrite andb_true_r.
  - unfold f_userinfo. destruct (N.eqb_spec c COLON) as [->|]; [now destruct S|]. now rewrite orb_false_r, andb_true_r.
Qed.
Lemma v_segment S c : is_valid_char S CPathSegment c = segment_char S c.
Proof. change (segment_char S c) with (f_pchar S c). rewrite <- pchar_ok. unfold both, is_valid_char. now destruct (is_ascii c). Qed.
Lemma v_path S c : is_valid_char S CPath c = path_char S c.
Proof.
  change (path_char S c) with (f_pchar_slash S c). unfold f_pchar_slash. rewrite <- pchar_ok. unfold both, is_valid_char. destruct (is_ascii c) eqn:A; [apply orb_comm|]. rewrite (const_nonascii _ _ A) by reflexivity. now rewrite orb_false_r.
Qed.
Lemma slash_absorb (b : bool) c f : f SLASH = true -> (c =? SLASH) || f c = f c.
Proof. intros H. destruct (N.eqb_spec c SLASH) as [->|]; [now rewrite H|reflexivity]. Qed.
Lemma v_query S c : is_valid_char S CQuery c = query_char S c.
Proof.
  change (query_char S c) with (f_query S c). rewrite <- query_ok. unfold both, is_valid_char. destruct (is_ascii c); [|reflexivity]. apply (slash_absorb true c is_ascii_frag_query). reflexivity.
Qed.
Lemma v_fragment S c : is_valid_char S CFragment c = fragment_char S c.
Proof.
  change (fragment_char S c) with (f_fragment S c). rewrite <- fragment_ok. unfold both, is_valid_char. destruct (is_ascii c); [|reflexivity]. apply (slash_absorb true c is_ascii_frag_query). reflexivity.
Qed.
Lemma v_unreserve S c : is_valid_char S CUnreserve c = unreserved S c.
Proof. rewrite <- is_unreserved_spec. unfold is_unreserved, is_valid_char. now destruct (is_ascii c). Qed.
Lemma private_spec S c : is_nonascii_char_private S c = iri_only S iprivate c.
Proof. now destruct S. Qed.
Lemma v_character S c : is_valid_char S CCharacter c = character_char S c.
Proof.
  unfold character_char, is_valid_char. destruct (is_ascii c) eqn:A.
  - rewrite (unreserved_ascii _ _ A). replace (iri_only S iprivate c) with false.
    + rewrite orb_false_r. revert c A. apply (sweep_eq is_ascii_unreserved_or_reserved (fun c => uns0 c || reserved c)). vm_compute. reflexivity.
    + destruct S; [reflexivity|]. cbn [iri_only]. unfold iprivate, between, is_ascii in *. lia.
  - rewrite (unreserved_nonascii _ _ A), private_spec. replace (reserved c) with false; [now rewrite orb_false_r|].
    unfold reserved, gen_delims, sub_delims, one_of, is_ascii in *. cbn [lit existsb]. cbn [N_of_ascii N_of_digits]. symmetry. rewrite ?orb_false_iff, ?N.eqb_neq. lia.
Qed.

Lemma c19 {A} S ctx (d : W A) a ok : snd d = Ret a -> all_scalar (concat (fst d)) = true ->
  (forall c, is_valid_char S ctx c = ok c) -> ok 37 = false ->
  text (PercentEncoded S ctx d) = Ok (encode ok (concat (fst d))) /\
  scan ok (encode ok (concat (fst d))) = true /\
  denotes (encode ok (concat (fst d))) (utf8s (concat (fst d))).
Proof. intros. split; [eapply pe_text; eauto|]. split; [now apply encode_scan|now apply encode_denotes]. Qed.
Section C19.
Context (A : Type) (S : Spec) (d : W A) (a : A) (Hd : snd d = Ret a) (Hs : all_scalar (concat (fst d)) = true).
Let raw := concat (fst d).
Lemma pe_reg_name : text (PercentEncoded S CRegName d) = Ok (encode (regname_char S) raw) /\ reg_name S (encode (regname_char S) raw) /\ denotes (encode (regname_char S) raw) (utf8s raw).
Proof. destruct (c19 S CRegName d a _ Hd Hs (v_regname S)) as (X & Y & Z); [now destruct S|]. rewrite reg_name_scan. auto. Qed.
Lemma pe_user : text (PercentEncoded S CUserOrPassword d) = Ok (encode (user_char S) raw) /\ userinfo S (encode (user_char S) raw) /\ ~ In 58 (encode (user_char S) raw) /\ denotes (encode (user_char S) raw) (utf8s raw).
Proof.
  destruct (c19 S CUserOrPassword d a _ Hd Hs (v_user S)) as (X & Y & Z); [now destruct S|]. rewrite userinfo_scan. split; auto. split; [|split; auto].
  - eapply scan_mono; [|exact Y]. intros c H. unfold f_userinfo. unfold user_char in H. now rewrite H.
  - apply (in_none 58). apply (scan_none (user_char S)); auto. intros c Hc. apply N.eqb_eq in Hc. subst c. repeat split; try reflexivity; try discriminate; now destruct S.
Qed.
Lemma pe_segment : text (PercentEncoded S CPathSegment d) = Ok (encode (segment_char S) raw) /\ Rfc3986.segment S (encode (segment_char S) raw) /\ denotes (encode (segment_char S) raw) (utf8s raw).
Proof. destruct (c19 S CPathSegment d a _ Hd Hs (v_segment S)) as (X & Y & Z); [now destruct S|]. rewrite segment_scan. auto. Qed.
Lemma pe_path : text (PercentEncoded S CPath d) = Ok (encode (path_char S) raw) /\ path S (encode (path_char S) raw) /\ denotes (encode (path_char S) raw) (utf8s raw).
Proof. destruct (c19 S CPath d a _ Hd Hs (v_path S)) as (X & Y & Z); [now destruct S|]. rewrite path_scan. auto. Qed.
Lemma pe_query : text (PercentEncoded S CQuery d) = Ok (encode (query_char S) raw) /\ query S (encode (query_char S) raw) /\ denotes (encode (query_char S) raw) (utf8s raw).
Proof. destruct (c19 S CQuery d a _ Hd Hs (v_query S)) as (X & Y & Z); [now destruct S|]. rewrite query_scan. auto. Qed.
Lemma pe_fragment : text (PercentEncoded S CFragment d) = Ok (encode (fragment_char S) raw) /\ fragment S (encode (fragment_char S) raw) /\ denotes (encode (fragment_char S) raw) (utf8s raw).
Proof. destruct (c19 S CFragment d a _ Hd Hs (v_fragment S)) as (X & Y & Z); [now destruct S|]. rewrite fragment_scan. auto. Qed.
Lemma pe_unreserve : text (PercentEncoded S CUnreserve d) = Ok (encode (unreserved S) raw) /\ unreserved_text S (encode (unreserved S) raw) /\ denotes (encode (unreserved S) raw) (utf8s raw).
Proof. destruct (c19 S CUnreserve d a _ Hd Hs (v_unreserve S)) as (X & Y & Z); [now destruct S|]. split; auto. split; auto. now apply encode_star. Qed.
Lemma pe_character : text (PercentEncoded S CCharacter d) = Ok (encode (character_char S) raw) /\ any_text S (encode (character_char S) raw) /\ denotes (encode (character_char S) raw) (utf8s raw).
Proof.
  destruct (c19 S CCharacter d a _ Hd Hs (v_character S)) as (X & Y & Z); [now destruct S|]. split; auto. split; auto.
  eapply star_impl; [|apply encode_star; exact Hs]. intros x [H|H]; [|right; right; right; exact H]. destruct H as (c & -> & H). unfold character_char in H.
  destruct (unreserved S c) eqn:E1; [left; now exists c|]. destruct (reserved c) eqn:E2; [right; left; now exists c|]. right; right; left. now exists c.
Qed.
End C19.

(** ** C20 *)
Definition frag_bytes (f : DecodedFragment) : list N :=
  match f with Direct b => b | DecodedByte d => [d] | StrayPercent => [37] end.

Lemma sx_yes u l r : is_hexdigit u = true -> is_hexdigit l = true -> strip_decode_xdigits2 (u :: l :: r) = Ok (Some (bval u l), r).
Proof. intros Hu Hl. unfold strip_decode_xdigits2. cbn [starts_with_double_hexdigits]. rewrite Hu, Hl. cbn [andb]. now rewrite take_x. Qed.
Definition not_hex2 (r : list N) := forall u l r', r = u :: l :: r' -> HEXDIG u && HEXDIG l = false.
Lemma sx_no r : not_hex2 r -> strip_decode_xdigits2 r = Ok (None, r).
Proof.
  intros H. unfold strip_decode_xdigits2. replace (starts_with_double_hexdigits r) with false; [reflexivity|].
  destruct r as [|u [|l r]]; auto. symmetry. now apply (H u l r).
Qed.
Lemma hex2_cases r : (exists u l r', r = u :: l :: r' /\ is_hexdigit u = true /\ is_hexdigit l = true) \/ not_hex2 r.
Proof.
  destruct r as [|u [|l r]]; [right; intros ? ? ?; discriminate|right; intros ? ? ?; discriminate|].
  destruct (is_hexdigit u && is_hexdigit l) eqn:E; [left; bdestr; exists u, l, r; auto|right].
  intros u' l' r' X. injection X as <- <- <-. exact E.
Qed.
Lemma pd_raw x r : x <> 37 -> percent_decode (x :: r) = x :: percent_decode r.
Proof. intros H. cbn [percent_decode]. apply N.eqb_neq in H. now rewrite H. Qed.
Lemma pd_stray r : not_hex2 r -> percent_decode (37 :: r) = 37 :: percent_decode r.
Proof.
  intros H. cbn [percent_decode]. rewrite N.eqb_refl. destruct r as [|u [|l r]]; auto. rewrite (H u l r) by reflexivity. reflexivity.
Qed.
Lemma pd_trip u l r : is_hexdigit u = true -> is_hexdigit l = true -> percent_decode (37 :: u :: l :: r) = bval u l :: percent_decode r.
Proof.
  intros Hu Hl. change (percent_decode (37 :: u :: l :: r)) with (if HEXDIG u && HEXDIG l then 16 * hex_value u + hex_value l :: percent_decode r else 37 :: percent_decode (u :: l :: r)).
  change (HEXDIG u) with (is_hexdigit u). change (HEXDIG l) with (is_hexdigit l). rewrite Hu, Hl. reflexivity.
Qed.
Lemma pd_direct a r : none (N.eqb 37) a = true -> percent_decode (a ++ r) = a ++ percent_decode r.
Proof.
  induction a as [|x a IH]; cbn [app]; auto. rewrite none_cons. intros H. bdestr. rewrite pd_raw by (intros ->; discriminate). f_equal. now apply IH.
Qed.

Lemma fragments_ok fuel : forall b, (length b < fuel)%nat ->
  exists fs, fragments_collect fuel b = Ok fs /\ flat_map frag_bytes fs = percent_decode b.
Proof.
  induction fuel as [|fuel IH]; intros b L; [lia|]. cbn [fragments_collect]. destruct b as [|c r].
  { exists []. now split. }
  cbn [fragments_next]. destruct (N.eqb_spec c PCT) as [->|Hc].
  - destruct (hex2_cases r) as [(u & l & r' & -> & Hu & Hl)|H].
    + rewrite sx_yes by assumption. cbn [bind]. destruct (IH r') as (fs & E1 & E2); [cbn [length] in L; lia|]. rewrite E1. cbn [bind].
      eexists. split; [reflexivity|]. cbn [flat_map frag_bytes app]. change PCT with 37. rewrite pd_trip by assumption. now rewrite E2.
    + rewrite sx_no by assumption. cbn [bind]. destruct (IH r) as (fs & E1 & E2); [cbn [length] in L; lia|]. rewrite E1. cbn [bind].
      eexists. split; [reflexivity|]. cbn [flat_map frag_bytes app]. change PCT with 37. rewrite pd_stray by assumption. now rewrite E2.
  - destruct (split_first (N.eqb PCT) r) as [[[before pct] tail]|] eqn:E.
    + apply split_first_some in E. destruct E as (-> & Hb & Hp). cbn [bind].
      destruct (IH (pct :: tail)) as (fs & E1 & E2); [cbn [length] in *; rewrite app_length in L; cbn [length] in L; lia|]. rewrite E1. cbn [bind].
      eexists. split; [reflexivity|]. cbn [flat_map frag_bytes app]. rewrite pd_raw by exact Hc. rewrite pd_direct by exact Hb. now rewrite E2.
    + apply split_first_none in E. cbn [bind]. destruct fuel; [cbn [length] in L; lia|]. cbn [fragments_collect fragments_next bind].
      eexists. split; [reflexivity|]. cbn [flat_map frag_bytes app]. rewrite app_nil_r, pd_raw by exact Hc. rewrite <- (app_nil_r r) at 2. rewrite pd_direct by exact E. cbn [percent_decode]. now rewrite app_nil_r.
Qed.
Lemma bytes_fragments_ok b : exists fs, bytes_fragments b = Ok fs /\ flat_map frag_bytes fs = percent_decode b.
Proof. apply fragments_ok. lia. Qed.

(** Three shapes of the first "%". *)
Lemma find_pct b : find_split_hole b PCT = None /\ none (N.eqb 37) b = true \/
  exists a r, find_split_hole b PCT = Some (a, r) /\ b = a ++ 37 :: r /\ none (N.eqb 37) a = true.
Proof.
  destruct (find_split_hole b PCT) as [[a r]|] eqn:E; [right|left].
  - exists a, r. split; auto. apply find_split_hole_some in E. exact E.
  - split; auto. now apply find_split_hole_none in E.
Qed.
Lemma no_trip_none b : none (N.eqb 37) b = true -> ~ has_triplet b.
Proof. induction b as [|x b IH]; intros H X; inversion X; subst; rewrite none_cons in H; bdestr; [discriminate|]. now apply IH. Qed.
Lemma trip_app a b : none (N.eqb 37) a = true -> (has_triplet (a ++ b) <-> has_triplet b).
Proof.
  induction a as [|x a IH]; cbn [app]; [tauto|]. rewrite none_cons. intros H. bdestr. rewrite <- IH by assumption. split; [|apply ht_later].
  intros X. inversion X; subst; auto. discriminate.
Qed.
Lemma trip_stray r : not_hex2 r -> (has_triplet (37 :: r) <-> has_triplet r).
Proof.
  intros H. split; [|apply ht_later]. intros X. inversion X as [u l r' Hu Hl|]; subst; auto. specialize (H u l r' eq_refl). rewrite Hu, Hl in H. discriminate.
Qed.
Lemma stray_trip u l r : is_hexdigit u = true -> is_hexdigit l = true -> has_stray (37 :: u :: l :: r) -> has_stray r.
Proof.
  intros Hu Hl X. inversion X as [? X1|? ? X1|]; subst; auto; [|congruence]. specialize (X1 u l r eq_refl).
  change (is_hexdigit u && is_hexdigit l = false) in X1. rewrite Hu, Hl in X1. discriminate.
Qed.
Lemma stray_app a x : none (N.eqb 37) a = true -> (has_stray (a ++ x) <-> has_stray x).
Proof.
  induction a as [|y a IH]; cbn [app]; [tauto|]. rewrite none_cons. intros H. bdestr. rewrite <- IH by assumption. split; intros X.
  - inversion X; subst; auto; discriminate.
  - apply hs_raw; auto. intros ->. discriminate.
Qed.
(** [p]: what was passed over; it has no triplet, even together with what follows. *)
Lemma non_alloc fuel : forall b, (length b < fuel)%nat ->
  (~ has_triplet b /\ non_allocating_loop fuel b = Ok None) \/
  (exists p a u l r, b = p ++ a ++ 37 :: u :: l :: r /\ is_hexdigit u = true /\ is_hexdigit l = true /\ none (N.eqb 37) a = true /\
     percent_decode b = p ++ a ++ bval u l :: percent_decode r /\
     (p = [] \/ has_stray b) /\ (has_stray r -> has_stray b) /\ (p = [] -> has_stray b -> has_stray r) /\
     non_allocating_loop fuel b = Ok (Some (length a, bval u l, r))).
Proof.
  induction fuel as [|fuel IH]; intros b L; [lia|]. cbn [non_allocating_loop]. destruct (is_empty b) eqn:Eb.
  { apply is_empty_iff in Eb. subst. left. split; auto. now apply no_trip_none. }
  destruct (find_pct b) as [[-> H]|(a & r & -> & -> & H)]; [left; split; auto; now apply no_trip_none|].
  assert (Sa := fun x => stray_app a x H).
  destruct (hex2_cases r) as [(u & l & r' & -> & Hu & Hl)|Hn].
  - right. exists [], a, u, l, r'. rewrite sx_yes by assumption. cbn [bind app]. repeat split; auto.
    + rewrite pd_direct by exact H. now rewrite pd_trip.
    + intros X. apply (proj2 (Sa _)). now apply hs_trip.
    + intros _ X. apply (proj1 (Sa _)) in X. exact (stray_trip u l _ Hu Hl X).
  - rewrite sx_no by assumption. cbn [bind]. destruct (IH r) as [[X1 X2]|(p & a' & u & l & r' & E1 & Hu & Hl & Ha & E2 & E3 & E4 & E5 & E6)].
    + rewrite app_length in L. cbn [length] in L. lia.
    + left. split; auto. rewrite trip_app by assumption. now rewrite trip_stray.
    + right. exists (a ++ 37 :: p), a', u, l, r'. rewrite E6. split; [rewrite E1, <- app_assoc; reflexivity|]. split; auto. split; auto. split; auto.
      split; [rewrite pd_direct by assumption; rewrite pd_stray by assumption; rewrite E2; now rewrite <- app_assoc|].
      split; [right; apply Sa; now apply hs_here|]. split; [intros _; apply Sa; now apply hs_here|]. split; [|reflexivity].
      intros X. destruct a; discriminate.
Qed.
Lemma to_bytes_ok b : (~ has_triplet b -> to_bytes b = Ok (Some b) /\ percent_decode b = b) /\ (has_triplet b -> to_bytes b = Ok None).
Proof.
  unfold to_bytes, try_non_allocating_decode. destruct (non_alloc (1 + length b) b) as [[H ->]|(p & a & u & l & r & E & Hu & Hl & Ha & _ & _ & _ & _ & ->)]; [lia| |]; cbn [bind].
  - split; [|easy]. intros _. split; auto. clear - H. induction b as [|x b IH]; auto.
    assert (H' : ~ has_triplet b) by (intros X; apply H; now apply ht_later). destruct (N.eqb_spec x 37) as [->|Hx]; [|rewrite pd_raw by exact Hx; f_equal; now apply IH].
    rewrite pd_stray; [f_equal; now apply IH|]. intros u l r ->. destruct (HEXDIG u && HEXDIG l) eqn:E; auto. bdestr. exfalso. apply H. now apply ht_here.
  - split; [|easy]. intros X. exfalso. apply X. rewrite E. clear - Hu Hl. induction p as [|x p IH]; cbn [app]; [|now apply ht_later]. induction a as [|x a IH]; cbn [app]; [|now apply ht_later].
    now apply ht_here.
Qed.
(** The loop of [into_bytes] drops every stray "%". *)
Lemma into_loop fuel : forall acc b, (length b < fuel)%nat -> exists out, into_bytes_loop fuel acc b = Ok (acc ++ out) /\
  (length out <= length (percent_decode b))%nat /\ (~ has_stray b -> out = percent_decode b) /\ (has_stray b -> (length out < length (percent_decode b))%nat).
Proof.
  induction fuel as [|fuel IH]; intros acc b L; [lia|]. cbn [into_bytes_loop]. destruct (is_empty b) eqn:Eb.
  { apply is_empty_iff in Eb. subst. exists []. rewrite app_nil_r. repeat split; auto. intros X. inversion X. }
  destruct (find_pct b) as [[-> H]|(a & r & -> & -> & H)].
  - assert (P : percent_decode b = b). { rewrite <- (app_nil_r b) at 1. rewrite pd_direct by exact H. cbn [percent_decode]. apply app_nil_r. }
    exists b. rewrite P. repeat split; auto.
    intros X. exfalso. clear - X H. revert H. induction b as [|x b IH]; [inversion X|]. rewrite none_cons. intros H. bdestr. inversion X; subst; auto; discriminate.
  - assert (Sa := fun x => stray_app a x H).
    rewrite app_length in L. cbn [length] in L. destruct (hex2_cases r) as [(u & l & r' & -> & Hu & Hl)|Hn].
    + rewrite sx_yes by assumption. cbn [bind]. destruct (IH (acc ++ a ++ [bval u l]) r') as (out & E1 & E2 & E3 & E4); [cbn [length] in L; lia|].
      exists (a ++ bval u l :: out). rewrite E1. split; [f_equal; rewrite <- !app_assoc; reflexivity|]. rewrite pd_direct by exact H. rewrite pd_trip by assumption. rewrite !app_length. cbn [length].
      split; [lia|]. split; [intros X; rewrite E3; auto; intros Y; apply X, Sa; now apply hs_trip|]. intros X. apply (proj1 (Sa _)) in X.
      apply stray_trip in X; auto. specialize (E4 X). lia.
    + rewrite sx_no by assumption. cbn [bind]. destruct (IH (acc ++ a ++ []) r) as (out & E1 & E2 & E3 & E4); [lia|]. exists (a ++ out). rewrite E1. split; [f_equal; rewrite <- !app_assoc; reflexivity|].
      rewrite pd_direct by exact H. rewrite pd_stray by assumption. rewrite !app_length. cbn [length]. split; [lia|]. split; [|intros _; lia].
      intros X. exfalso. apply X, Sa. now apply hs_here.
Qed.
Lemma into_bytes_exact b : exists out, into_bytes b = Ok out /\ (out = percent_decode b <-> ~ has_triplet b \/ ~ has_stray b).
Proof.
  unfold into_bytes, try_non_allocating_decode. destruct (to_bytes_ok b) as [T1 T2].
  destruct (non_alloc (1 + length b) b) as [[H ->]|(p & a & u & l & r & E & Hu & Hl & Ha & E2 & E3 & E4 & E5 & ->)]; [lia| |]; cbn [bind].
  - exists b. split; auto. destruct (T1 H) as [_ X]. rewrite X. tauto.
  - assert (Ht : has_triplet b). { rewrite E. clear - Hu Hl. induction p as [|x p IH]; cbn [app]; [|now apply ht_later]. induction a as [|x a IH]; cbn [app]; [|now apply ht_later]. now apply ht_here. }
    unfold slice_p, slice. replace (Nat.leb 0 (length a) && Nat.leb (length a) (length b))%bool with true by (symmetry; apply andb_true_intro; split; apply Nat.leb_le; [lia|rewrite E, !app_length; lia]).
    cbn [skipn bind]. rewrite Nat.sub_0_r. destruct (into_loop (1 + length r) (firstn (length a) b ++ [bval u l]) r) as (out & O1 & O2 & O3 & O4); [lia|].
    eexists. split; [exact O1|]. rewrite E2. destruct p as [|x p].
    + cbn [app]. rewrite E at 1. cbn [app]. rewrite firstn_app, Nat.sub_diag, firstn_all. cbn [firstn]. rewrite app_nil_r, <- app_assoc. cbn [app]. split.
      * intros X. right. intros Y.  specialize (O4 (E5 eq_refl Y)). apply app_inv_head in X. injection X as ->. clear - O4. lia.
      * intros [X|X]; [contradiction|]. rewrite O3; auto. 
    + destruct E3 as [E3|E3]; [discriminate|]. split; [|intros [X|X]; contradiction]. intros X. exfalso. apply (f_equal (@length N)) in X. revert X.
      rewrite !app_length, firstn_length. cbn [length]. rewrite E, !app_length. cbn [length]. lia.
Qed.
Lemma into_bytes_ok b : ~ has_triplet b \/ ~ has_stray b -> into_bytes b = Ok (percent_decode b).
Proof. destruct (into_bytes_exact b) as (out & E & H). intros X. rewrite E. f_equal. now apply H. Qed.

(** ** UTF-8 decoding *)
Lemma candidate_ok c r : is_scalar c = true -> utf8_candidate (utf8 c ++ r) = c.
Proof.
  intros H. destruct (utf8_cases c H) as [(Hc&X)|[(a&b&X&?)|[(a&b&d&X&?)|(a&b&d&e&X&?)]]]; rewrite X; cbn [app].
  - destruct r as [|? [|? [|? ?]]]; cbn [utf8_candidate]; auto; apply N.ltb_lt in Hc; now rewrite Hc.
  - assert (H1 : (a <? 128) = false) by lia. assert (H2 : (a <? 224) = true) by lia. destruct r as [|? [|? ?]]; cbn [utf8_candidate]; rewrite H1, ?H2; lia.
  - assert (H1 : (a <? 128) = false) by lia. assert (H2 : (a <? 224) = false) by lia. assert (H3 : (a <? 240) = true) by lia. destruct r as [|? ?]; cbn [utf8_candidate]; rewrite H1, H2, ?H3; lia.
  - assert (H1 : (a <? 128) = false) by lia. assert (H2 : (a <? 224) = false) by lia. assert (H3 : (a <? 240) = false) by lia. cbn [utf8_candidate]. rewrite H1, H2, H3. lia.
Qed.
Lemma utf8_nonempty c : utf8 c <> [].
Proof. unfold utf8. repeat destruct (_ <? _); discriminate. Qed.
Lemma from_loop fuel : forall b s, (length b < fuel)%nat -> (from_utf8_loop fuel b = Some s <-> all_scalar s = true /\ b = utf8s s).
Proof.
  induction fuel as [|fuel IH]; intros b s L; [lia|]. cbn [from_utf8_loop]. destruct b as [|x b].
  { split.
    - intros X. injection X as <-. now split.
    - intros [_ X]. destruct s as [|c s]; [reflexivity|]. cbn [utf8s flat_map] in X. symmetry in X. apply app_eq_nil in X. destruct X as [X _]. now apply utf8_nonempty in X. }
  split.
  - destruct (is_scalar _) eqn:E; [|discriminate]. destruct (strip_prefix _ _) as [r|] eqn:P; [|discriminate]. apply strip_prefix_some in P.
    destruct (from_utf8_loop fuel r) as [s'|] eqn:F; [|discriminate]. intros X. injection X as <-. apply IH in F.
    + destruct F as [F1 F2]. split; [|cbn [utf8s flat_map]; rewrite P at 1; now rewrite F2]. apply andb_true_intro. now split.
    + apply (f_equal (@length N)) in P. rewrite app_length in P. assert (length (utf8 (utf8_candidate (x :: b))) <> 0)%nat; [|lia]. intros Z. apply length_zero_iff_nil in Z. now apply utf8_nonempty in Z.
  - intros [Hs X]. destruct s as [|c s]; [discriminate|]. cbn [utf8s flat_map] in X. change (flat_map utf8 s) with (utf8s s) in X. cbn [all_scalar forallb] in Hs. bdestr.
    assert (C : utf8_candidate (x :: b) = c) by (rewrite X; apply candidate_ok; assumption). rewrite C.
    assert (Sc : is_scalar c = true) by assumption. rewrite Sc, X. rewrite (proj2 (strip_prefix_some (utf8 c) _ (utf8s s)) eq_refl).
    assert (F : from_utf8_loop fuel (utf8s s) = Some s); [|now rewrite F]. apply IH; [|now split].
    apply (f_equal (@length N)) in X. rewrite app_length in X. assert (length (utf8 c) <> 0)%nat; [|cbn [length] in *; lia]. intros Z. apply length_zero_iff_nil in Z. now apply utf8_nonempty in Z.
Qed.
Lemma from_utf8_ok b s : from_utf8 b = Some s <-> all_scalar s = true /\ b = utf8s s.
Proof. apply from_loop. lia. Qed.
Lemma into_string_ok b out : into_bytes b = Ok out ->
  (forall s, into_string b = Ok (Some s) <-> all_scalar s = true /\ out = utf8s s) /\
  (into_string b = Ok None <-> ~ exists s, all_scalar s = true /\ out = utf8s s).
Proof.
  intros E. unfold into_string. rewrite E. cbn [bind]. split.
  - intros s. rewrite <- from_utf8_ok. split; [intros X; now injection X|now intros ->].
  - split.
    + intros X (s & Y). apply from_utf8_ok in Y. rewrite Y in X. discriminate.
    + intros X. destruct (from_utf8 out) as [s|] eqn:F; [|reflexivity]. exfalso. apply X. exists s. now apply from_utf8_ok.
Qed.
