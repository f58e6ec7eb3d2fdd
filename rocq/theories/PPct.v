(** * Percent-encoding normalization (proofs only). *)
From Verif Require Import Base Chars Rfc3986 Utf8 PctSpec MValidate MTrusted MFormat MPct PBase PScan PPath2.

(** ** Bit arithmetic. *)
Lemma lor_shift y k x : x < 2 ^ k -> N.lor (N.shiftl y k) x = y * 2 ^ k + x.
Proof.
  intros H. rewrite <- N.shiftl_mul_pow2. assert (Z : N.land (N.shiftl y k) x = 0); [|rewrite <- N.lxor_lor by exact Z; symmetry; now apply N.add_nocarry_lxor].
  apply N.bits_inj. intros i. rewrite N.land_spec, N.bits_0. destruct (N.lt_ge_cases i k) as [L|L].
  - now rewrite N.shiftl_spec_low.
  - rewrite andb_comm. destruct (N.eq_dec x 0) as [->|Hx]; [now rewrite N.bits_0|]. rewrite (N.bits_above_log2 x i); [easy|]. apply N.log2_lt_pow2 in H; lia.
Qed.
Lemma land_mod a k : N.land a (2 ^ k - 1) = a mod 2 ^ k.
Proof. replace (2 ^ k - 1) with (N.ones k) by (unfold N.ones; rewrite N.shiftl_1_l; lia). apply N.land_ones. Qed.

(** ** Hex digits. *)
Lemma hexdig_eq c : HEXDIG c = is_hexdigit c. Proof. reflexivity. Qed.
Definition hexchars : list N := lit "0123456789ABCDEFabcdef".
Lemma hex_in c : is_hexdigit c = true -> In c hexchars.
Proof.
  intros H. assert (A : is_ascii c = true) by (unfold is_hexdigit, is_digit, between in H; unfold is_ascii; lia).
  revert c A H. assert (X : forall c, is_ascii c = true -> is_hexdigit c = true -> existsb (N.eqb c) hexchars = true).
  { apply sweep_impl. vm_compute. reflexivity. }
  intros c A H. specialize (X c A H). apply existsb_exists in X. destruct X as (x & Hx & E). apply N.eqb_eq in E. now subst.
Qed.
Lemma hex_pair (P : N -> N -> bool) : forallb (fun u => forallb (P u) hexchars) hexchars = true ->
  forall u l, is_hexdigit u = true -> is_hexdigit l = true -> P u l = true.
Proof.
  intros H u l Hu Hl. rewrite forallb_forall in H. specialize (H u (hex_in u Hu)). rewrite forallb_forall in H. apply H, hex_in, Hl.
Qed.
Definition bval (u l : N) : N := 16 * hex_value u + hex_value l.
Lemma h2b u l : is_hexdigit u = true -> is_hexdigit l = true -> hexdigits_to_byte u l = Ok (bval u l).
Proof.
  intros Hu Hl. apply (hex_pair (fun u l => match hexdigits_to_byte u l with Ok v => v =? bval u l | _ => false end)) with (u := u) (l := l) in Hu; [|vm_compute; reflexivity|exact Hl].
  destruct (hexdigits_to_byte u l); try discriminate. apply N.eqb_eq in Hu. now subst.
Qed.
Lemma pct_upper_bval u l : is_hexdigit u = true -> is_hexdigit l = true -> pct_upper (bval u l) = [37; upper_hex u; upper_hex l].
Proof.
  intros Hu Hl. apply (hex_pair (fun u l => seqb (pct_upper (bval u l)) [37; upper_hex u; upper_hex l])) with (u := u) (l := l) in Hu; [|vm_compute; reflexivity|exact Hl].
  now apply seqb_eq in Hu.
Qed.
Lemma upper_hex_ok u : is_hexdigit u = true -> is_hexdigit (upper_hex u) = true /\ hex_value (upper_hex u) = hex_value u /\ upper_hex (upper_hex u) = upper_hex u.
Proof.
  intros Hu. assert (X : forall u l, is_hexdigit u = true -> is_hexdigit l = true -> is_hexdigit (upper_hex u) && (hex_value (upper_hex u) =? hex_value u) && (upper_hex (upper_hex u) =? upper_hex u) = true).
  { apply hex_pair. vm_compute. reflexivity. }
  specialize (X u 48 Hu eq_refl). bdestr. apply N.eqb_eq in H0, H1. auto.
Qed.
Lemma hex_ascii u : is_hexdigit u = true -> is_ascii u = true.
Proof. unfold is_hexdigit, is_digit, between, is_ascii. lia. Qed.
Lemma take_x u l r : is_hexdigit u = true -> is_hexdigit l = true -> take_xdigits2 (u :: l :: r) = Ok (bval u l, r).
Proof. intros Hu Hl. cbn [take_xdigits2]. rewrite !hex_ascii by assumption. cbn [andb]. now rewrite h2b. Qed.

(** ** Well-formedness. *)
Definition pwf_scan (s : str) : Prop := scan (fun _ => true) s = true.
Lemma pct_wf_scan s : pct_wf s <-> scan (fun _ => true) s = true.
Proof.
  split.
  - induction 1; auto.
    + now rewrite scan_cons.
    + rewrite scan_pct. rewrite hexdig_eq in *. now rewrite H, H0.
  - revert s. apply (scan_ind (fun s => scan (fun _ => true) s = true -> pct_wf s)).
    + constructor.
    + intros c r Hc IH H. rewrite scan_cons in H by exact Hc. apply wf_raw; [exact Hc|auto].
    + intros u l r IH H. rewrite scan_pct in H. bdestr. apply wf_trip; auto.
    + intros H. now rewrite scan_pct0 in H.
    + intros u H. now rewrite scan_pct1 in H.
Qed.

Lemma wf_pct_inv r : pct_wf (37 :: r) -> exists u l r', r = u :: l :: r' /\ is_hexdigit u = true /\ is_hexdigit l = true /\ pct_wf r'.
Proof. intros H. inversion H; subst; [congruence|]. eauto 10. Qed.
Lemma wf_raw_inv c r : c <> 37 -> pct_wf (c :: r) -> pct_wf r.
Proof. intros H X. inversion X; subst; [auto|congruence]. Qed.
Lemma wf_prefix a b : none (N.eqb 37) a = true -> pct_wf (a ++ b) -> pct_wf b.
Proof.
  induction a as [|c a IH]; cbn [app]; auto. rewrite none_cons. intros H W. bdestr. apply IH; auto. eapply wf_raw_inv; eauto.
  intros ->. discriminate.
Qed.

(** ** UTF-8. *)
Lemma utf8_cases c : is_scalar c = true ->
  (c < 128 /\ utf8 c = [c]) \/
  (exists a b, utf8 c = [a; b] /\ 194 <= a <= 223 /\ 128 <= b <= 191 /\ c = (a - 192) * 64 + (b - 128) /\ 128 <= c < 2048) \/
  (exists a b d, utf8 c = [a; b; d] /\ 224 <= a <= 239 /\ 128 <= b <= 191 /\ 128 <= d <= 191 /\ c = ((a - 224) * 64 + (b - 128)) * 64 + (d - 128) /\ 2048 <= c < 65536) \/
  (exists a b d e, utf8 c = [a; b; d; e] /\ 240 <= a <= 244 /\ 128 <= b <= 191 /\ 128 <= d <= 191 /\ 128 <= e <= 191 /\
     c = (((a - 240) * 64 + (b - 128)) * 64 + (d - 128)) * 64 + (e - 128) /\ 65536 <= c <= 1114111).
Proof.
  intros H. assert (Hm : c <= 1114111) by (unfold is_scalar, between in H; lia). unfold utf8.
  destruct (N.ltb_spec c 128); [left; auto|right].
  destruct (N.ltb_spec c 2048); [left|right].
  { exists (192 + c / 64), (128 + c mod 64). split; auto. 
    assert (c = 64 * (c / 64) + c mod 64) by (apply N.div_mod; lia). assert (c mod 64 < 64) by (apply N.mod_lt; lia). 
    assert (c / 64 < 32) by (apply N.div_lt_upper_bound; lia). assert (2 <= c / 64) by (apply N.div_le_lower_bound; lia). lia. }
  assert (E1 : c = 64 * (c / 64) + c mod 64) by (apply N.div_mod; lia). assert (M1 : c mod 64 < 64) by (apply N.mod_lt; lia).
  assert (E2 : c / 64 = 64 * (c / 64 / 64) + (c / 64) mod 64) by (apply N.div_mod; lia). assert (M2 : (c / 64) mod 64 < 64) by (apply N.mod_lt; lia).
  assert (D2 : c / 64 / 64 = c / 4096) by (rewrite N.div_div by lia; reflexivity).
  destruct (N.ltb_spec c 65536); [left|right].
  { exists (224 + c / 4096), (128 + (c / 64) mod 64), (128 + c mod 64). split; auto. lia. }
  assert (E3 : c / 4096 = 64 * (c / 4096 / 64) + (c / 4096) mod 64) by (apply N.div_mod; lia). assert (M3 : (c / 4096) mod 64 < 64) by (apply N.mod_lt; lia).
  assert (D3 : c / 4096 / 64 = c / 262144) by (rewrite N.div_div by lia; reflexivity).
  exists (240 + c / 262144), (128 + (c / 4096) mod 64), (128 + (c / 64) mod 64), (128 + c mod 64). split; auto. lia.
Qed.
Lemma mod_64 b : 128 <= b <= 191 -> b mod 64 = b - 128.
Proof. intros H. symmetry. apply N.mod_unique with 2; lia. Qed.
Lemma cont_land b : 128 <= b <= 191 -> N.land b 63 = b - 128.
Proof. intros H. change 63 with (2 ^ 6 - 1). rewrite land_mod. apply mod_64, H. Qed.

Definition contb (b : N) : Prop := 128 <= b <= 191.
Lemma is_cont b : is_utf8_byte_continue b = true <-> contb b.
Proof. unfold is_utf8_byte_continue, between, contb. lia. Qed.

Lemma into_char2 a b : 194 <= a <= 223 -> contb b -> into_char_trusted [a; b] = Ok (Some ((a - 192) * 64 + (b - 128))).
Proof.
  intros Ha Hb. cbn [into_char_trusted]. rewrite cont_land by exact Hb. change 31 with (2 ^ 5 - 1). rewrite land_mod.
  replace (a mod 2 ^ 5) with (a - 192) by (change (2 ^ 5) with 32; apply N.mod_unique with 6; lia).
  rewrite lor_shift by (change (2 ^ 6) with 64; unfold contb in *; lia). change (2 ^ 6) with 64.
  set (c := (a - 192) * 64 + (b - 128)). assert (128 <= c < 2048) by (unfold c, contb in *; lia).
  replace (c <? 128) with false by lia. unfold char_from_u32, is_scalar. now replace (c <? 55296) with true by lia.
Qed.
Lemma into_char3 a b d : 224 <= a <= 239 -> contb b -> contb d ->
  into_char_trusted [a; b; d] = let c := ((a - 224) * 64 + (b - 128)) * 64 + (d - 128) in Ok (if c <? 2048 then None else char_from_u32 c).
Proof.
  intros Ha Hb Hd. cbn [into_char_trusted]. rewrite !cont_land by assumption. change 15 with (2 ^ 4 - 1). rewrite land_mod.
  replace (a mod 2 ^ 4) with (a - 224) by (change (2 ^ 4) with 16; apply N.mod_unique with 14; lia).
  replace (N.lor (N.shiftl (a - 224) 12) (N.shiftl (b - 128) 6)) with (N.shiftl ((a - 224) * 64 + (b - 128)) 6).
  2:{ rewrite lor_shift by (rewrite N.shiftl_mul_pow2; change (2 ^ 6) with 64; change (2 ^ 12) with 4096; unfold contb in *; lia).
      rewrite !N.shiftl_mul_pow2. change (2 ^ 6) with 64. change (2 ^ 12) with 4096. lia. }
  rewrite lor_shift by (change (2 ^ 6) with 64; unfold contb in *; lia). change (2 ^ 6) with 64. reflexivity.
Qed.
Lemma into_char4 a b d e : 240 <= a <= 244 -> contb b -> contb d -> contb e ->
  into_char_trusted [a; b; d; e] = let c := (((a - 240) * 64 + (b - 128)) * 64 + (d - 128)) * 64 + (e - 128) in Ok (if c <? 65536 then None else char_from_u32 c).
Proof.
  intros Ha Hb Hd He. cbn [into_char_trusted]. rewrite !cont_land by assumption. change 7 with (2 ^ 3 - 1). rewrite land_mod.
  replace (a mod 2 ^ 3) with (a - 240) by (change (2 ^ 3) with 8; apply N.mod_unique with 30; lia).
  replace (N.lor (N.shiftl (a - 240) 18) (N.shiftl (b - 128) 12)) with (N.shiftl ((a - 240) * 64 + (b - 128)) 12).
  2:{ rewrite lor_shift by (rewrite N.shiftl_mul_pow2; change (2 ^ 12) with 4096; change (2 ^ 18) with 262144; unfold contb in *; lia).
      rewrite !N.shiftl_mul_pow2. change (2 ^ 18) with 262144. change (2 ^ 12) with 4096. lia. }
  replace (N.lor (N.shiftl ((a - 240) * 64 + (b - 128)) 12) (N.shiftl (d - 128) 6)) with (N.shiftl (((a - 240) * 64 + (b - 128)) * 64 + (d - 128)) 6).
  2:{ rewrite lor_shift by (rewrite N.shiftl_mul_pow2; change (2 ^ 6) with 64; change (2 ^ 12) with 4096; unfold contb in *; lia).
      rewrite !N.shiftl_mul_pow2. change (2 ^ 6) with 64. change (2 ^ 12) with 4096. lia. }
  rewrite lor_shift by (change (2 ^ 6) with 64; unfold contb in *; lia). change (2 ^ 6) with 64. reflexivity.
Qed.

(** A lead byte with the right number of continue bytes: the decoder finds exactly the character these
    bytes encode. *)
Lemma into_char_ok first ks len : expected_len first = Some len -> length ks = (len - 1)%nat -> Forall contb ks ->
  exists oc, into_char_trusted (first :: ks) = Ok oc /\
    (forall c, is_scalar c = true -> (utf8 c = first :: ks <-> oc = Some c)) /\
    (forall c, oc = Some c -> is_scalar c = true).
Proof.
  unfold expected_len. intros He Hl Hk.
  destruct (between 194 223 first) eqn:B1.
  { injection He as <-. destruct ks as [|b [|? ?]]; try discriminate. inversion Hk; subst. assert (194 <= first <= 223) by (unfold between in B1; lia).
    rewrite into_char2 by auto. eexists. split; [reflexivity|]. unfold contb in *. split.
    - intros c Hc. split.
      + intros E. destruct (utf8_cases c Hc) as [(?&X)|[(?&?&X&?)|[(?&?&?&X&?)|(?&?&?&?&X&?)]]]; rewrite X in E; inversion E; subst; try lia. f_equal; lia.
      + intros [= <-]. destruct (utf8_cases _ Hc) as [(?&X)|[(?&?&X&?)|[(?&?&?&X&?)|(?&?&?&?&X&?)]]]; rewrite ?X; try lia.
        f_equal; [|f_equal]; lia.
    - intros c [= <-]. unfold is_scalar. lia. }
  destruct (between 224 239 first) eqn:B2.
  { injection He as <-. destruct ks as [|b [|d [|? ?]]]; try discriminate. inversion Hk as [|? ? K1 K2]; subst. inversion K2; subst. assert (224 <= first <= 239) by (unfold between in B2; lia).
    rewrite into_char3 by auto. cbv zeta. eexists. split; [reflexivity|]. unfold contb in *. set (v := ((first - 224) * 64 + (b - 128)) * 64 + (d - 128)) in *. unfold char_from_u32. split.
    - intros c Hc. split.
      + intros E. destruct (utf8_cases c Hc) as [(?&X)|[(?&?&X&?)|[(?&?&?&X&?&?&?&Y&?)|(?&?&?&?&X&?)]]]; rewrite X in E; try discriminate E; injection E; intros;
          assert (c = v) by (unfold v; lia); replace (v <? 2048) with false by lia; match goal with Q : c = v |- _ => rewrite <- Q, Hc end; reflexivity.
      + destruct (N.ltb_spec v 2048) as [L|L]; [discriminate|]. destruct (is_scalar v) eqn:Sv; [|discriminate]. intros [= <-].
        destruct (utf8_cases _ Hc) as [(?&X)|[(?&?&X&?)|[(?&?&?&X&?)|(?&?&?&?&X&?)]]]; rewrite ?X; try (unfold v in *; lia).
        f_equal; [|f_equal; [|f_equal]]; unfold v in *; lia.
    - intros c. destruct (v <? 2048); [discriminate|]. destruct (is_scalar v) eqn:Sv; [|discriminate]. now intros [= <-]. }
  destruct (between 240 244 first) eqn:B3; [|discriminate].
  { injection He as <-. destruct ks as [|b [|d [|e [|? ?]]]]; try discriminate. inversion Hk as [|? ? K1 K2]; subst. inversion K2 as [|? ? K3 K4]; subst. inversion K4; subst. assert (240 <= first <= 244) by (unfold between in B3; lia).
    rewrite into_char4 by auto. cbv zeta. eexists. split; [reflexivity|]. unfold contb in *. set (v := (((first - 240) * 64 + (b - 128)) * 64 + (d - 128)) * 64 + (e - 128)) in *. unfold char_from_u32. split.
    - intros c Hc. split.
      + intros E. destruct (utf8_cases c Hc) as [(?&X)|[(?&?&X&?)|[(?&?&?&X&?)|(?&?&?&?&X&?&?&?&?&Y&?)]]]; rewrite X in E; try discriminate E; injection E; intros;
          assert (c = v) by (unfold v; lia); replace (v <? 65536) with false by lia; match goal with Q : c = v |- _ => rewrite <- Q, Hc end; reflexivity.
      + destruct (N.ltb_spec v 65536) as [L|L]; [discriminate|]. destruct (is_scalar v) eqn:Sv; [|discriminate]. intros [= <-].
        destruct (utf8_cases _ Hc) as [(?&X)|[(?&?&X&?)|[(?&?&?&X&?)|(?&?&?&?&X&?)]]]; rewrite ?X; try (unfold v in *; lia).
        f_equal; [|f_equal; [|f_equal; [|f_equal]]]; unfold v in *; lia.
    - intros c. destruct (v <? 65536); [discriminate|]. destruct (is_scalar v) eqn:Sv; [|discriminate]. now intros [= <-]. }
Qed.
(** Shape of encodings. *)
Lemma utf8_shape c : is_scalar c = true -> exists first ks, utf8 c = first :: ks /\ Forall contb ks /\
  ((first < 128 /\ ks = [] /\ c = first) \/ expected_len first = Some (S (length ks)) /\ (1 <= length ks)%nat).
Proof.
  intros H. unfold expected_len, contb, between.
  destruct (utf8_cases c H) as [(Hc&X)|[(a&b&X&?)|[(a&b&d&X&?)|(a&b&d&e&X&?)]]].
  - exists c, []. rewrite X. repeat split; auto.
  - exists a, [b]. rewrite X. split; auto. split; [repeat constructor; lia|]. right. replace (_ && _) with true by lia. cbn. auto.
  - exists a, [b; d]. rewrite X. split; auto. split; [repeat constructor; lia|]. right.
    replace ((194 <=? a) && (a <=? 223)) with false by lia. replace ((224 <=? a) && (a <=? 239)) with true by lia. cbn. auto.
  - exists a, [b; d; e]. rewrite X. split; auto. split; [repeat constructor; lia|]. right.
    replace ((194 <=? a) && (a <=? 223)) with false by lia. replace ((224 <=? a) && (a <=? 239)) with false by lia.
    replace ((240 <=? a) && (a <=? 244)) with true by lia. cbn. auto.
Qed.
Lemma unreserved_scalar Sp c : unreserved Sp c = true -> is_scalar c = true.
Proof.
  destruct (is_ascii c) eqn:A; [unfold is_ascii, is_scalar in *; lia|]. rewrite unreserved_nonascii by exact A.
  unfold is_nonascii_char_unreserved. destruct Sp; [discriminate|]. unfold is_ucschar, is_scalar, between. lia.
Qed.
Lemma is_unreserved_spec Sp c : is_unreserved Sp c = unreserved Sp c.
Proof.
  unfold is_unreserved. destruct (is_ascii c) eqn:A.
  - rewrite unreserved_ascii by exact A. revert c A. apply (sweep_eq is_ascii_unreserved uns0). vm_compute. reflexivity.
  - symmetry. now apply unreserved_nonascii.
Qed.
Lemma ascii_unreserved_spec Sp c : c < 128 -> is_ascii_unreserved c = unreserved Sp c.
Proof.
  intros H. rewrite <- is_unreserved_spec. unfold is_unreserved. now replace (is_ascii c) with true by (unfold is_ascii; lia).
Qed.
