(** * Hosts and authorities: validator = RFC grammar (proofs only). *)
From Verif Require Import Base Chars Rfc3986 MValidate PBase PScan.

Lemma eps_catE (B : lang) s : (eps +++ B) s -> B s.
Proof. apply (proj1 (eps_cat _ _)). Qed.

Lemma find_split_hole_some s n a b :
  find_split_hole s n = Some (a, b) <-> s = a ++ n :: b /\ none (N.eqb n) a = true.
Proof.
  unfold find_split_hole. split.
  - destruct (split_first (N.eqb n) s) as [[[a' c] b']|] eqn:E; [|easy]. intros [= -> ->].
    apply split_first_some in E. destruct E as (-> & Ha & Hc). apply N.eqb_eq in Hc. now subst.
  - intros [-> Ha]. rewrite split_first_app; auto. apply N.eqb_refl.
Qed.
Lemma find_split_hole_none s n : find_split_hole s n = None <-> none (N.eqb n) s = true.
Proof.
  unfold find_split_hole. split.
  - destruct (split_first (N.eqb n) s) as [[[a' c] b']|] eqn:E; [easy|]. intros _.
    now apply split_first_none.
  - intros H. now rewrite split_first_none_app.
Qed.
Lemma rfind_split_hole_some s n a b :
  rfind_split_hole s n = Some (a, b) <-> s = a ++ n :: b /\ none (N.eqb n) b = true.
Proof.
  unfold rfind_split_hole. split.
  - destruct (split_last (N.eqb n) s) as [[[a' c] b']|] eqn:E; [|easy]. intros [= -> ->].
    apply split_last_some in E. destruct E as (-> & Ha & Hc). apply N.eqb_eq in Hc. now subst.
  - intros [-> Ha]. rewrite split_last_app; auto. apply N.eqb_refl.
Qed.
Lemma rfind_split_hole_none s n : rfind_split_hole s n = None <-> none (N.eqb n) s = true.
Proof.
  unfold rfind_split_hole. split.
  - destruct (split_last (N.eqb n) s) as [[[a' c] b']|] eqn:E; [easy|]. intros _.
    now apply split_last_none.
  - intros H. now rewrite split_last_none_app.
Qed.

Lemma forallb_none (f p : N -> bool) s :
  (forall c, f c = true -> p c = false) -> forallb f s = true -> none p s = true.
Proof.
  intros H Hs. unfold none. eapply forallb_impl; [|exact Hs]. intros x Hx. now rewrite H.
Qed.

(** ** dec-octet and IPv4address *)
Lemma is_dec_octet_iff s : is_dec_octet s = true <-> dec_octet s.
Proof.
  unfold dec_octet, alt. rewrite !tok_cat, !cls_cat. unfold cls. split.
  - destruct s as [|a [|b [|c [|d s]]]]; cbn; try discriminate.
    + intros H. left. eauto.
    + intros H. bdestr. right; left. exists a, [b]. eauto 6.
    + intros H. apply orb_prop in H. destruct H as [H|H]; [apply orb_prop in H; destruct H as [H|H]|];
        bdestr; repeat match goal with H : (_ =? _) = true |- _ => apply N.eqb_eq in H; subst end.
      * right; right; left. exists [b; c]. split; [reflexivity|]. apply cls_cat. exists b, [c].
        unfold cls. eauto 6.
      * right; right; right; left. exists [b; c]. split; [reflexivity|]. apply cls_cat. exists b, [c].
        unfold cls. eauto 6.
      * right; right; right; right. exists [c]. split; [reflexivity|]. eauto.
  - intros [(c & -> & Hc)|[(c & b & -> & Hc & (d & -> & Hd))|[(b & -> & Hb)|[(b & -> & Hb)|(b & -> & Hb)]]]].
    + exact Hc.
    + cbn. now rewrite Hc.
    + apply cls_cat in Hb. destruct Hb as (x & y & -> & Hx & (z & -> & Hz)). unfold DIGIT in *. cbn.
      now rewrite Hx, Hz.
    + apply cls_cat in Hb. destruct Hb as (x & y & -> & Hx & (z & -> & Hz)). unfold DIGIT in *. cbn.
      now rewrite Hx, Hz.
    + destruct Hb as (z & -> & Hz). cbn. now rewrite Hz.
Qed.

Lemma dec_octet_digits s : is_dec_octet s = true -> forallb is_digit s = true /\ (1 <= length s <= 3)%nat.
Proof.
  unfold is_digit. destruct s as [|a [|b [|c [|d s]]]]; cbn; try discriminate; intros H; split; try lia;
    unfold between in *; lia.
Qed.

Lemma digits_blen s : forallb is_digit s = true -> blen s = length s.
Proof.
  induction s as [|c r IH]; cbn; intros H; [easy|]. bdestr. rewrite IH by assumption.
  unfold clen. assert (c <? 128 = true) as -> by (unfold is_digit, between in *; lia). reflexivity.
Qed.
Lemma blen_app a b : blen (a ++ b) = (blen a + blen b)%nat.
Proof. induction a as [|c a IH]; cbn; [easy|]. rewrite IH. lia. Qed.

Definition v4_shape (i : str) : Prop := exists a b c d,
  i = a ++ DOT :: b ++ DOT :: c ++ DOT :: d /\
  is_dec_octet a = true /\ is_dec_octet b = true /\ is_dec_octet c = true /\ is_dec_octet d = true.

Lemma IPv4_shape i : IPv4address i <-> v4_shape i.
Proof.
  unfold IPv4address, v4_shape. split.
  - intros (a & r & -> & Ha & Hr). apply tok_cat in Hr. destruct Hr as (r1 & -> & Hr).
    destruct Hr as (b & r & -> & Hb & Hr). apply tok_cat in Hr. destruct Hr as (r2 & -> & Hr).
    destruct Hr as (c & r & -> & Hc & Hr). apply tok_cat in Hr. destruct Hr as (d & -> & Hd).
    apply is_dec_octet_iff in Ha, Hb, Hc, Hd. exists a, b, c, d. auto.
  - intros (a & b & c & d & -> & Ha & Hb & Hc & Hd). apply is_dec_octet_iff in Ha, Hb, Hc, Hd.
    apply cat_intro; auto. apply tok_cat. eexists; split; [reflexivity|].
    apply cat_intro; auto. apply tok_cat. eexists; split; [reflexivity|].
    apply cat_intro; auto. apply tok_cat. eexists; split; [reflexivity|]. auto.
Qed.

Lemma octet_no_dot a : is_dec_octet a = true -> none (N.eqb DOT) a = true.
Proof.
  intros H. apply dec_octet_digits in H. destruct H as [H _]. eapply forallb_none; [|exact H].
  intros c Hc. unfold is_digit, between, DOT in *. lia.
Qed.

Lemma validate_ipv4_iff i : validate_ipv4address i = Ok tt <-> IPv4address i.
Proof.
  rewrite IPv4_shape. unfold validate_ipv4address, v4_shape. split.
  - destruct (find_split_hole i DOT) as [[a r]|] eqn:E1; [|easy]. apply find_split_hole_some in E1.
    destruct E1 as [-> _]. destruct (is_dec_octet a) eqn:Ha; [|easy]. cbn.
    destruct (find_split_hole r DOT) as [[b r']|] eqn:E2; [|easy]. apply find_split_hole_some in E2.
    destruct E2 as [-> _]. destruct (is_dec_octet b) eqn:Hb; [|easy]. cbn.
    destruct (find_split_hole r' DOT) as [[c d]|] eqn:E3; [|easy]. apply find_split_hole_some in E3.
    destruct E3 as [-> _]. destruct (is_dec_octet c) eqn:Hc; [|easy]. cbn.
    destruct (is_dec_octet d) eqn:Hd; [|easy]. intros _. exists a, b, c, d. auto.
  - intros (a & b & c & d & -> & Ha & Hb & Hc & Hd).
    rewrite (proj2 (find_split_hole_some _ DOT a _)) by (split; [reflexivity | now apply octet_no_dot]).
    rewrite Ha. cbn [negb].
    rewrite (proj2 (find_split_hole_some _ DOT b _)) by (split; [reflexivity | now apply octet_no_dot]).
    rewrite Hb. cbn [negb].
    rewrite (proj2 (find_split_hole_some _ DOT c _)) by (split; [reflexivity | now apply octet_no_dot]).
    rewrite Hc, Hd. reflexivity.
Qed.

Lemma validate_ipv4_np i : validate_ipv4address i <> Panic.
Proof.
  unfold validate_ipv4address.
  repeat match goal with |- context [match ?x with _ => _ end] => destruct x as [[? ?]|] || destruct x end;
    discriminate.
Qed.

Definition v4c (c : N) : bool := is_digit c || (c =? DOT).
Lemma IPv4_chars i : IPv4address i -> forallb v4c i = true /\ (7 <= length i <= 15)%nat.
Proof.
  intros H. apply IPv4_shape in H. destruct H as (a & b & c & d & -> & Ha & Hb & Hc & Hd).
  apply dec_octet_digits in Ha, Hb, Hc, Hd.
  destruct Ha as [Ha La], Hb as [Hb Lb], Hc as [Hc Lc], Hd as [Hd Ld].
  assert (Hx : forall s, forallb is_digit s = true -> forallb v4c s = true).
  { intros s. apply forallb_impl. unfold v4c. now intros x ->. }
  split.
  - rewrite !forallb_app'. cbn [forallb]. rewrite !forallb_app'. cbn [forallb].
    rewrite !forallb_app'. cbn [forallb]. rewrite !Hx by assumption. reflexivity.
  - rewrite !app_length. cbn [length]. rewrite !app_length. cbn [length]. rewrite !app_length.
    cbn [length]. lia.
Qed.

(** ** IPv6 *)
Lemma h16_iff s : h16 s <-> (1 <= length s <= 4)%nat /\ forallb is_hexdigit s = true.
Proof.
  unfold h16, reps. split.
  - intros (n & Hn & H). apply rep_cls in H. destruct H as [<- H]. auto.
  - intros [Hn H]. exists (length s). split; [auto|]. apply rep_cls. auto.
Qed.

Lemma hex_blen s : forallb is_hexdigit s = true -> blen s = length s.
Proof.
  induction s as [|c r IH]; cbn; intros H; [easy|]. bdestr. rewrite IH by assumption.
  unfold clen. assert (c <? 128 = true) as -> by (unfold is_hexdigit, is_digit, between in *; lia).
  reflexivity.
Qed.
Lemma len_blen s : (length s <= blen s)%nat.
Proof.
  induction s as [|c r IH]; cbn; [lia|]. unfold clen.
  destruct (c <? 128), (c <? 2048), (c <? 65536); lia.
Qed.

Lemma hex_no_colon s : forallb is_hexdigit s = true -> none (N.eqb COLON) s = true.
Proof.
  apply forallb_none. intros c Hc. unfold is_hexdigit, is_digit, between, COLON in *. lia.
Qed.
Lemma v4_no_colon s : IPv4address s -> none (N.eqb COLON) s = true.
Proof.
  intros H. apply IPv4_chars in H. destruct H as [H _]. revert H.
  apply forallb_none. intros c Hc. unfold v4c, is_digit, between, DOT, COLON in *. lia.
Qed.

(** Tail after "::" (or the whole address without "::"), worth [m] 16-bit pieces. *)
Inductive tail : nat -> str -> Prop :=
| tail_nil : tail 0 []
| tail_h16 a : h16 a -> tail 1 a
| tail_v4 a : IPv4address a -> tail 2 a
| tail_cons m a b : h16 a -> b <> [] -> tail m b -> tail (S m) (a ++ COLON :: b).

(** Prefix before "::", worth [p] pieces. *)
Inductive pre : nat -> str -> Prop :=
| pre_one a : h16 a -> pre 1 a
| pre_cons p a b : h16 a -> pre p b -> pre (S p) (a ++ COLON :: b).

Lemma h16_ne a : h16 a -> a <> [].
Proof. intros H. apply h16_iff in H. destruct a; [cbn in H; lia | discriminate]. Qed.

Lemma pre_ne p a : pre p a -> a <> [].
Proof. intros H; inversion H; subst; [now apply h16_ne | now destruct a0]. Qed.

Lemma split_v6_sound i rest part : i <> [] ->
  split_v6_addr_part i = Ok (rest, part) ->
  match part with
  | H16Omit => exists a, h16 a /\ i = a ++ COLON :: COLON :: rest
  | H16Cont => exists a, h16 a /\ i = a ++ COLON :: rest /\ (forall r, rest <> COLON :: r)
  | H16End => h16 i
  | V4 => IPv4address i
  | Omit => i = COLON :: COLON :: rest
  end.
Proof.
  intros Hi. unfold split_v6_addr_part.
  destruct (find_split_hole i COLON) as [[a r]|] eqn:E.
  - apply find_split_hole_some in E. destruct E as [-> Ha].
    destruct (Nat.leb_spec 5 (blen a)); [easy|].
    destruct (is_empty a) eqn:Ea.
    + apply is_empty_iff in Ea. subst a. destruct r as [|c r]; cbn; [easy|].
      destruct (N.eqb_spec c COLON); [|easy]. intros [= <- <-]. now subst.
    + apply is_empty_false in Ea. destruct (forallb is_hexdigit a) eqn:Hh; [|easy]. cbn [negb].
      assert (H16 : h16 a).
      { apply h16_iff. split; auto. rewrite (hex_blen _ Hh) in *. destruct a; [easy|]. cbn [length] in *. lia. }
      destruct r as [|c r]; cbn.
      * intros [= <- <-]. exists a. repeat split; auto. discriminate.
      * destruct (N.eqb_spec c COLON) as [->|Hc]; intros [= <- <-].
        -- exists a; auto.
        -- exists a; repeat split; auto. intros r' [= Hr _]. congruence.
  - destruct (Nat.leb_spec 5 (blen i)).
    + destruct (validate_ipv4address i) as [[]| |] eqn:Ev; cbn; try easy. intros [= <- <-].
      now apply validate_ipv4_iff.
    + destruct (forallb is_hexdigit i) eqn:Hh; [|easy]. intros [= <- <-].
      apply h16_iff. split; auto. rewrite (hex_blen _ Hh) in *. destruct i; [easy|]. cbn [length] in *. lia.
Qed.

Lemma split_v6_np i : split_v6_addr_part i <> Panic.
Proof.
  unfold split_v6_addr_part. destruct (find_split_hole i COLON) as [[a r]|].
  - destruct (Nat.leb 5 (blen a)), (is_empty a), (negb (forallb is_hexdigit a)),
      (strip_ascii_char_prefix r COLON); discriminate.
  - destruct (Nat.leb 5 (blen i)).
    + destruct (validate_ipv4address i) eqn:E; cbn; try discriminate. now apply validate_ipv4_np in E.
    + destruct (forallb is_hexdigit i); discriminate.
Qed.

Lemma split_v6_h16 a r : h16 a ->
  split_v6_addr_part (a ++ COLON :: r) =
  match strip_ascii_char_prefix r COLON with
  | Some r' => Ok (r', H16Omit) | None => Ok (r, H16Cont) end.
Proof.
  intros H. assert (Hne := h16_ne _ H). apply h16_iff in H. destruct H as [Hl Hh].
  unfold split_v6_addr_part.
  rewrite (proj2 (find_split_hole_some _ COLON a r)) by (split; [reflexivity | now apply hex_no_colon]).
  rewrite hex_blen by assumption. destruct (Nat.leb_spec 5 (length a)); [lia|].
  destruct (is_empty a) eqn:E; [apply is_empty_iff in E; easy|]. now rewrite Hh.
Qed.
Lemma split_v6_h16end a : h16 a -> split_v6_addr_part a = Ok ([], H16End).
Proof.
  intros H. apply h16_iff in H. destruct H as [Hl Hh]. unfold split_v6_addr_part.
  rewrite (proj2 (find_split_hole_none _ COLON)) by (now apply hex_no_colon).
  rewrite hex_blen by assumption. destruct (Nat.leb_spec 5 (length a)); [lia|]. now rewrite Hh.
Qed.
Lemma split_v6_v4 a : IPv4address a -> split_v6_addr_part a = Ok ([], V4).
Proof.
  intros H. assert (Hc := v4_no_colon _ H). assert (Hl := IPv4_chars _ H).
  apply validate_ipv4_iff in H. unfold split_v6_addr_part.
  rewrite (proj2 (find_split_hole_none _ COLON)) by assumption.
  pose proof (len_blen a). destruct (Nat.leb_spec 5 (blen a)); [|lia]. now rewrite H.
Qed.
Lemma split_v6_omit r : split_v6_addr_part (COLON :: COLON :: r) = Ok (r, Omit).
Proof. reflexivity. Qed.

Lemma final_ok n o : v6_final n o = Ok tt <-> (if o then (n < 8)%nat else n = 8%nat).
Proof.
  unfold v6_final. rewrite check_ok. destruct o.
  - apply Nat.ltb_lt.
  - apply Nat.eqb_eq.
Qed.

Lemma tail_first m i c r : tail m i -> i = c :: r -> c <> COLON.
Proof.
  intros H. destruct H as [|a Ha|a Ha|m a b Ha Hb Ht]; intros E; [easy|..].
  - apply h16_iff in Ha. subst a. destruct Ha as [_ Ha]. cbn in Ha. bdestr. intros ->. discriminate.
  - apply v4_no_colon in Ha. subst a. cbn in Ha. intros ->. discriminate.
  - apply h16_iff in Ha. destruct Ha as [Hl Ha]. destruct a as [|x a]; [cbn in Hl; lia|].
    cbn in E. injection E as -> _. cbn in Ha. bdestr. intros ->. discriminate.
Qed.
Lemma pre_first p i c r : pre p i -> i = c :: r -> c <> COLON.
Proof.
  intros H. destruct H as [a Ha|m a b Ha Hb]; intros E.
  - apply h16_iff in Ha. subst a. destruct Ha as [_ Ha]. cbn in Ha. bdestr. intros ->. discriminate.
  - apply h16_iff in Ha. destruct Ha as [Hl Ha]. destruct a as [|x a]; [cbn in Hl; lia|].
    cbn in E. injection E as -> _. cbn in Ha. bdestr. intros ->. discriminate.
Qed.

Lemma strip_colon_none r : (forall r', r <> COLON :: r') -> strip_ascii_char_prefix r COLON = None.
Proof.
  destruct r as [|c r]; cbn; [easy|]. intros H. destruct (N.eqb_spec c COLON); [|easy].
  subst. now destruct (H r).
Qed.

Lemma v6_loop_tail fuel i n : (length i < fuel)%nat ->
  (v6_loop fuel i n true = Ok tt <-> exists m, tail m i /\ (n + m < 8)%nat).
Proof.
  revert i n; induction fuel as [|fuel IH]; intros i n Hf; [lia|]. cbn [v6_loop].
  destruct (is_empty i) eqn:Ei.
  { apply is_empty_iff in Ei. subst i. rewrite final_ok. split.
    - intros H. exists 0%nat. split; [constructor|lia].
    - intros (m & Ht & Hm). lia. }
  apply is_empty_false in Ei. split.
  - destruct (split_v6_addr_part i) as [[rest part]| |] eqn:E; cbn [bind]; try easy.
    apply split_v6_sound in E; auto. destruct part; try easy.
    + destruct E as (a & Ha & -> & Hr). destruct (is_empty rest) eqn:Er; [easy|].
      apply is_empty_false in Er.
      destruct (Nat.ltb_spec 8 (n + 1)); [easy|]. rewrite IH.
      * intros (m & Ht & Hm). exists (S m). split; [constructor; auto | lia].
      * rewrite app_length in Hf. cbn in Hf. lia.
    + rewrite final_ok. exists 1%nat. split; [now constructor | lia].
    + rewrite final_ok. exists 2%nat. split; [now constructor | lia].
  - intros (m & Ht & Hm). destruct Ht as [|a Ha|a Ha|m a b Ha Hb Ht]; [easy|..].
    + rewrite split_v6_h16end by assumption. cbn [bind]. apply final_ok. lia.
    + rewrite split_v6_v4 by assumption. cbn [bind]. apply final_ok. lia.
    + rewrite split_v6_h16 by assumption. rewrite strip_colon_none.
      2:{ intros r' ->. eapply tail_first; eauto. }
      cbn [bind]. destruct (is_empty b) eqn:E; [apply is_empty_iff in E; easy|].
      destruct (Nat.ltb_spec 8 (n + 1)); [lia|]. apply IH.
      * rewrite app_length in Hf. cbn in Hf. lia.
      * exists m. split; [auto|lia].
Qed.

Definition v6_desc (n : nat) (i : str) : Prop :=
  (exists m, tail m i /\ (n + m = 8)%nat) \/
  (exists p m a b, i = a ++ COLON :: COLON :: b /\ pre p a /\ tail m b /\ (n + p + m < 8)%nat) \/
  (exists m b, i = COLON :: COLON :: b /\ tail m b /\ (n + m < 8)%nat).

Lemma v6_loop_desc fuel i n : (length i < fuel)%nat -> (n <= 8)%nat ->
  (v6_loop fuel i n false = Ok tt -> v6_desc n i) /\
  (v6_desc n i -> v6_loop fuel i n false = Ok tt).
Proof.
  revert i n; induction fuel as [|fuel IH]; intros i n Hf Hn; [lia|]. cbn [v6_loop].
  destruct (is_empty i) eqn:Ei.
  { apply is_empty_iff in Ei. subst i. rewrite final_ok. split.
    - intros H. left. exists 0%nat. split; [constructor|lia].
    - intros [(m & Ht & Hm)|[(p & m & a & b & E & _)|(m & b & E & _)]].
      + inversion Ht; subst; try lia.
        * apply h16_ne in H; easy.
        * apply IPv4_chars in H. cbn in H. lia.
        * destruct a; discriminate.
      + destruct a; discriminate.
      + discriminate. }
  apply is_empty_false in Ei. split.
  - destruct (split_v6_addr_part i) as [[rest part]| |] eqn:E; cbn [bind]; try easy.
    apply split_v6_sound in E; auto. destruct part.
    + destruct E as (a & Ha & ->). destruct (Nat.ltb_spec 8 (n + 1)); [easy|].
      rewrite v6_loop_tail by (rewrite app_length in Hf; cbn in Hf; lia).
      intros (m & Ht & Hm). right; left. exists 1%nat, m, a, rest. repeat split; auto.
      now constructor.
    + destruct E as (a & Ha & -> & Hr). destruct (is_empty rest) eqn:Er; [easy|].
      apply is_empty_false in Er. destruct (Nat.ltb_spec 8 (n + 1)); [easy|].
      intros Hl. apply IH in Hl; [| rewrite app_length in Hf; cbn in Hf; lia | lia].
      destruct Hl as [(m & Ht & Hm)|[(p & m & x & y & -> & Hx & Hy & Hm)|(m & b & -> & _)]].
      * left. exists (S m). split; [constructor; auto | lia].
      * right; left. exists (S p), m, (a ++ COLON :: x), y. rewrite <- app_assoc. cbn.
        repeat split; auto; [constructor; auto | lia].
      * now destruct (Hr (COLON :: b)).
    + rewrite final_ok. left. exists 1%nat. split; [now constructor | lia].
    + rewrite final_ok. left. exists 2%nat. split; [now constructor | lia].
    + subst i. destruct (Nat.ltb_spec 8 n); [easy|].
      rewrite v6_loop_tail by (cbn in Hf; lia). intros (m & Ht & Hm). right; right. eauto.
  - intros [(m & Ht & Hm)|[(p & m & x & y & -> & Hx & Hy & Hm)|(m & b & -> & Hb & Hm)]].
    + destruct Ht as [|a Ha|a Ha|m a b Ha Hb Ht]; [easy|..].
      * rewrite split_v6_h16end by assumption. cbn [bind]. apply final_ok. lia.
      * rewrite split_v6_v4 by assumption. cbn [bind]. apply final_ok. lia.
      * rewrite split_v6_h16 by assumption. rewrite strip_colon_none.
        2:{ intros r' ->. eapply tail_first; eauto. }
        cbn [bind]. destruct (is_empty b) eqn:E; [apply is_empty_iff in E; easy|].
        destruct (Nat.ltb_spec 8 (n + 1)); [lia|]. apply IH.
        -- rewrite app_length in Hf. cbn in Hf. lia.
        -- lia.
        -- left. exists m. split; [auto|lia].
    + destruct Hx as [a Ha|p a b Ha Hb].
      * rewrite split_v6_h16 by assumption. cbn [strip_ascii_char_prefix]. rewrite N.eqb_refl. cbn [bind].
        destruct (Nat.ltb_spec 8 (n + 1)); [lia|].
        apply v6_loop_tail; [rewrite app_length in Hf; cbn in Hf; lia|].
        exists m. split; [auto|lia].
      * rewrite <- app_assoc. cbn [app]. rewrite split_v6_h16 by assumption.
        assert (Hbne := pre_ne _ _ Hb).
        rewrite strip_colon_none.
        2:{ intros r' E. destruct b as [|c b]; [easy|]. cbn in E. injection E as -> _.
            eapply pre_first; eauto. }
        cbn [bind]. destruct (is_empty (b ++ COLON :: COLON :: y)) eqn:E; [apply is_empty_iff in E; now destruct b|].
        destruct (Nat.ltb_spec 8 (n + 1)); [lia|]. apply IH.
        -- clear -Hf. rewrite !app_length in *. cbn [length] in *. lia.
        -- lia.
        -- right; left. exists p, m, b, y. repeat split; auto. lia.
    + rewrite split_v6_omit. cbn [bind]. destruct (Nat.ltb_spec 8 n); [lia|].
      apply v6_loop_tail; [cbn in Hf; lia|]. eauto.
Qed.

Lemma v6_loop_np fuel i n o : (length i < fuel)%nat -> v6_loop fuel i n o <> Panic.
Proof.
  revert i n o; induction fuel as [|fuel IH]; intros i n o Hf; [lia|]. cbn [v6_loop].
  destruct (is_empty i) eqn:Ei; [apply check_np|]. apply is_empty_false in Ei.
  destruct (split_v6_addr_part i) as [[rest part]| |] eqn:E; cbn [bind].
  - apply split_v6_sound in E; auto.
    destruct part; try apply check_np.
    + destruct E as (a & Ha & ->). rewrite app_length in Hf. cbn in Hf.
      destruct o; [discriminate|]. destruct (Nat.ltb 8 (n + 1)); [discriminate|]. apply IH. lia.
    + destruct E as (a & Ha & -> & _). rewrite app_length in Hf. cbn in Hf.
      destruct (is_empty rest); [discriminate|].
      destruct (Nat.ltb 8 (n + 1)); [discriminate|]. apply IH. lia.
    + subst i. cbn in Hf. destruct o; [discriminate|].
      destruct (Nat.ltb 8 n); [discriminate|]. apply IH. lia.
  - discriminate.
  - now apply split_v6_np in E.
Qed.

(** Relating [tail] and [pre] to the RFC combinators. *)
Lemma h16c_app a : h16 a -> h16c (a ++ [COLON]).
Proof. intros H. apply cat_intro; [auto | reflexivity]. Qed.
Lemma h16c_inv s : h16c s -> exists a, h16 a /\ s = a ++ [COLON].
Proof. intros (a & b & -> & Ha & ->). eauto. Qed.

Lemma rep_h16c_cons k (B : lang) s :
  (rep (S k) h16c +++ B) s <-> exists a r, s = a ++ COLON :: r /\ h16 a /\ (rep k h16c +++ B) r.
Proof.
  cbn [rep]. rewrite cat_assoc. split.
  - intros (x & r & -> & Hx & Hr). apply h16c_inv in Hx. destruct Hx as (a & Ha & ->).
    exists a, r. rewrite <- app_assoc. auto.
  - intros (a & r & -> & Ha & Hr). exists (a ++ [COLON]), r. rewrite <- app_assoc.
    repeat split; auto. now apply h16c_app.
Qed.

Lemma ls32_ne s : ls32 s -> s <> [].
Proof.
  intros [(a & b & -> & Ha & _)|H].
  - apply h16_ne in Ha. now destruct a.
  - apply IPv4_chars in H. destruct H as [_ H]. destruct s; [cbn in H; lia | discriminate].
Qed.
Lemma rep_ls32_ne k s : (rep k h16c +++ ls32) s -> s <> [].
Proof.
  intros (a & b & -> & Ha & Hb). apply ls32_ne in Hb. destruct a; [auto | discriminate].
Qed.

Lemma ls32_tail s : ls32 s <-> tail 2 s.
Proof.
  split.
  - intros [(a & b & -> & Ha & Hb)|H].
    + apply tok_cat in Hb. destruct Hb as (c & -> & Hc). apply (tail_cons 1); auto using h16_ne.
      now constructor.
    + now constructor.
  - intros H; inversion H as [| |a Ha|m a b Ha Hb Ht]; subst.
    + now right.
    + left. apply cat_intro; auto. apply tok_cat. exists b. split; [reflexivity|].
      inversion Ht as [|x Hx| |m' x y Hx Hy Ht']; subst; auto.
      exfalso. inversion Ht'; subst; easy.
Qed.

Lemma tail_SS k s : tail (2 + k) s <-> (rep k h16c +++ ls32) s.
Proof.
  revert s; induction k as [|k IH]; intros s.
  - cbn [rep]. rewrite eps_cat. symmetry. apply ls32_tail.
  - rewrite rep_h16c_cons. split.
    + intros H; inversion H as [| | |m a b Ha Hb Ht]; subst. exists a, b. repeat split; auto. now apply IH.
    + intros (a & r & -> & Ha & Hr). apply (tail_cons (2 + k)); auto.
      * now apply rep_ls32_ne in Hr.
      * now apply IH.
Qed.
Lemma tail_1 s : tail 1 s <-> h16 s.
Proof.
  split; [|now constructor]. intros H; inversion H as [|a Ha| |m a b Ha Hb Ht]; subst; auto.
  inversion Ht; subst; easy.
Qed.
Lemma tail_0 s : tail 0 s <-> s = [].
Proof. split; [intros H; inversion H; auto | intros ->; constructor]. Qed.

Lemma pre_S k s : pre (S k) s <-> (rep k h16c +++ h16) s.
Proof.
  revert s; induction k as [|k IH]; intros s.
  - cbn [rep]. rewrite eps_cat. split; [|now constructor].
    intros H; inversion H as [|p a b Ha Hb]; subst; auto. inversion Hb.
  - rewrite rep_h16c_cons. split.
    + intros H; inversion H as [|p a b Ha Hb]; subst. exists a, b. repeat split; auto. now apply IH.
    + intros (a & r & -> & Ha & Hr). constructor; auto. now apply IH.
Qed.

Lemma opt_pre n s : (opt (reps 0 n h16c +++ h16)) s <-> s = [] \/ exists p, (1 <= p <= S n)%nat /\ pre p s.
Proof.
  unfold opt, alt, eps. split; (intros [H|H]; [left; exact H|right]).
  - destruct H as (a & b & -> & (k & Hk & Ha) & Hb). exists (S k). split; [lia|].
    apply pre_S. now apply cat_intro.
  - destruct H as ([|p] & Hp & H); [lia|]. apply pre_S in H. destruct H as (a & b & -> & Ha & Hb).
    apply cat_intro; auto. exists p. split; [lia|auto].
Qed.

Definition omit_form (n : nat) (B : lang) : lang := opt (reps 0 n h16c +++ h16) +++ tok "::" +++ B.
Lemma omit_form_iff n (B : lang) s : omit_form n B s <->
  exists a b, s = a ++ COLON :: COLON :: b /\ B b /\ (a = [] \/ exists p, (1 <= p <= S n)%nat /\ pre p a).
Proof.
  unfold omit_form. split.
  - intros (a & r & -> & Ha & Hr). apply tok_cat in Hr. destruct Hr as (b & -> & Hb).
    apply opt_pre in Ha. exists a, b. auto.
  - intros (a & b & -> & Hb & Ha). exists a, (COLON :: COLON :: b). split; [reflexivity|].
    split; [now apply opt_pre|]. apply tok_cat. exists b. auto.
Qed.

Lemma opt_h16 a : opt h16 a <-> a = [] \/ exists p, (1 <= p <= 1)%nat /\ pre p a.
Proof.
  unfold opt, alt, eps. split; (intros [H|H]; [left; exact H|right]).
  - exists 1%nat. split; [lia|now constructor].
  - destruct H as (p & Hp & H). assert (p = 1%nat) by lia. subst. apply pre_S in H.
    cbn [rep] in H. now apply eps_catE in H.
Qed.

Lemma v6_desc_RFC i : v6_desc 0 i <-> IPv6address i.
Proof.
  split.
  - intros [(m & Ht & Hm)|H].
    + left. apply (tail_SS 6). replace (2 + 6)%nat with m by lia. exact Ht.
    + assert (Hx : exists a b m, i = a ++ COLON :: COLON :: b /\ tail m b /\
               (a = [] \/ exists p, (1 <= p)%nat /\ pre p a /\ (p + m <= 7)%nat) /\ (m <= 7)%nat).
      { destruct H as [(p & m & a & b & -> & Hp & Ht & Hm)|(m & b & -> & Ht & Hm)].
        - exists a, b, m. repeat split; auto; [|lia]. right. exists p. repeat split; auto; [|lia].
          destruct Hp; lia.
        - exists [], b, m. repeat split; auto. lia. }
      clear H. destruct Hx as (a & b & m & -> & Ht & Ha & Hm).
      assert (Hf : forall n (B : lang), B b -> (n + m = 6)%nat -> omit_form n B (a ++ COLON :: COLON :: b)).
      { intros n B HB Hn. apply omit_form_iff. exists a, b. repeat split; auto.
        destruct Ha as [Ha|(p & Hp & Ha & Hpm)]; [auto|right]. exists p. split; [lia|auto]. }
      unfold omit_form in Hf.
      destruct m as [|[|m]].
      * apply tail_0 in Ht. subst b. do 8 right.
        destruct (Hf 6%nat eps eq_refl eq_refl) as (x & y & E & Hx & Hy).
        exists x, y. repeat split; auto. apply tok_cat in Hy. destruct Hy as (z & -> & ->).
        reflexivity.
      * apply tail_1 in Ht. do 7 right. left. apply Hf; auto.
      * apply (tail_SS m) in Ht.
        destruct m as [|[|[|[|[|[|m]]]]]]; [..|lia].
        -- do 6 right. left. apply Hf; auto. now apply eps_catE in Ht.
        -- do 5 right. left. apply Hf; auto. cbn [rep] in Ht. apply cat_assoc in Ht.
           destruct Ht as (x & y & -> & Hx & Hy). exists x, y. repeat split; auto. now apply eps_catE in Hy.
        -- do 4 right. left. apply Hf; auto.
        -- do 3 right. left. apply Hf; auto.
        -- do 2 right. left.
           destruct Ha as [->|(p & Hp & Ha & Hpm)].
           ++ exists [], (COLON :: COLON :: b). split; [reflexivity|]. split; [now left|].
              apply tok_cat. exists b. auto.
           ++ exists a, (COLON :: COLON :: b). split; [reflexivity|]. split.
              ** apply opt_h16. right. exists p. split; [lia|auto].
              ** apply tok_cat. exists b. auto.
        -- right. left. destruct Ha as [->|(p & Hp & Ha & Hpm)]; [|lia].
           apply tok_cat. exists b. auto.
  - intros H.
    assert (Hr : forall n (B : lang) m, omit_form n B i -> (forall b, B b -> tail m b) -> (n + m = 6)%nat -> v6_desc 0 i).
    { intros n B m Hof HB Hn. apply omit_form_iff in Hof. destruct Hof as (a & b & -> & Hb & Ha).
      destruct Ha as [->|(p & Hp & Ha)].
      - right; right. exists m, b. repeat split; auto. lia.
      - right; left. exists p, m, a, b. repeat split; auto. lia. }
    unfold omit_form in Hr.
    destruct H as [H|[H|[H|[H|[H|[H|[H|[H|H]]]]]]]].
    + left. exists 8%nat. split; [now apply (tail_SS 6)|lia].
    + apply tok_cat in H. destruct H as (b & -> & Hb). right; right. exists 7%nat, b.
      repeat split; [now apply (tail_SS 5) | try lia].
    + destruct H as (a & r & -> & Ha & Hr'). apply tok_cat in Hr'. destruct Hr' as (b & -> & Hb).
      apply (tail_SS 4) in Hb. apply opt_h16 in Ha. destruct Ha as [->|(p & Hp & Ha)].
      * right; right. exists 6%nat, b. repeat split; auto; try lia.
      * right; left. exists p, 6%nat, a, b. repeat split; auto; try lia.
    + apply (Hr _ _ 5%nat H); [|lia]. intros b Hb. now apply (tail_SS 3).
    + apply (Hr _ _ 4%nat H); [|lia]. intros b Hb. now apply (tail_SS 2).
    + apply (Hr _ _ 3%nat H); [|lia]. intros b Hb. apply (tail_SS 1). cbn [rep]. apply cat_assoc.
      destruct Hb as (x & y & -> & Hx & Hy). exists x, y. repeat split; auto. now apply eps_cat.
    + apply (Hr _ _ 2%nat H); [|lia]. intros b Hb. now apply ls32_tail.
    + apply (Hr _ _ 1%nat H); [|lia]. intros b Hb. now constructor.
    + apply (Hr 6%nat eps 0%nat); [|intros b ->; constructor|lia].
      destruct H as (a & b & -> & Ha & Hb). exists a, b. repeat split; auto.
      apply tok_cat. exists []. rewrite app_nil_r. split; [exact Hb | reflexivity].
Qed.

Theorem validate_ipv6_iff i : validate_ipv6address i = Ok tt <-> IPv6address i.
Proof.
  rewrite <- v6_desc_RFC. unfold validate_ipv6address.
  destruct (v6_loop_desc (S (length i)) i 0) as [H1 H2]; [lia..|]. split; auto.
Qed.
Lemma validate_ipv6_np i : validate_ipv6address i <> Panic.
Proof. apply v6_loop_np. lia. Qed.
