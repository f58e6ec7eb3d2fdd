(** * Proofs for C75. *)
From Verif Require Import Base Chars Rfc3986 CompSpec PctSpec RfcResolve NormSpec EditSpec BuildSpec PBase PScan PHost PAuth MBuild PBuild IpSpec.

(** ** Decimal and hexadecimal numbers *)
Lemma hex_value_lt c : HEXDIG c = true -> hex_value c < 16.
Proof. unfold HEXDIG, hex_value, DIGIT, between. intros H. repeat match goal with |- context [if ?b then _ else _] => destruct b eqn:? end; lia. Qed.
Lemma hex_fold s : forall v, forallb HEXDIG s = true ->
  fold_left (fun v c => 16 * v + hex_value c) s v < (v + 1) * 16 ^ N.of_nat (length s).
Proof.
  induction s as [|c s IH]; intros v H.
  - cbn [fold_left length]. change (N.of_nat 0) with 0. rewrite N.pow_0_r. lia.
  - cbn [forallb] in H. apply andb_prop in H. destruct H as [Hc H]. cbn [fold_left length].
    specialize (IH (16 * v + hex_value c) H). apply hex_value_lt in Hc.
    replace (N.of_nat (S (length s))) with (N.succ (N.of_nat (length s))) by lia. rewrite N.pow_succ_r'.
    eapply N.lt_le_trans; [exact IH|]. rewrite (N.mul_assoc (v + 1) 16). apply N.mul_le_mono_r. lia.
Qed.
Lemma hex_number_lt s : h16 s -> hex_number s < 65536.
Proof.
  intros H. apply h16_iff in H. destruct H as [L H]. unfold hex_number. eapply N.lt_le_trans; [apply hex_fold; exact H|].
  change (0 + 1) with 1. rewrite N.mul_1_l. change 65536 with (16 ^ 4). apply N.pow_le_mono_r; lia.
Qed.
Lemma dec_number_lt s : dec_octet s -> dec_number s < 256.
Proof. intros H. apply dec_octet_value in H. apply H. Qed.

(** ** Text without certain characters *)
Lemma no_colon_h16 s : h16 s -> none (N.eqb 58) s = true.
Proof.
  intros H. apply h16_iff in H. destruct H as [_ H]. unfold none. apply forallb_forall. intros c Hc. rewrite forallb_forall in H. specialize (H c Hc).
  destruct (58 =? c) eqn:E; [apply N.eqb_eq in E; subst c; discriminate H|reflexivity].
Qed.
Lemma no_dot_h16 s : h16 s -> none (N.eqb 46) s = true.
Proof.
  intros H. apply h16_iff in H. destruct H as [_ H]. unfold none. apply forallb_forall. intros c Hc. rewrite forallb_forall in H. specialize (H c Hc).
  destruct (46 =? c) eqn:E; [apply N.eqb_eq in E; subst c; discriminate H|reflexivity].
Qed.
Lemma no_dot_octet s : dec_octet s -> none (N.eqb 46) s = true /\ none (N.eqb 58) s = true.
Proof.
  intros H. apply dec_octet_value in H. destruct H as (_ & H & _). rewrite forallb_forall in H. split; unfold none; apply forallb_forall; intros c Hc; specialize (H c Hc).
  - destruct (46 =? c) eqn:E; [apply N.eqb_eq in E; subst c; discriminate H|reflexivity].
  - destruct (58 =? c) eqn:E; [apply N.eqb_eq in E; subst c; discriminate H|reflexivity].
Qed.
Lemma first_piece n (a b a' b' : str) : none (N.eqb n) a = true -> none (N.eqb n) a' = true -> a ++ n :: b = a' ++ n :: b' -> a = a' /\ b = b'.
Proof.
  intros H H' E. pose proof (split_first_app (N.eqb n) a n b H (N.eqb_refl n)) as X. rewrite E in X.
  rewrite (split_first_app (N.eqb n) a' n b' H' (N.eqb_refl n)) in X. now injection X as -> ->.
Qed.
Lemma no_piece n (a b s : str) : none (N.eqb n) s = true -> s <> a ++ n :: b.
Proof.
  intros H ->. unfold none in H. rewrite forallb_forall in H. specialize (H n). rewrite N.eqb_refl in H. cbn in H. discriminate H. apply in_app_iff. right. now left.
Qed.

(** ** IPv4 *)
Lemma v4_unique s x y : v4_denotes s x -> v4_denotes s y -> x = y.
Proof.
  intros H. destruct H as [a b c d Ha Hb Hc Hd]. intros H. inversion H as [a' b' c' d' Ha' Hb' Hc' Hd' E1 E2]. subst y. symmetry in E1. cbn [lit app] in E1.
  apply first_piece in E1; [|now apply no_dot_octet|now apply no_dot_octet]. destruct E1 as [-> E1]. cbn [app] in E1.
  apply first_piece in E1; [|now apply no_dot_octet|now apply no_dot_octet]. destruct E1 as [-> E1]. cbn [app] in E1.
  apply first_piece in E1; [|now apply no_dot_octet|now apply no_dot_octet]. destruct E1 as [-> ->]. reflexivity.
Qed.
Lemma v4_valid s : IPv4address s <-> exists x, v4_denotes s x.
Proof.
  split.
  - intros H. apply IPv4_shape in H. destruct H as (a & b & c & d & -> & Ha & Hb & Hc & Hd). apply is_dec_octet_iff in Ha, Hb, Hc, Hd. exists (dec_number a, dec_number b, dec_number c, dec_number d). now apply (v4_quad a b c d).
  - intros (x & [a b c d Ha Hb Hc Hd]). apply is_dec_octet_iff in Ha, Hb, Hc, Hd. apply IPv4_shape. exists a, b, c, d. auto.
Qed.
Lemma v4_lt s a b c d : v4_denotes s (a, b, c, d) -> a < 256 /\ b < 256 /\ c < 256 /\ d < 256.
Proof. intros H. inversion H; subst. repeat split; now apply dec_number_lt. Qed.
Lemma v4_chars s x : v4_denotes s x -> none (N.eqb 58) s = true.
Proof. intros [a b c d Ha Hb Hc Hd]. apply no_dot_octet in Ha, Hb, Hc, Hd. rewrite !none_app. destruct Ha as [_ ->], Hb as [_ ->], Hc as [_ ->], Hd as [_ ->]. reflexivity. Qed.
Lemma v4_dotted s x : v4_denotes s x -> exists a b, s = a ++ 46 :: b.
Proof. intros [a b c d Ha Hb Hc Hd]. exists a, (b ++ lit "." ++ c ++ lit "." ++ d). reflexivity. Qed.

(** ** IPv6 *)
Lemma words_low s l : words s l -> low_words s l.
Proof. induction 1; [now apply low_one|now apply low_more]. Qed.
Lemma low_unique s l : low_words s l -> forall l', low_words s l' -> l = l'.
Proof.
  induction 1 as [s H|s a b c d H|s t l H T IH]; intros l' G.
  - inversion G as [s' G' E1 E2|s' a b c d G' E1 E2|s' t l G' T E1 E2]; subst; [reflexivity| |].
    + apply v4_dotted in G'. destruct G' as (a' & b' & E). apply no_dot_h16 in H. now apply (no_piece 46 a' b') in H.
    + exfalso. apply no_colon_h16 in H. now apply (no_piece 58 s' t) in H.
  - inversion G as [s' G' E1 E2|s' a' b' c' d' G' E1 E2|s' t l G' T E1 E2]; subst.
    + apply v4_dotted in H. destruct H as (a' & b' & E). apply no_dot_h16 in G'. now apply (no_piece 46 a' b') in G'.
    + pose proof (v4_unique _ _ _ H G') as E. now injection E as -> -> -> ->.
    + exfalso. apply v4_chars in H. now apply (no_piece 58 s' t) in H.
  - inversion G as [s' G' E1 E2|s' a' b' c' d' G' E1 E2|s' t' l2 G' T' E1 E2]; subst.
    + exfalso. apply no_colon_h16 in G'. now apply (no_piece 58 s t) in G'.
    + exfalso. apply v4_chars in G'. now apply (no_piece 58 s t) in G'.
    + cbn [lit app] in E1. apply first_piece in E1; [|now apply no_colon_h16|now apply no_colon_h16]. destruct E1 as [-> ->]. f_equal. now apply IH.
Qed.
(** "::" or a ":" at the end. *)
Fixpoint gap (s : str) : bool :=
  match s with
  | [] => false
  | c :: r => (c =? 58) && (match r with [] => true | d :: _ => d =? 58 end) || gap r
  end.
Lemma gap_app a b : gap b = true -> gap (a ++ b) = true.
Proof. intros H. induction a as [|c a IH]; [exact H|]. cbn [app gap]. rewrite IH. apply orb_true_r. Qed.
Lemma gap_none s : none (N.eqb 58) s = true -> gap s = false.
Proof. induction s as [|c s IH]; [reflexivity|]. rewrite none_cons. intros H. apply andb_prop in H. destruct H as [H1 H2]. cbn [gap]. rewrite IH by exact H2. rewrite N.eqb_sym. apply negb_true_iff in H1. rewrite H1. reflexivity. Qed.
Lemma gap_more s t : none (N.eqb 58) s = true -> gap t = false -> (exists c r, t = c :: r /\ c <> 58) -> gap (s ++ 58 :: t) = false.
Proof.
  intros H G (c & r & -> & Hc). induction s as [|x s IH].
  - change ((58 =? 58) && (c =? 58) || gap (c :: r) = false). apply N.eqb_neq in Hc. rewrite Hc, G. reflexivity.
  - rewrite none_cons in H. apply andb_prop in H. destruct H as [H1 H2]. change ((x =? 58) && (match s ++ 58 :: c :: r with [] => true | d :: _ => d =? 58 end) || gap (s ++ 58 :: c :: r) = false). rewrite IH by exact H2. rewrite N.eqb_sym. apply negb_true_iff in H1. now rewrite H1.
Qed.
Lemma h16_head s : h16 s -> exists c r, s = c :: r /\ c <> 58.
Proof.
  intros H. pose proof (h16_ne s H) as N0. apply no_colon_h16 in H. destruct s as [|c r]; [congruence|]. exists c, r. split; [reflexivity|].
  rewrite none_cons in H. apply andb_prop in H. destruct H as [H _]. intros ->. discriminate H.
Qed.
Lemma low_head s l : low_words s l -> (exists c r, s = c :: r /\ c <> 58) /\ gap s = false.
Proof.
  induction 1 as [s H|s a b c d H|s t l H T [IH1 IH2]].
  - split; [now apply h16_head|]. apply gap_none. now apply no_colon_h16.
  - split; [|apply gap_none; now apply (v4_chars _ _ H)]. pose proof (v4_chars _ _ H) as N. destruct (v4_dotted _ _ H) as (x & y & E).
    destruct s as [|k r]; [destruct x; discriminate|]. exists k, r. split; [reflexivity|]. rewrite none_cons in N. apply andb_prop in N. destruct N as [N _]. intros ->. discriminate N.
  - split.
    + destruct (h16_head s H) as (c & r & -> & Hc). exists c, (r ++ lit ":" ++ t). auto.
    + apply gap_more; [now apply no_colon_h16|exact IH2|exact IH1].
Qed.
Lemma gap_unique s t s' t' : gap s = false -> gap s' = false -> s ++ lit "::" ++ t = s' ++ lit "::" ++ t' -> s = s' /\ t = t'.
Proof.
  assert (W : forall s t s' t', gap s' = false -> (length s <= length s')%nat -> s ++ lit "::" ++ t = s' ++ lit "::" ++ t' -> s = s' /\ t = t').
  { clear. intros s t s' t' G L E.
    assert (P : exists m, s' = s ++ m /\ lit "::" ++ t = m ++ lit "::" ++ t').
    { exists (skipn (length s) s'). assert (E1 : firstn (length s) s' = s).
      { apply (f_equal (firstn (length s))) in E. rewrite firstn_app, firstn_all, Nat.sub_diag in E. cbn [firstn] in E. rewrite app_nil_r in E.
        rewrite firstn_app in E. replace (length s - length s')%nat with 0%nat in E by lia. cbn [firstn] in E. rewrite app_nil_r in E. now symmetry. }
      assert (E2 : s' = s ++ skipn (length s) s') by (transitivity (firstn (length s) s' ++ skipn (length s) s'); [symmetry; apply firstn_skipn|now rewrite E1]).
      split; [exact E2|]. rewrite E2 in E. rewrite <- app_assoc in E. now apply app_inv_head in E. }
    destruct P as (m & -> & Em). destruct m as [|x [|y m]].
    - rewrite app_nil_r. split; [reflexivity|]. cbn [app] in Em. now apply app_inv_head in Em.
    - exfalso. cbn [lit app] in Em. injection Em as <- _. rewrite (gap_app s [58]) in G by reflexivity. discriminate.
    - exfalso. cbn [lit app] in Em. injection Em as <- <- _. rewrite (gap_app s (58 :: 58 :: m)) in G by reflexivity. discriminate. }
  intros G G' E. destruct (Nat.le_ge_cases (length s) (length s')) as [L|L]; [now apply W|].
  symmetry in E. destruct (W s' t' s t G L E) as [-> ->]. auto.
Qed.
Lemma part_gap s l : (s = [] /\ l = [] \/ words s l) -> gap s = false.
Proof. intros [[-> _]|H]; [reflexivity|]. apply words_low, low_head in H. apply H. Qed.
Lemma v6_unique s l l' : v6_denotes s l -> v6_denotes s l' -> l = l'.
Proof.
  intros H H'. destruct H as [s l H L|s t l r k Hs Ht Hk L].
  - inversion H' as [s' l2 G L' E1 E2|s' t' l2 r' k' Gs Gt Gk L' E1 E2]; subst; [now apply (low_unique s)|].
    exfalso. apply low_head in H. destruct H as [_ H]. rewrite (gap_app s' (lit "::" ++ t')) in H by reflexivity. discriminate.
  - inversion H' as [s' l2 G L' E1 E2|s' t' l2 r' k' Gs Gt Gk L' E1 E2]; subst.
    + exfalso. apply low_head in G. destruct G as [_ G]. rewrite (gap_app s (lit "::" ++ t)) in G by reflexivity. discriminate.
    + apply gap_unique in E1; [|now apply (part_gap _ _ Gs)|now apply (part_gap _ _ Hs)]. destruct E1 as [-> ->].
      assert (El : l = l2).
      { destruct Hs as [[E ->]|Hs], Gs as [[E' ->]|Gs]; [reflexivity| | |now apply (low_unique s); apply words_low].
        - subst s. apply words_low, low_head in Gs. destruct Gs as [(c & r0 & X & _) _]. discriminate.
        - subst s. apply words_low, low_head in Hs. destruct Hs as [(c & r0 & X & _) _]. discriminate. }
      assert (Er : r = r').
      { destruct Ht as [[E ->]|Ht], Gt as [[E' ->]|Gt]; [reflexivity| | |now apply (low_unique t)].
        - subst t. apply low_head in Gt. destruct Gt as [(c & r0 & X & _) _]. discriminate.
        - subst t. apply low_head in Ht. destruct Ht as [(c & r0 & X & _) _]. discriminate. }
      subst l2 r'. replace k' with k by lia. reflexivity.
Qed.
Lemma low_words_lt s l : low_words s l -> Forall (fun n => n < 65536) l.
Proof.
  induction 1 as [s H|s a b c d H|s t l H T IH].
  - constructor; [now apply hex_number_lt|constructor].
  - apply v4_lt in H. destruct H as (? & ? & ? & ?). constructor; [lia|]. constructor; [lia|constructor].
  - constructor; [now apply hex_number_lt|exact IH].
Qed.
Lemma v6_address s l : v6_denotes s l -> length l = 8%nat /\ Forall (fun n => n < 65536) l.
Proof.
  intros [s' l' H L|s' t l' r k Hs Ht Hk L].
  - split; [exact L|now apply (low_words_lt s')].
  - rewrite !app_length, repeat_length. split; [lia|]. apply Forall_app. split; [|apply Forall_app; split].
    + destruct Hs as [[_ ->]|Hs]; [constructor|]. apply words_low in Hs. now apply (low_words_lt s').
    + clear. induction k; constructor; [lia|assumption].
    + destruct Ht as [[_ ->]|Ht]; [constructor|]. now apply (low_words_lt t).
Qed.
(** The grammar. *)
Lemma tail_low m s : tail m s -> (m = 0%nat /\ s = []) \/ exists l, low_words s l /\ length l = m.
Proof.
  induction 1 as [|a H|a H|m a b H Hb T IH]; [now left|right|right|right].
  - exists [hex_number a]. split; [now apply low_one|reflexivity].
  - apply v4_valid in H. destruct H as ([[[x y] z] w] & H). eexists. split; [apply (low_v4 _ _ _ _ _ H)|reflexivity].
  - destruct IH as [[_ ->]|(l & IH & L)]; [congruence|]. exists (hex_number a :: l). split; [now apply low_more|cbn; now rewrite L].
Qed.
Lemma low_tail s l : low_words s l -> tail (length l) s.
Proof.
  induction 1 as [s H|s a b c d H|s t l H T IH].
  - now apply tail_h16.
  - apply tail_v4. apply v4_valid. eauto.
  - cbn [length]. apply (tail_cons (length l) s t); [exact H| |exact IH]. apply low_head in T. destruct T as [(c & r & -> & _) _]. discriminate.
Qed.
Lemma pre_words m s : pre m s -> exists l, words s l /\ length l = m.
Proof.
  induction 1 as [a H|m a b H T (l & IH & L)].
  - exists [hex_number a]. split; [now apply words_one|reflexivity].
  - exists (hex_number a :: l). split; [now apply words_more|cbn; now rewrite L].
Qed.
Lemma words_pre s l : words s l -> pre (length l) s.
Proof. induction 1 as [s H|s t l H T IH]; [now apply pre_one|]. cbn [length]. now apply (pre_cons (length l) s t). Qed.
Lemma v6_valid s : IPv6address s <-> exists l, v6_denotes s l.
Proof.
  rewrite <- v6_desc_RFC. unfold v6_desc. split.
  - assert (T : forall m b, tail m b -> exists r, (b = [] /\ r = [] \/ low_words b r) /\ length r = m).
    { intros m b H. apply tail_low in H. destruct H as [[-> ->]|(r & H & L)]; [exists []; auto|exists r; auto]. }
    intros [(m & H & L)|[(p & m & a & b & -> & Hp & Hm & L)|(m & b & -> & Hm & L)]].
    + apply tail_low in H. destruct H as [[-> _]|(l & H & El)]; [lia|]. exists l. apply v6_full; [exact H|lia].
    + apply pre_words in Hp. destruct Hp as (l & Hl & El). destruct (T m b Hm) as (r & Hr & Er).
      exists (l ++ repeat 0 (8 - p - m) ++ r). apply (v6_short a b l r); auto; lia.
    + destruct (T m b Hm) as (r & Hr & Er). exists ([] ++ repeat 0 (8 - m) ++ r). apply (v6_short [] b [] r); auto; cbn [length]; lia.
  - intros (l & [s' l' H L|s' t l' r k Hs Ht Hk L]).
    + left. exists (length l'). split; [now apply low_tail|lia].
    + assert (T : tail (length r) t) by (destruct Ht as [[-> ->]|Ht]; [constructor|now apply low_tail]).
      destruct Hs as [[-> ->]|Hs].
      * right. right. exists (length r), t. split; [reflexivity|]. split; [exact T|cbn [length] in L; lia].
      * right. left. exists (length l'), (length r), s', t. split; [reflexivity|]. split; [now apply words_pre|]. split; [exact T|lia].
Qed.

(** ** Hosts *)
Lemma v6_first s x : ~ v4_denotes (lit "[" ++ s ++ lit "]") x.
Proof.
  intros H. inversion H as [e f g h He Hf Hg Hh E1 E2]. apply dec_octet_value in He. destruct He as (_ & D & _).
  destruct e as [|k e]; cbn [lit app] in E1; [discriminate|]. injection E1 as -> _. discriminate D.
Qed.
Lemma host_unique h a b : host_denotes h a -> host_denotes h b -> a = b.
Proof.
  intros H G. destruct H as [s x y z w H|s l H].
  - inversion G as [s' x' y' z' w' G' E1 E2|s' l G' E1 E2]; subst.
    + pose proof (v4_unique _ _ _ H G') as E. now injection E as -> -> -> ->.
    + now apply v6_first in H.
  - inversion G as [s' x' y' z' w' G' E1 E2|s' l' G' E1 E2]; subst.
    + now apply v6_first in G'.
    + apply app_inv_tail in E1. subst s'. f_equal. now apply (v6_unique s).
Qed.
Lemma host_address h a : host_denotes h a -> ip_address a.
Proof. intros [s x y z w H|s l H]; cbn [ip_address]; [now apply (v4_lt s)|now apply (v6_address s)]. Qed.

(** ** What std writes *)
Lemma digit_hex x : x < 16 -> (if digit_char x <? 58 then digit_char x - 48 else digit_char x - 87) = x /\ hex_value (digit_char x) = x.
Proof.
  intros H. assert (A : forallb (fun x => ((if digit_char x <? 58 then digit_char x - 48 else digit_char x - 87) =? x) && (hex_value (digit_char x) =? x)) (map N.of_nat (seq 0 16)) = true) by reflexivity.
  rewrite forallb_forall in A. specialize (A x). assert (X : In x (map N.of_nat (seq 0 16))) by (apply in_map_iff; exists (N.to_nat x); split; [lia|apply in_seq; lia]).
  specialize (A X). apply andb_prop in A. destruct A as [A1 A2]. apply N.eqb_eq in A1, A2. auto.
Qed.
Lemma value_hex d : (forall c, In c d -> exists x, x < 16 /\ c = digit_char x) -> forall v,
  fold_left (fun v c => v * 16 + (if c <? 58 then c - 48 else c - 87)) d v = fold_left (fun v c => 16 * v + hex_value c) d v.
Proof.
  induction d as [|c d IH]; intros H v; [reflexivity|]. cbn [fold_left]. rewrite IH by (intros; apply H; now right).
  destruct (H c (or_introl eq_refl)) as (x & Hx & ->). destruct (digit_hex x Hx) as [-> ->]. f_equal. lia.
Qed.
Lemma u16_hex_number n : n < 65536 -> hex_number (u16_hex n) = n.
Proof.
  intros H. destruct (to_digits_ok 16 ltac:(lia) 4 n []) as (d & E & L & V & C & Z); [cbn; lia|lia|]. rewrite app_nil_r in E. unfold u16_hex. rewrite E.
  unfold hex_number. rewrite <- value_hex by exact C. exact V.
Qed.
Lemma u8_dec_number n : n < 256 -> dec_number (u8_dec n) = n.
Proof.
  intros H. destruct (to_digits_ok 10 ltac:(lia) 3 n []) as (d & E & L & V & C & Z); [cbn; lia|lia|]. rewrite app_nil_r in E. unfold u8_dec. rewrite E.
  assert (G : forall d, (forall c, In c d -> exists x, x < 10 /\ c = digit_char x) -> forall v, fold_left (fun v c => v * 10 + (if c <? 58 then c - 48 else c - 87)) d v = fold_left (fun v c => 10 * v + (c - 48)) d v).
  { clear. induction d as [|c d IH]; intros H v; [reflexivity|]. cbn [fold_left]. rewrite IH by (intros; apply H; now right).
    destruct (H c (or_introl eq_refl)) as (x & Hx & ->). unfold digit_char. replace (x <? 10) with true by (symmetry; now apply N.ltb_lt).
    replace (48 + x <? 58) with true by (symmetry; apply N.ltb_lt; lia). f_equal. lia. }
  unfold dec_number. rewrite <- G by exact C. exact V.
Qed.
Lemma v4_text_denotes a b c d : a < 256 -> b < 256 -> c < 256 -> d < 256 -> v4_denotes (v4_text a b c d) (a, b, c, d).
Proof.
  intros Ha Hb Hc Hd. rewrite <- (u8_dec_number a Ha) at 2. rewrite <- (u8_dec_number b Hb) at 2. rewrite <- (u8_dec_number c Hc) at 2. rewrite <- (u8_dec_number d Hd) at 2.
  apply v4_quad; now apply u8_dec_ok.
Qed.
Lemma sub_words x l : segs_ok (x :: l) -> words (fmt_subslice (x :: l)) (x :: l).
Proof.
  revert x. induction l as [|y l IH]; intros x H; inversion H as [|? ? Hx Hl]; subst.
  - cbn [fmt_subslice fmt_tail]. rewrite app_nil_r. rewrite <- (u16_hex_number x Hx) at 2. apply words_one. now apply u16_hex_ok.
  - cbn [fmt_subslice fmt_tail]. change ([COLON] ++ u16_hex y ++ fmt_tail l) with (lit ":" ++ fmt_subslice (y :: l)).
    rewrite <- (u16_hex_number x Hx) at 2. apply words_more; [now apply u16_hex_ok|now apply IH].
Qed.
Lemma sub_low x l : segs_ok (x :: l) -> low_words (fmt_subslice (x :: l)) (x :: l).
Proof. intros H. now apply words_low, sub_words. Qed.
(** The run that [zero_run] finds consists of zeros. *)
Definition zeros_at (l : list N) (r : nat * nat) : Prop := firstn (snd r) (skipn (fst r) l) = repeat 0 (snd r) /\ (fst r + snd r <= length l)%nat.
Lemma firstn_snoc (A : Type) (l : list A) n x : nth_error l n = Some x -> firstn (S n) l = firstn n l ++ [x].
Proof. revert n. induction l as [|y l IH]; intros [|n] H; try discriminate; cbn in *; [now injection H as ->|]. now rewrite IH. Qed.
Lemma nth_skipn (A : Type) (l : list A) a n : nth_error (skipn a l) n = nth_error l (a + n).
Proof. revert l. induction a as [|a IH]; intros l; [reflexivity|]. destruct l; [now destruct n|]. apply IH. Qed.
Lemma repeat_snoc n : repeat 0 (S n) = repeat 0 n ++ [0].
Proof. induction n; [reflexivity|]. cbn [repeat app] in *. now rewrite <- IHn. Qed.
Lemma zero_run_zeros l : forall rest i cur longest, l = firstn i l ++ rest -> i = length (firstn i l) ->
  zeros_at l longest -> (snd cur = 0%nat \/ (fst cur + snd cur = i)%nat /\ zeros_at l cur) ->
  zeros_at l (zero_run i rest cur longest).
Proof.
  induction rest as [|s rest IH]; intros i cur longest E Ei Hl Hc; cbn [zero_run]; [exact Hl|].
  assert (E' : l = firstn (S i) l ++ rest).
  { assert (X : nth_error l i = Some s) by (rewrite E, nth_error_app2 by lia; rewrite <- Ei, Nat.sub_diag; reflexivity).
    rewrite (firstn_snoc _ l i s X), <- app_assoc. exact E. }
  assert (Li : (S i <= length l)%nat) by (rewrite E, app_length, <- Ei; cbn [length]; lia).
  assert (Ei' : S i = length (firstn (S i) l)) by (rewrite firstn_length; lia).
  destruct (N.eqb_spec s 0) as [->|Hs].
  - assert (X : nth_error l i = Some 0) by (rewrite E, nth_error_app2 by lia; rewrite <- Ei, Nat.sub_diag; reflexivity).
    set (cur' := (if Nat.eqb (snd cur) 0 then i else fst cur, S (snd cur))).
    assert (Z : (fst cur' + snd cur' = S i)%nat /\ zeros_at l cur').
    { unfold cur'. destruct Hc as [Hc|[Hc [Z1 Z2]]].
      - rewrite Hc. cbn [Nat.eqb fst snd]. split; [lia|]. split; [|cbn [fst snd]; lia]. cbn [fst snd]. rewrite (firstn_snoc _ _ 0 0); [reflexivity|]. rewrite nth_skipn, Nat.add_0_r. exact X.
      - destruct (Nat.eqb_spec (snd cur) 0) as [E0|E0]; cbn [fst snd].
        + rewrite E0. split; [lia|]. split; [|cbn [fst snd]; lia]. cbn [fst snd]. rewrite (firstn_snoc _ _ 0 0); [reflexivity|]. rewrite nth_skipn, Nat.add_0_r. exact X.
        + split; [lia|]. split; [|cbn [fst snd]; lia]. cbn [fst snd]. rewrite repeat_snoc, <- Z1. apply firstn_snoc. rewrite nth_skipn, Hc. exact X. }
    cbn zeta. fold cur'. apply IH; [exact E'|exact Ei'| |now right]. destruct (Nat.ltb _ _); [apply Z|exact Hl].
  - apply IH; [exact E'|exact Ei'|exact Hl|now left].
Qed.
Lemma skip_skip (A : Type) (l : list A) a b : skipn b (skipn a l) = skipn (a + b) l.
Proof. revert l. induction a as [|a IH]; intros l; [reflexivity|]. destruct l; [now rewrite skipn_nil|]. apply IH. Qed.
Lemma general_denotes l : length l = 8%nat -> segs_ok l -> v6_denotes (v6_general_text l) l.
Proof.
  intros L H. unfold v6_general_text.
  assert (Z : zeros_at l (zero_run 0 l (0, 0)%nat (0, 0)%nat)).
  { apply (zero_run_zeros l l 0); [reflexivity|reflexivity| |now left]. split; [reflexivity|cbn; lia]. }
  destruct (zero_run 0 l (0, 0)%nat (0, 0)%nat) as [st len]. destruct Z as [Z1 Z2]. cbn [fst snd] in *.
  destruct (Nat.ltb_spec 1 len) as [Hl|Hl].
  - assert (El : l = firstn st l ++ repeat 0 len ++ skipn (st + len) l).
    { rewrite <- Z1. rewrite <- (firstn_skipn st l) at 1. f_equal. rewrite <- (firstn_skipn len (skipn st l)) at 1. f_equal. apply skip_skip. }
    assert (Hf : segs_ok (firstn st l)) by (rewrite El in H; apply Forall_app in H; apply H).
    assert (Hr : segs_ok (skipn (st + len) l)) by (rewrite El in H; apply Forall_app in H; destruct H as [_ H]; apply Forall_app in H; apply H).
    rewrite El at 3. apply v6_short.
    + destruct (firstn st l) as [|x f]; [now left|right; now apply sub_words].
    + destruct (skipn (st + len) l) as [|x f]; [now left|right; now apply sub_low].
    + lia.
    + rewrite firstn_length, skipn_length. lia.
  - apply v6_full; [|exact L]. destruct l as [|x l]; [discriminate|]. now apply sub_low.
Qed.
Lemma ffff : h16 (lit "ffff") /\ hex_number (lit "ffff") = 65535.
Proof. split; [apply h16_iff; split; [cbn; lia|reflexivity]|reflexivity]. Qed.
Lemma v6_text_denotes l : length l = 8%nat -> segs_ok l -> v6_denotes (v6_text l) l.
Proof.
  intros L H. pose proof (general_denotes l L H) as Gen.
  destruct l as [|a [|b [|c [|d [|e [|f [|g [|h [|? ?]]]]]]]]]; try discriminate L. unfold v6_text.
  destruct (seqb [a; b; c; d; e; f] [0; 0; 0; 0; 0; 65535]) eqn:E; [|exact Gen].
  apply seqb_eq in E. injection E as -> -> -> -> -> ->.
  assert (Hg : g < 65536 /\ h < 65536). { unfold segs_ok in H. rewrite Forall_forall in H. split; apply H; cbn; tauto. }
  destruct Hg as [Hg Hh].
  change [0; 0; 0; 0; 0; 65535; g; h] with ([] ++ repeat 0 5 ++ [65535; g; h]).
  change (lit "::ffff:" ++ v4_text (g / 256) (g mod 256) (h / 256) (h mod 256)) with ([] ++ lit "::" ++ (lit "ffff" ++ lit ":" ++ v4_text (g / 256) (g mod 256) (h / 256) (h mod 256))).
  apply v6_short; [now left| |lia|reflexivity]. right. destruct ffff as [F1 F2]. rewrite <- F2. apply low_more; [exact F1|].
  assert (Eg : g = 256 * (g / 256) + g mod 256) by (apply N.div_mod; lia). assert (Eh : h = 256 * (h / 256) + h mod 256) by (apply N.div_mod; lia).
  rewrite Eg at 3. rewrite Eh at 3. apply low_v4. apply v4_text_denotes; try (apply N.mod_lt; lia); apply N.div_lt_upper_bound; lia.
Qed.
Lemma ip_text_denotes a : ip_address a -> host_denotes (host_text (HostIp a)) a.
Proof.
  destruct a as [x y z w|l]; cbn [ip_address host_text].
  - intros (Hx & Hy & Hz & Hw). apply host_v4. now apply v4_text_denotes.
  - intros [L H]. apply host_v6. now apply v6_text_denotes.
Qed.
