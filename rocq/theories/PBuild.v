(** * Builder (proofs only), part 1: what std writes; the authority. *)
From Verif Require Import Base Chars Rfc3986 Utf8 CompSpec RfcResolve PctSpec NormSpec EditSpec MValidate MTrusted MFormat MPct MPath MNormalize MSearch
  MBuild BuildSpec PBase PScan PHost PAuth PValidate PTrusted PComps PAscii PTypes PSearch PPath PPath2 PPath3 PPath4 PPct PPct2 PPct3 PPct4 PPath5 PRds PNorm PNorm2 PNorm3.

(** ** Digits *)
Lemma starts0 c r : starts_with (lit "0") (c :: r) = (48 =? c).
Proof. unfold starts_with. change (strip_prefix (lit "0") (c :: r)) with (if 48 =? c then Some r else None). now destruct (48 =? c). Qed.
Lemma to_digits_ok base : 2 <= base <= 16 -> forall k n acc, n < base ^ N.of_nat k -> (0 < k)%nat -> exists d,
  to_digits k base n acc = d ++ acc /\ (1 <= length d <= k)%nat /\ value_of base d = n /\
  (forall c, In c d -> exists x, x < base /\ c = digit_char x) /\ (d = lit "0" \/ starts_with (lit "0") d = false).
Proof.
  intros Hb. induction k as [|k IH]; intros n acc L K; [lia|]. cbn [to_digits]. cbv zeta.
  assert (M : n mod base < base) by (apply N.mod_lt; lia).
  assert (DM : n = base * (n / base) + n mod base) by (apply N.div_mod; lia).
  assert (V : forall x, x < base -> (if digit_char x <? 58 then digit_char x - 48 else digit_char x - 87) = x).
  { intros x Hx. unfold digit_char. destruct (N.ltb_spec x 10).
    - replace (48 + x <? 58) with true by (symmetry; apply N.ltb_lt; lia). lia.
    - replace (87 + x <? 58) with false by (symmetry; apply N.ltb_ge; lia). lia. }
  destruct (n / base =? 0) eqn:Q.
  - apply N.eqb_eq in Q. exists [digit_char (n mod base)]. rewrite Q, N.mul_0_r, N.add_0_l in DM. split; [reflexivity|]. split; [cbn; lia|]. split; [|split].
    + unfold value_of. cbn [fold_left]. rewrite V by auto. lia.
    + intros c [<-|[]]. eauto.
    + destruct (N.eq_dec (n mod base) 0) as [E|E]; [left; rewrite E; reflexivity|right]. unfold digit_char. destruct (N.ltb_spec (n mod base) 10).
      * rewrite starts0. apply N.eqb_neq. lia.
      * rewrite starts0. apply N.eqb_neq. lia.
  - apply N.eqb_neq in Q. destruct k as [|k].
    { exfalso. change (N.of_nat 1) with 1 in L. rewrite N.pow_1_r in L. rewrite N.div_small in Q by lia. congruence. }
    destruct (IH (n / base) (digit_char (n mod base) :: acc)) as (d & E & Ln & Vd & Cd & Zd); [|lia|].
    { apply N.div_lt_upper_bound; [lia|]. replace (N.of_nat (Datatypes.S (Datatypes.S k))) with (N.succ (N.of_nat (Datatypes.S k))) in L by lia. rewrite N.pow_succ_r' in L. exact L. }
    exists (d ++ [digit_char (n mod base)]). rewrite <- app_assoc. split; [exact E|]. rewrite app_length. cbn [length]. split; [lia|]. split; [|split].
    + unfold value_of in *. rewrite fold_left_app. cbn [fold_left]. rewrite Vd, V by auto. lia.
    + intros c Hc. apply in_app_iff in Hc. destruct Hc as [Hc|[<-|[]]]; eauto.
    + right. destruct Zd as [-> | Zd].
      * exfalso. apply Q. rewrite <- Vd. reflexivity.
      * destruct d as [|c d]; [cbn in Ln; lia|]. cbn [app]. rewrite starts0 in *. exact Zd.
Qed.
Lemma dec_digit x : x < 10 -> is_digit (digit_char x) = true.
Proof. intros H. unfold digit_char. replace (x <? 10) with true by (symmetry; now apply N.ltb_lt). unfold is_digit, between. lia. Qed.
Lemma hex_digit x : x < 16 -> is_hexdigit (digit_char x) = true /\ lower (digit_char x) = digit_char x.
Proof. intros H. assert (X : In x (map N.of_nat (seq 0 16))). { apply in_map_iff. exists (N.to_nat x). split; [lia|apply in_seq; lia]. } revert x H X. 
  assert (A : forallb (fun x => is_hexdigit (digit_char x) && (lower (digit_char x) =? digit_char x)) (map N.of_nat (seq 0 16)) = true) by reflexivity.
  intros x _ X. rewrite forallb_forall in A. specialize (A x X). apply andb_prop in A. destruct A as [A B]. apply N.eqb_eq in B. auto.
Qed.
Lemma u16_dec_ok n : n < 65536 -> decimal n (u16_dec n) /\ port (u16_dec n).
Proof.
  intros H. destruct (to_digits_ok 10 ltac:(lia) 5 n []) as (d & E & L & V & C & Z); [cbn; lia|lia|]. rewrite app_nil_r in E. unfold u16_dec. rewrite E.
  assert (D : forallb is_digit d = true). { apply forallb_forall. intros c Hc. destruct (C c Hc) as (x & Hx & ->). now apply dec_digit. }
  split; [|now apply port_iff]. split; [destruct d; [cbn in L; lia|discriminate]|]. split; [exact D|auto].
Qed.
Lemma u8_dec_ok n : n < 256 -> dec_octet (u8_dec n).
Proof.
  intros H. destruct (to_digits_ok 10 ltac:(lia) 3 n []) as (d & E & L & V & C & Z); [cbn; lia|lia|]. rewrite app_nil_r in E. unfold u8_dec. rewrite E.
  assert (D : forallb DIGIT d = true). { apply forallb_forall. intros c Hc. destruct (C c Hc) as (x & Hx & ->). now apply dec_digit. }
  apply dec_octet_value. split; [|split; auto].
  - destruct Z as [Z|Z]; [now left|right]. destruct d as [|c d]; [cbn in L; lia|]. exists c, d. split; auto. destruct (C c (or_introl eq_refl)) as (x & Hx & ->).
    rewrite starts0 in Z. apply N.eqb_neq in Z. unfold digit_char in *. replace (x <? 10) with true in * by (symmetry; now apply N.ltb_lt). unfold between. lia.
  - replace (fold_left _ d 0) with (value_of 10 d); [lia|]. unfold value_of. clear -D. assert (G : forall v, fold_left (fun v c => v * 10 + (if c <? 58 then c - 48 else c - 87)) d v = fold_left (fun n c => 10 * n + (c - 48)) d v).
    { induction d as [|c d IH]; intros v; auto. cbn [forallb] in D. apply andb_prop in D. destruct D as [D1 D2]. cbn [fold_left]. rewrite IH by auto. f_equal. unfold DIGIT, between in D1.
      replace (c <? 58) with true by (symmetry; apply N.ltb_lt; lia). lia. }
    apply G.
Qed.
Lemma u16_hex_ok n : n < 65536 -> h16 (u16_hex n) /\ map lower (u16_hex n) = u16_hex n.
Proof.
  intros H. destruct (to_digits_ok 16 ltac:(lia) 4 n []) as (d & E & L & V & C & Z); [cbn; lia|lia|]. rewrite app_nil_r in E. unfold u16_hex. rewrite E. split.
  - apply h16_iff. split; auto. apply forallb_forall. intros c Hc. destruct (C c Hc) as (x & Hx & ->). now apply hex_digit.
  - clear -C. induction d as [|c d IH]; auto. cbn [map]. rewrite IH by (intros; apply C; now right). destruct (C c (or_introl eq_refl)) as (x & Hx & ->). f_equal. now apply hex_digit.
Qed.
(** ** IP addresses *)
Lemma v4_ok a b c d : octet a -> octet b -> octet c -> octet d -> IPv4address (v4_text a b c d).
Proof.
  intros. unfold v4_text, IPv4address. exists (u8_dec a). eexists. split; [reflexivity|]. split; [now apply u8_dec_ok|].
  exists (lit "."). eexists. split; [reflexivity|]. split; [reflexivity|]. exists (u8_dec b). eexists. split; [reflexivity|]. split; [now apply u8_dec_ok|].
  exists (lit "."). eexists. split; [reflexivity|]. split; [reflexivity|]. exists (u8_dec c). eexists. split; [reflexivity|]. split; [now apply u8_dec_ok|].
  exists (lit "."). eexists. split; [reflexivity|]. split; [reflexivity|now apply u8_dec_ok].
Qed.
Definition segs_ok (l : list N) : Prop := Forall (fun n => n < 65536) l.
Lemma sub_tail l : segs_ok l -> tail (length l) (fmt_subslice l).
Proof.
  induction 1 as [|x l Hx Hl IH]; [constructor|]. cbn [fmt_subslice length]. destruct l as [|y l].
  - cbn [fmt_tail length]. rewrite app_nil_r. apply tail_h16. now apply u16_hex_ok.
  - cbn [fmt_tail]. change ([COLON] ++ u16_hex y ++ fmt_tail l) with (COLON :: fmt_subslice (y :: l)). apply tail_cons; auto; [now apply u16_hex_ok|].
    cbn [fmt_subslice]. inversion Hl; subst. destruct (u16_hex_ok y) as [Hy _]; auto. apply h16_ne in Hy. now destruct (u16_hex y).
Qed.
Lemma sub_pre x l : segs_ok (x :: l) -> pre (length (x :: l)) (fmt_subslice (x :: l)).
Proof.
  revert x. induction l as [|y l IH]; intros x H; inversion H as [|? ? Hx Hl]; subst.
  - cbn [fmt_subslice fmt_tail]. rewrite app_nil_r. apply pre_one. now apply u16_hex_ok.
  - cbn [fmt_subslice fmt_tail]. change ([COLON] ++ u16_hex y ++ fmt_tail l) with (COLON :: fmt_subslice (y :: l)). apply pre_cons; [now apply u16_hex_ok|]. now apply IH.
Qed.
Lemma zero_run_bound l : forall i cur longest, (fst longest + snd longest <= i)%nat -> (snd cur = 0 \/ fst cur + snd cur = i)%nat ->
  let r := zero_run i l cur longest in (fst r + snd r <= i + length l)%nat.
Proof.
  induction l as [|s l IH]; intros i cur longest H1 H2; cbn [zero_run]; cbv zeta; [cbn; lia|]. destruct (s =? 0).
  - cbn [length]. replace (i + Datatypes.S (length l))%nat with (Datatypes.S i + length l)%nat by lia. apply IH.
    + destruct (Nat.ltb _ _); cbn [fst snd]; [|lia]. destruct (Nat.eqb_spec (snd cur) 0); lia.
    + right. cbn [fst snd]. destruct (Nat.eqb_spec (snd cur) 0); lia.
  - cbn [length]. replace (i + Datatypes.S (length l))%nat with (Datatypes.S i + length l)%nat by lia. apply IH; [lia|now left].
Qed.
Lemma v6_general l : length l = 8%nat -> segs_ok l -> IPv6address (v6_general_text l).
Proof.
  intros L H. unfold v6_general_text. apply v6_desc_RFC. assert (B := zero_run_bound l 0 (0, 0)%nat (0, 0)%nat). cbv zeta in B. destruct (zero_run 0 l (0, 0)%nat (0, 0)%nat) as [st len]. cbn [fst snd] in B. specialize (B ltac:(lia) ltac:(lia)).
  destruct (Nat.ltb_spec 1 len) as [Hl|Hl].
  - assert (T : tail (length (skipn (st + len) l)) (fmt_subslice (skipn (st + len) l))). { apply sub_tail. rewrite <- (firstn_skipn (st + len) l) in H. now apply Forall_app in H. }
    rewrite skipn_length in T. assert (Hf : segs_ok (firstn st l)). { rewrite <- (firstn_skipn st l) in H. now apply Forall_app in H. }
    assert (Lf : length (firstn st l) = st) by (rewrite firstn_length; lia). destruct (firstn st l) as [|x f].
    + right. right. cbn [fmt_subslice app]. eexists. eexists. split; [reflexivity|]. split; [exact T|lia].
    + right. left. eexists _, _, _, _. split; [reflexivity|]. split; [apply sub_pre; exact Hf|]. split; [exact T|lia].
  - left. exists 8%nat. split; [|lia]. rewrite <- L. now apply sub_tail.
Qed.
Lemma v6_mapped g h : g < 65536 -> h < 65536 -> IPv6address (lit "::ffff:" ++ v4_text (g / 256) (g mod 256) (h / 256) (h mod 256)).
Proof.
  intros Hg Hh. apply v6_desc_RFC. right. right. exists 3%nat. exists (lit "ffff" ++ COLON :: v4_text (g / 256) (g mod 256) (h / 256) (h mod 256)).
  split; [reflexivity|]. split; [|lia].
  assert (V : IPv4address (v4_text (g / 256) (g mod 256) (h / 256) (h mod 256))).
  { apply v4_ok; unfold octet; try (apply N.mod_lt; lia); apply N.div_lt_upper_bound; lia. }
  apply tail_cons; [apply h16_iff; split; [cbn; lia|reflexivity]| |now apply tail_v4].
  intros E. apply IPv4_chars in V. rewrite E in V. cbn in V. lia.
Qed.
Lemma v6_cases l : length l = 8%nat -> segs_ok l -> exists t, v6_text l = t /\ IPv6address t /\ map lower t = t.
Proof.
  intros L H. eexists. split; [reflexivity|].
  assert (Low : forall l, segs_ok l -> map lower (fmt_tail l) = fmt_tail l /\ map lower (fmt_subslice l) = fmt_subslice l).
  { induction 1 as [|x k Hx Hk IH]; [auto|]. destruct IH as [I1 I2]. cbn [fmt_tail fmt_subslice]. rewrite !map_app, I1. rewrite (proj2 (u16_hex_ok x Hx)). auto. }
  assert (Gen : IPv6address (v6_general_text l) /\ map lower (v6_general_text l) = v6_general_text l).
  { split; [now apply v6_general|]. unfold v6_general_text. destruct (zero_run 0 l (0, 0)%nat (0, 0)%nat) as [st len]. destruct (Nat.ltb 1 len); [|now apply Low].
    rewrite !map_app. f_equal; [|f_equal]; try reflexivity; apply Low.
    - rewrite <- (firstn_skipn st l) in H. now apply Forall_app in H.
    - rewrite <- (firstn_skipn (st + len) l) in H. now apply Forall_app in H. }
  destruct l as [|a [|b [|c [|d [|e [|f [|g [|h [|? ?]]]]]]]]]; try discriminate L. unfold v6_text. destruct (seqb [a; b; c; d; e; f] [0; 0; 0; 0; 0; 65535]); [|exact Gen].
  assert (Hg : g < 65536 /\ h < 65536). { unfold segs_ok in H. rewrite Forall_forall in H. split; apply H; cbn; tauto. }
  split; [now apply v6_mapped|]. rewrite map_app. rewrite (lower_v4 (v4_text _ _ _ _)); [reflexivity|]. apply v4_ok; unfold octet; try (apply N.mod_lt; lia); apply N.div_lt_upper_bound; lia.
Qed.

(** ** The authority *)
Definition ip_ok (h : HostRepr) : Prop :=
  match h with
  | HostIp (V4 x y z w) => octet x /\ octet y /\ octet z /\ octet w
  | HostIp (V6 l) => length l = 8%nat /\ segs_ok l
  | _ => True
  end.
Lemma host_lower_normal S h : host S h -> none (N.eqb 37) h = true -> forallb is_ascii h = true -> map lower h = h -> host_normal S h h.
Proof.
  intros Hh Hn Ha Hl. replace h with (lower_raw h) at 2 by (rewrite lower_raw_none; auto). apply hn_ascii; [|now apply pn_id].
  exists h. split.
  - clear Hh Hl. induction h as [|c r IH]; [constructor|]. rewrite none_cons in Hn. apply andb_prop in Hn. destruct Hn as [N1 N2]. cbn [forallb] in Ha. apply andb_prop in Ha. destruct Ha as [A1 A2].
    assert (X := IH N2 A2). unfold is_ascii in A1. apply N.ltb_lt in A1. replace (c :: r) with (utf8 c ++ r) at 2; [constructor; auto; apply negb_true_iff, N.eqb_neq in N1; congruence|].
    unfold utf8. replace (c <? 128) with true by (symmetry; now apply N.ltb_lt). reflexivity.
  - apply Forall_forall. intros x Hx. rewrite forallb_forall in Ha. apply Ha in Hx. unfold is_ascii in Hx. now apply N.ltb_lt.
Qed.
Lemma v6c_class (f : N -> bool) c : v6c c = true -> forallb f (lit "0123456789ABCDEFabcdef:.") = true -> f c = true.
Proof.
  intros H A. rewrite forallb_forall in A. apply A. unfold v6c in H. apply orb_prop in H. destruct H as [H|H]; [apply orb_prop in H; destruct H as [H|H]|].
  - apply hex_in in H. revert H. unfold hexchars. cbn. tauto.
  - apply N.eqb_eq in H. subst. cbn. tauto.
  - apply N.eqb_eq in H. subst. cbn. tauto.
Qed.
Lemma v6c_str h : forallb v6c h = true -> none (N.eqb 37) h = true /\ forallb is_ascii h = true.
Proof.
  intros H. split.
  - unfold none. eapply forallb_impl; [|exact H]. intros c Hc. now apply v6c_class with (f := fun c => negb (37 =? c)).
  - eapply forallb_impl; [|exact H]. intros c Hc. now apply v6c_class.
Qed.
Lemma ip_host S h : ip_ok h -> match h with HostString _ => True | HostIp _ => host S (host_text h) /\ host_normal S (host_text h) (host_text h) end.
Proof.
  destruct h as [s|[x y z w|l]]; cbn [ip_ok host_text]; auto.
  - intros (A & B & C & D). assert (V := v4_ok _ _ _ _ A B C D). assert (Hh : host S (v4_text x y z w)) by (right; now left). split; auto.
    destruct (v6c_str _ (v4_v6c _ V)). apply host_lower_normal; auto. now apply lower_v4.
  - intros [L H]. destruct (v6_cases l L H) as (t & -> & V & Lo). assert (Hh : host S (lit "[" ++ t ++ lit "]")).
    { left. exists (lit "["). eexists. split; [reflexivity|]. split; [reflexivity|]. eexists. exists (lit "]"). split; [reflexivity|]. split; [now left|reflexivity]. }
    split; auto. destruct (v6c_str _ (IPv6_chars _ V)) as [A B]. apply host_lower_normal; auto.
    + rewrite !none_app, A. reflexivity.
    + rewrite !forallb_app, B. reflexivity.
    + rewrite !map_app, Lo. reflexivity.
Qed.
Definition auth_values (a : AuthorityBuilder) : Prop := match ab_port a with PortInteger n => n < 65536 | _ => True end /\ ip_ok (ab_host a).
Lemma values_auth b : values_ok b <-> match b_authority b with Some a => auth_values a | None => True end.
Proof. unfold values_ok, auth_values, ip_ok. destruct (b_authority b) as [a|]; [|tauto]. destruct (ab_host a) as [?|[? ? ? ?|?]]; tauto. Qed.
Lemma vu_np S u : validate_userinfo S u <> Panic.
Proof. apply check_np. Qed.
Lemma existsb_colon u : existsb (N.eqb COLON) u = false <-> ~ In 58 u.
Proof.
  split.
  - intros H I. assert (existsb (N.eqb COLON) u = true) by (apply existsb_exists; exists 58; split; auto). congruence.
  - intros H. destruct (existsb (N.eqb COLON) u) eqn:E; auto. apply existsb_exists in E. destruct E as (x & I & E). apply N.eqb_eq in E. now subst.
Qed.
Lemma vab_np S a : validate_authority_builder S a <> Panic.
Proof.
  unfold validate_authority_builder. destruct (ab_userinfo a) as [|u|u [p|]].
  all: repeat match goal with
       | |- context [existsb ?f ?u] => destruct (existsb f u)
       | |- context [validate_userinfo ?S ?u] => let E := fresh "E" in destruct (validate_userinfo S u) as [[]| |] eqn:E; [| |now apply vu_np in E]
       end; cbn [bind]; try discriminate.
  all: destruct (ab_host a) as [h|h]; cbn [bind]; [destruct (validate_host S h) as [[]| |] eqn:E'; [| |now apply validate_host_np in E']; cbn [bind]; try discriminate|].
  all: destruct (ab_port a); try discriminate; destruct (negb _); discriminate.
Qed.
Lemma vab_iff S a : auth_values a -> (validate_authority_builder S a = Ok tt <-> authority_parts_ok S a).
Proof.
  intros [Vp _]. unfold validate_authority_builder, authority_parts_ok.
  set (X := match ab_userinfo a with UiNone => Ok tt | _ => _ end).
  set (XP := match ab_userinfo a with UiNone => True | _ => _ end).
  set (Z := match ab_port a with PortEmpty => Ok tt | _ => _ end).
  assert (HX : X = Ok tt <-> XP).
  { subst X XP. destruct (ab_userinfo a) as [|u|u p]; [tauto|apply validate_userinfo_iff|]. destruct (existsb (N.eqb COLON) u) eqn:E.
    - split; [discriminate|]. intros [H _]. apply existsb_colon in H. congruence.
    - apply existsb_colon in E. destruct (validate_userinfo S u) as [[]|e|] eqn:U; cbn [bind].
      + apply validate_userinfo_iff in U. destruct p as [p|]; [rewrite validate_userinfo_iff|]; cbn [opt_in]; tauto.
      + split; [discriminate|]. intros (_ & H & _). apply validate_userinfo_iff in H. congruence.
      + split; [discriminate|]. intros (_ & H & _). apply validate_userinfo_iff in H. congruence. }
  assert (HZ : Z = Ok tt <-> opt_in port (port_text (ab_port a))).
  { subst Z. destruct (ab_port a) as [|n|s]; cbn [port_text opt_in]; [tauto| |].
    - split; auto. intros _. now apply u16_dec_ok.
    - rewrite port_iff. unfold all_digits. destruct (forallb is_digit s); cbn [negb]; split; auto; discriminate. }
  rewrite <- HX, <- HZ. clearbody X XP Z. destruct X as [[]| |]; cbn [bind]; [|split; [discriminate|intros [? _]; discriminate]..].
  destruct (ab_host a) as [h|i]; cbn [bind]; [|split; [auto|intros (H1 & H2 & H3); exact H3]].
  rewrite <- validate_host_iff. destruct (validate_host S h) as [[]| |]; cbn [bind]; [split; [auto|intros (H1 & H2 & H3); exact H3]|split; [discriminate|intros (_ & ? & _); discriminate]..].
Qed.
Lemma userinfo_app S a b : userinfo S a -> userinfo S b -> userinfo S (a ++ lit ":" ++ b).
Proof.
  intros A B. apply userinfo_scan in A, B. apply userinfo_scan. rewrite scan_app by exact A. change (lit ":" ++ b) with (COLON :: b). rewrite scan_cons by discriminate. rewrite B. destruct S; reflexivity.
Qed.
Lemma parts_text S a : auth_values a -> authority_parts_ok S a ->
  opt_in (userinfo S) (userinfo_text (ab_userinfo a)) /\ host S (host_text (ab_host a)) /\ opt_in port (port_text (ab_port a)).
Proof.
  intros [Vp Vh] (Hu & Hh & Hp). split; [|split; auto].
  - destruct (ab_userinfo a) as [|u|u [p|]]; cbn in *; auto; [|tauto]. apply userinfo_app; tauto.
  - destruct (ab_host a) as [h|h]; auto. now apply (ip_host S (HostIp h)).
Qed.
Lemma parts_authority S a : auth_values a -> authority_parts_ok S a -> authority S (authority_text a).
Proof. intros V H. apply authority_comps. destruct (parts_text S a V H) as (A & B & C). exists (userinfo_text (ab_userinfo a)), (host_text (ab_host a)), (port_text (ab_port a)). auto. Qed.

Lemma fmt_auth_raw S a : outs (fmt_authority S a false) = Some (authority_text a, tt).
Proof.
  unfold fmt_authority, authority_text, authority_string.
  eapply outs_bind with (a := tt).
  { destruct (ab_userinfo a) as [|u|u [p|]]; cbn [userinfo_text]; [reflexivity| | |].
    - eapply outs_bind; [apply outs_write|]. apply outs_write.
    - rewrite <- !app_assoc. eapply outs_bind; [apply outs_write|]. rewrite app_assoc. eapply outs_bind; [|apply outs_write].
      eapply outs_bind; [apply outs_write|]. apply outs_write.
    - eapply outs_bind; [apply outs_write|]. apply outs_write. }
  cbv beta. eapply outs_bind with (a := tt).
  { destruct (ab_host a) as [h|[x y z w|l]]; cbn [host_text]; try apply outs_write.
    eapply outs_bind; [apply outs_write|]. eapply outs_bind; apply outs_write. }
  cbv beta. destruct (ab_port a) as [|n|s]; cbn [port_text]; [reflexivity| |].
  - eapply outs_bind; apply outs_write.
  - rewrite andb_false_r. cbn [negb]. eapply outs_bind; apply outs_write.
Qed.
Lemma fmt_auth_norm S a : auth_values a -> authority_parts_ok S a -> exists a', authority_normal S (authority_text a) a' /\ outs (fmt_authority S a true) = Some (a', tt).
Proof.
  intros V P. destruct (parts_text S a V P) as (Tu & Th & Tp). destruct V as [Vp Vh], P as (Hu & Hh & Hp).
  assert (Xu : exists u', opt_rel (pct_normal S) (userinfo_text (ab_userinfo a)) u' /\
    outs (match ab_userinfo a with
          | UiNone => wret tt
          | UiDirect u => PctCaseNormalized S u >> write [AT]
          | UiUserPass user password =>
              PctCaseNormalized S user >>
              match password with Some p => write [COLON] >> PctCaseNormalized S p | None => wret tt end >> write [AT]
          end) = Some (match u' with Some x => x ++ lit "@" | None => [] end, tt)).
  { destruct (ab_userinfo a) as [|u|u [p|]]; cbn [userinfo_text] in *.
    - exists None. split; [exact I|reflexivity].
    - destruct (pn_out S u (userinfo_wf _ _ Hu)) as (t & N & E). exists (Some t). split; [exact N|]. eapply outs_bind; [exact E|apply outs_write].
    - destruct Hu as (_ & H1 & H2). destruct (pn_out S u (userinfo_wf _ _ H1)) as (t & N & E). destruct (pn_out S p (userinfo_wf _ _ H2)) as (t2 & N2 & E2).
      exists (Some (t ++ lit ":" ++ t2)). split; [apply pn_app_delim; auto; discriminate|]. rewrite <- !app_assoc. eapply outs_bind; [exact E|]. rewrite app_assoc. eapply outs_bind; [|apply outs_write].
      eapply outs_bind; [apply outs_write|exact E2].
    - destruct Hu as (_ & H1 & _). destruct (pn_out S u (userinfo_wf _ _ H1)) as (t & N & E). exists (Some t). split; [exact N|]. eapply outs_bind; [exact E|]. reflexivity. }
  assert (Xh : exists h', host_normal S (host_text (ab_host a)) h' /\ outs (match ab_host a with
      | HostString h => normalize_host_port S h
      | HostIp (V4 x y z w) => write (v4_text x y z w)
      | HostIp (V6 segs) => write (lit "[") >> write (v6_text segs) >> write (lit "]") end) = Some (h', tt)).
  { destruct (ab_host a) as [h|i].
    - cbn [host_text]. destruct (host_port_norm S h None Hh I) as (h' & N & E). cbn [oport drop_empty_port] in E. rewrite !app_nil_r in E. eauto.
    - destruct (ip_host S (HostIp i) Vh) as [_ N]. exists (host_text (HostIp i)). split; auto. destruct i; cbn [host_text]; [apply outs_write|].
      eapply outs_bind; [apply outs_write|]. eapply outs_bind; apply outs_write. }
  destruct Xu as (u' & Nu & Eu), Xh as (h' & Nh & Eh). exists (authority_string u' h' (drop_empty_port (port_text (ab_port a)))). split.
  - exists (userinfo_text (ab_userinfo a)), (host_text (ab_host a)), (port_text (ab_port a)), u', h'. repeat split; auto.
  - unfold fmt_authority, authority_string. eapply outs_bind; [exact Eu|]. cbv beta. eapply outs_bind; [exact Eh|]. cbv beta.
    destruct (ab_port a) as [|n|s]; cbn [port_text]; [reflexivity| |].
    + destruct (u16_dec_ok n Vp) as [(Ne & _) _]. destruct (u16_dec n) as [|c r] eqn:E; [congruence|]. cbn [drop_empty_port]. eapply outs_bind; apply outs_write.
    + destruct s as [|c r]; [reflexivity|]. cbn [is_empty andb negb drop_empty_port]. eapply outs_bind; apply outs_write.
Qed.
