(** * Bounds on the counters of MCost3.v. *)
From Verif Require Import Base Chars Utf8 MValidate MTrusted MFormat MSearch MPct MPath MNormalize MEncode MTemplate MCost MCost3 PBase PSearch PCost PCost2 PCost3 PCost6.
Open Scope nat_scope.

Lemma take_len : forall s b r, take_xdigits2 s = Ok (b, r) -> length s = 2 + length r.
Proof.
  intros [|u [|l s]] b r; cbn [take_xdigits2]; try discriminate. destruct (is_ascii u && is_ascii l)%bool; [|discriminate].
  destruct (hexdigits_to_byte u l); cbn [bind]; try discriminate. injection 1 as _ <-. reflexivity.
Qed.
Lemma take_snd : forall s, snd (k_take_xdigits2 s) <= 2 /\ snd (k_take_xdigits2 s) <= length s.
Proof. intros. unfold k_take_xdigits2. cbn [snd]. lia. Qed.
Lemma kwrite_snd : forall s, snd (kwrite s) = length s. Proof. reflexivity. Qed.
Lemma upper_len : forall b, length (pct_upper b) = 3. Proof. reflexivity. Qed.
Lemma triplets_end : forall bs, snd (write_triplets bs) = Ret tt.
Proof. induction bs as [|b bs IH]; [reflexivity|]. cbn [write_triplets]. rewrite wbind_end. cbn [write snd]. exact IH. Qed.
Lemma continue_spec : forall n buf rest, let x := k_read_continue n buf rest in
  match snd (fst x) with
  | Ret (CDone b r) => snd x = 3 * n /\ length rest = 3 * n + length r /\ length b = length buf + n
  | Ret (CNext r) => snd x + 4 * length r <= 4 * length rest + 3 * length buf + 3
  | _ => snd x <= 4 * length rest + 3 * length buf + 3
  end.
Proof.
  induction n as [|n IH]; intros buf rest x; subst x; [cbn; lia|]. cbn [k_read_continue]. destruct rest as [|c after].
  - rewrite kwbind_snd, kwbind_fst, wbind_end. cbn [k_write_triplets fst snd]. rewrite triplets_end. cbn [kwret fst snd wret length]. lia.
  - rewrite kwbind_snd, kwbind_fst, wbind_end. cbn [kpure fst snd wret]. destruct (c =? PCT)%N.
    + rewrite kwbind_snd, kwbind_fst, wbind_end. cbn [klift fst snd]. pose proof (take_snd after) as [T1 T2].
      destruct (k_take_xdigits2 after) as [y m] eqn:E. cbn [fst snd] in *. assert (y = take_xdigits2 after) as -> by (unfold k_take_xdigits2 in E; congruence).
      assert (m = Nat.min 2 (length after)) as -> by (unfold k_take_xdigits2 in E; congruence).
      destruct (take_xdigits2 after) as [[b r]|e|] eqn:Et; [| destruct e |cbn [lift wpanic snd length]; lia].
      apply take_len in Et. cbn [lift wret snd]. destruct (negb _).
      * rewrite kwbind_snd, kwbind_fst, wbind_end. cbn [k_write_triplets fst snd]. rewrite triplets_end. cbn [kwret fst snd wret length]. lia.
      * specialize (IH (buf ++ [b]) r). cbn zeta in IH. rewrite app_length in IH. cbn [length] in *.
        destruct (snd (fst (k_read_continue n (buf ++ [b]) r))) as [[r'| |b' r']| |]; lia.
    + rewrite kwbind_snd, kwbind_fst, wbind_end. cbn [k_write_triplets fst snd]. rewrite triplets_end.
      rewrite kwbind_snd, kwbind_fst, wbind_end. cbn [kwrite write kwret fst snd wret length]. lia.
Qed.
Lemma slice_tail_len : forall (s : str) a x, slice_p s a (length s) = Ok x -> length x = length s - a /\ a <= length s.
Proof.
  intros s a x. unfold slice_p, slice. destruct (Nat.leb a (length s) && Nat.leb (length s) (length s))%bool eqn:E; [|discriminate]. injection 1 as <-.
  apply andb_prop in E as [E _]. apply Nat.leb_le in E. rewrite firstn_length, skipn_length. lia.
Qed.
Lemma pct_loop_le : forall S fuel s, snd (k_pct_loop S fuel s) <= 4 * length s.
Proof.
  intros S. induction fuel as [|fuel IH]; intros s; [cbn; lia|]. cbn [k_pct_loop]. destruct (is_empty s); [cbn; lia|].
  rewrite kwbind_snd. cbn [kpure fst snd wret]. destruct (hole_spec s PCT) as (o & m & E & H). rewrite E. cbn [fst snd]. destruct o as [[a b]|]; [|rewrite kwrite_snd; lia].
  rewrite kwbind_snd, kwrite_snd. cbn [kwrite write fst snd]. rewrite kwbind_snd. cbn [klift fst snd]. pose proof (take_snd b) as [T1 T2].
  cbn [k_take_xdigits2 fst snd] in *. destruct (take_xdigits2 b) as [[f r]|e|] eqn:Et; [| destruct e |cbn [lift wpanic snd length]; lia].
  apply take_len in Et. cbn [lift wret snd]. destruct (f <? 128)%N.
  - rewrite kwbind_snd. pose proof (IH r). destruct (is_ascii_unreserved f); rewrite kwrite_snd; cbn [kwrite write fst snd length]; try rewrite upper_len; lia.
  - destruct (expected_len f) as [len|].
    + rewrite kwbind_snd. pose proof (continue_spec (len - 1) [f] r) as C. cbn zeta in C. cbn [length] in C.
      destruct (snd (fst (k_read_continue (len - 1) [f] r))) as [[r'| |buf r']| |]; try lia.
      * pose proof (IH r'). lia.
      * cbn [kwret snd]. lia.
      * destruct C as (C1 & C2 & C3). rewrite kwbind_snd. cbn [klift kret fst snd]. destruct (into_char_trusted buf) as [[c|]|e|]; [| | destruct e |cbn [lift wpanic snd]; lia]; cbn [lift wret snd].
        -- rewrite kwbind_snd. pose proof (IH r'). destruct (is_unreserved S c); [rewrite kwrite_snd; cbn [kwrite write fst snd length]; lia|].
           cbn [k_write_triplets fst snd]. rewrite triplets_end. lia.
        -- rewrite kwbind_snd. cbn [klift kret fst snd]. destruct (slice_p r ((len - 1) * 3) (length r)) as [r2|e|] eqn:Es; [| destruct e |cbn [lift wpanic snd]; lia]. cbn [lift wret snd].
           apply slice_tail_len in Es. rewrite kwbind_snd. cbn [k_write_triplets fst snd]. rewrite triplets_end. pose proof (IH r2). lia.
    + rewrite kwbind_snd, kwrite_snd, upper_len. cbn [kwrite write fst snd]. pose proof (IH r). lia.
Qed.
Lemma pct_display_le : forall S s, snd (k_PctCaseNormalized S s) <= 4 * length s.
Proof. intros. apply pct_loop_le. Qed.
Lemma ascii_host_le : forall s, snd (k_NormalizedAsciiOnlyHost s) <= 4 * length s.
Proof.
  intros s. unfold k_NormalizedAsciiOnlyHost. generalize (1 + length s). intros fuel. revert s. induction fuel as [|fuel IH]; intros s; [cbn; lia|].
  cbn [k_ascii_host_loop]. destruct (is_empty s); [cbn; lia|].
  rewrite kwbind_snd. cbn [kpure fst snd wret]. destruct (hole_spec s PCT) as (o & m & E & H). rewrite E. cbn [fst snd]. destruct o as [[a b]|]; [|cbn [k_write_lower snd]; lia].
  rewrite kwbind_snd. cbn [k_write_lower write_lower fst snd]. rewrite kwbind_snd. cbn [klift fst snd]. pose proof (take_snd b) as [T1 T2].
  cbn [k_take_xdigits2 fst snd] in *. destruct (take_xdigits2 b) as [[f r]|e|] eqn:Et; [| destruct e |cbn [lift wpanic snd length]; lia].
  apply take_len in Et. cbn [lift wret snd]. destruct (negb _); [cbn [kwpanic snd]; lia|]. rewrite kwbind_snd. pose proof (IH r).
  destruct (is_ascii_unreserved f); rewrite kwrite_snd; cbn [kwrite write fst snd length]; try rewrite upper_len; lia.
Qed.
Lemma ascii_only_le : forall s, snd (k_is_ascii_only_host s) <= length s.
Proof.
  intros s. unfold k_is_ascii_only_host. generalize (1 + length s). intros fuel. revert s. induction fuel as [|fuel IH]; intros s; [cbn; lia|].
  cbn [k_ascii_only_loop]. rewrite kbind_snd. cbn [k_first fst snd]. pose proof (count_le (fun c => negb (is_ascii c) || (c =? PCT)%N)%bool s) as Hc.
  destruct (split_first _ s) as [[[a c] b]|] eqn:E; [|cbn [kret snd]; lia]. apply count_some in E. destruct (negb _); [cbn [kret snd]; lia|].
  rewrite kand_snd. pose proof (take_snd b). cbn [k_take_xdigits2 fst snd] in *. destruct (take_xdigits2 b) as [[x r]|e|] eqn:Et; try lia. apply take_len in Et.
  destruct (negb _); [cbn [kret snd]; lia|]. pose proof (IH r). lia.
Qed.
Lemma is_pct_le : forall S s, snd (k_is_pct_case_normalized S s) <= 5 * length s.
Proof. intros. unfold k_is_pct_case_normalized, k_eq_str_display. cbn [snd]. pose proof (pct_display_le S s). lia. Qed.
Lemma segments_le : forall s, length (split_slash s) <= 1 + length s.
Proof. induction s as [|c s IH]; [cbn; lia|]. cbn [split_slash]. destruct (split_slash s) as [|h t]; [cbn; lia|]. cbn [length] in *. destruct (c =? SLASH)%N; cbn [length] in *; lia. Qed.
Lemma dots_le : forall p, snd (k_dots p) <= 4 * length p + 3.
Proof. intros. unfold k_dots. cbn [snd]. pose proof (segments_le p). lia. Qed.
Lemma slice_len : forall (s : str) a b x, slice_p s a b = Ok x -> length x <= length s.
Proof. intros s a b x. unfold slice_p, slice. destruct (_ && _)%bool; [|discriminate]. injection 1 as <-. rewrite firstn_length, skipn_length. lia. Qed.
Lemma host_len : forall ac h, ac_host ac = Ok h -> length h <= length (au_str ac).
Proof. intros ac h. apply slice_len. Qed.
Lemma user_len : forall ac u, ac_userinfo ac = Ok (Some u) -> length u <= length (au_str ac).
Proof.
  intros ac u. unfold ac_userinfo. destruct (host_start ac); [discriminate|]. destruct (nth_error _ _); [|discriminate]. destruct (_ =? _)%N; [|discriminate].
  destruct (slice_p _ _ _) eqn:E; cbn [bind]; try discriminate. injection 1 as <-. eapply slice_len. exact E.
Qed.
Lemma colon_parts : forall i r s, fst (k_scheme_colon i) = Ok (r, s) -> snd (k_scheme_colon i) = length s + 1 /\ length i = length s + 1 + length r.
Proof.
  intros i r s. unfold k_scheme_colon. rewrite kbind_fst, kbind_snd, kret_fst, kret_snd. destruct (hole_spec i COLON) as (o & m & E & H). rewrite E. cbn [fst snd].
  destruct o as [[a b]|]; [|discriminate]. injection 1 as <- <-. lia.
Qed.
Lemma slash_parts : forall i r a, fst (k_slash_slash_authority_opt i) = (r, a) ->
  match a with Some a => snd (k_slash_slash_authority_opt i) <= length a + 3 /\ length i = 2 + length a + length r | None => r = i /\ snd (k_slash_slash_authority_opt i) = 2 end.
Proof.
  intros i r a. unfold k_slash_slash_authority_opt, k_strip. rewrite kbind_fst, kbind_snd. cbn [fst snd length].
  destruct (strip_prefix [SLASH; SLASH] i) as [s|] eqn:E; [|cbn; injection 1 as <- <-; auto]. apply strip_length in E. cbn [length] in E.
  unfold k_find_split3, k_first. rewrite !kbind_fst, !kbind_snd, !kret_fst, !kret_snd. cbn [fst snd].
  set (p := fun c => _). pose proof (count_le p s). destruct (split_first p s) as [[[x c] b]|] eqn:E'; [apply count_some in E'|]; cbn [fst]; injection 1 as <- <-; cbn [length]; lia.
Qed.
Lemma until_parts : forall i r p, fst (k_until_query i) = (r, p) -> snd (k_until_query i) <= length i /\ length p <= length i.
Proof.
  intros i r p. unfold k_until_query, k_find_split2, k_first. rewrite !kbind_fst, !kbind_snd, !kret_fst, !kret_snd. cbn [fst snd].
  set (q := fun c => _). pose proof (count_le q i). destruct (split_first q i) as [[[a c] b]|] eqn:E'; [apply count_some in E'|]; cbn [fst]; injection 1 as <- <-; lia.
Qed.
Lemma is_normalized_le : forall S i mode, snd (k_is_normalized S i mode) <= 14 * length i + 12.
Proof.
  intros S i mode. unfold k_is_normalized. rewrite kand_snd. pose proof (colon_le i) as L1. destruct (k_scheme_colon i) as [[[i1 sc]|e|] n1] eqn:E1; cbn [fst snd] in *; try lia.
  pose proof (colon_parts i i1 sc) as P1. rewrite E1 in P1. cbn [fst snd] in P1. specialize (P1 eq_refl).
  rewrite kbind_snd. pose proof (slash_parts i1) as P2. destruct (k_slash_slash_authority_opt i1) as [[i2 au] n2]. cbn [fst snd] in *. specialize (P2 _ _ eq_refl).
  rewrite kbind_snd. pose proof (until_parts i2) as P3. destruct (k_until_query i2) as [[i3 pa] n3]. cbn [fst snd] in *. specialize (P3 _ _ eq_refl).
  rewrite kbind_snd. cbn [fst snd]. pose proof (count_le is_upper sc) as P4.
  assert (R : length i1 <= length i /\ length i2 <= length i1) by (destruct au; destruct P2 as [P2 P2']; subst; lia).
  destruct (existsb is_upper sc); [cbn [kret snd]; destruct au; destruct P2 as [P2 P2']; subst; lia|].
  rewrite kand_snd.
  match goal with |- _ + (_ + (_ + (_ + (snd ?x + _)))) <= _ => set (y := x); assert (P5 : snd y <= 13 * match au with Some a => length a | None => 0 end) end.
  { subst y. destruct au as [a|]; [|cbn; lia]. rewrite kbind_snd. pose proof (authority_split_le a) as Q1. rewrite authority_split_fst.
    destruct (k_decompose_authority a) as [ac0 m0]. cbn [fst snd] in *. rewrite kand_snd. cbn [kret fst snd].
    assert (Ea : au_str (decompose_authority a) = a).
    { unfold decompose_authority. destruct (find_split_hole a AT) as [[u r]|]; destruct (rfind_split2 _ COLON RBRACK) as [[p s]|]; try destruct (starts_with [COLON] s); reflexivity. }
    destruct (ac_host (decompose_authority a)) as [h|e|] eqn:Eh; try lia. apply host_len in Eh. rewrite Ea in Eh.
    rewrite kand_snd. pose proof (ascii_only_le h) as Q2. destruct (fst (k_is_ascii_only_host h)) as [ao|e|]; try lia.
    rewrite kand_snd.
    assert (Q3 : snd (if ao then k_eq_str_display h (k_NormalizedAsciiOnlyHost h) else k_is_pct_case_normalized S h) <= 5 * length h).
    { destruct ao; [|apply is_pct_le]. unfold k_eq_str_display. cbn [snd]. pose proof (ascii_host_le h). lia. }
    match goal with |- _ + (_ + (_ + (snd ?x + match fst ?x' with _ => _ end))) <= _ => change (snd x <= 5 * length h) in Q3; destruct (fst x') as [hn|e|] end; try lia.
    destruct (negb hn); [cbn [kret snd]; lia|]. rewrite kand_snd. cbn [kret fst snd].
    destruct (ac_userinfo (decompose_authority a)) as [[u|]|e|] eqn:Eu; cbn [kret snd]; try lia. apply user_len in Eu. rewrite Ea in Eu. pose proof (is_pct_le S u). lia. }
  assert (T : n1 + n2 + n3 + count_first is_upper sc + snd y <= 2 * length sc + 14 * match au with Some a => length a | None => 0 end + length i2 + 4).
  { destruct au; destruct P2 as [P2 P2']; subst; lia. }
  assert (T2 : length sc + match au with Some a => length a | None => 0 end + length i2 + 1 <= length i) by (destruct au; destruct P2 as [P2 P2']; subst; lia).
  clear P5. destruct (fst y) as [ok|e|]; try lia. destruct (negb ok); [cbn [kret snd]; lia|].
  rewrite kbind_snd. match goal with |- context [snd (kbind match ?z with _ => _ end _)] => set (span := z) end.
  match goal with |- context [snd ?x + snd (kbind _ _)] => assert (P6 : snd x <= 5 /\ match fst x with Some p => length p <= length pa | None => True end) end.
  { destruct (is_some au); [cbn; lia|]. destruct mode.
    - unfold kbind. cbn [k_strip kret fst snd]. destruct (strip_prefix (lit "/.//") pa) as [r|] eqn:Es; cbn [kret fst snd]; [apply strip_length in Es|]; change (length (lit "/.//")) with 4 in *; split; lia.
    - cbn; lia.
    - unfold kbind. cbn [k_starts fst snd]. destruct (starts_with [SLASH] pa); cbn [k_strip kret fst snd length]; [|split; [lia|exact I]]. destruct (strip_prefix (lit "/.//") pa) as [r|] eqn:Es; cbn [kret fst snd]; [apply strip_length in Es|]; change (length (lit "/.//")) with 4 in *; split; lia. }
  destruct P6 as [P6 P7]. rewrite kbind_snd. pose proof (is_pct_le S i2) as P8. subst span.
  match goal with |- context [match ?z with Some p => k_dots p | None => kret false end] => destruct z as [p|] end.
  - pose proof (dots_le p) as P9. destruct (fst (k_dots p)); cbn [kret snd]; lia.
  - cbn [kret fst snd]. lia.
Qed.
(** Decoding. *)
Lemma strip_decode_spec : forall s, match strip_decode_xdigits2 s with
  | Ok (Some _, r) => length s = 2 + length r | Ok (None, r) => r = s | _ => True end.
Proof.
  intros s. unfold strip_decode_xdigits2. destruct (starts_with_double_hexdigits s); [|reflexivity]. destruct (take_xdigits2 s) as [[d r]|e|] eqn:E; cbn [bind]; auto. apply take_len in E. exact E.
Qed.
Lemma strip_decode_snd : forall s, snd (k_strip_decode s) <= 4 /\ snd (k_strip_decode s) <= 2 * length s.
Proof. intros. unfold k_strip_decode. cbn [snd]. lia. Qed.
Lemma next_le : forall b, match fst (k_fragments_next b) with
  | Ok (Some (_, r)) => snd (k_fragments_next b) + 5 * length r <= 5 * length b
  | _ => snd (k_fragments_next b) <= 5 * length b end.
Proof.
  intros [|c r]; [cbn; lia|]. unfold k_fragments_next. rewrite kbind_fst, kbind_snd. cbn [fst snd]. destruct (c =? PCT)%N.
  - rewrite kand_fst, kand_snd. cbn [k_strip_decode fst snd]. pose proof (strip_decode_spec r) as H. destruct (strip_decode_xdigits2 r) as [[[d|] x]|e|]; cbn [kret fst snd length]; subst; lia.
  - rewrite kbind_fst, kbind_snd. cbn [k_first fst snd kret]. pose proof (count_le (N.eqb PCT) r). destruct (split_first (N.eqb PCT) r) as [[[a p] t]|] eqn:E; [apply count_some in E|]; cbn [length]; lia.
Qed.
Lemma fragments_le : forall b, snd (k_bytes_fragments b) <= 5 * length b.
Proof.
  intros b. unfold k_bytes_fragments. generalize (1 + length b). intros fuel. revert b. induction fuel as [|fuel IH]; intros b; [cbn; lia|]. cbn [k_fragments_collect].
  rewrite kand_snd. pose proof (next_le b) as H. destruct (fst (k_fragments_next b)) as [[[f r]|]|e|]; cbn [kret snd]; try lia.
  rewrite kand_snd. specialize (IH r). destruct (fst (k_fragments_collect fuel r)); cbn [kret snd]; lia.
Qed.
Lemma non_alloc_le : forall fuel b, snd (k_non_allocating_loop fuel b) <= 5 * length b /\
  match fst (k_non_allocating_loop fuel b) with Ok (Some (n, _, r)) => snd (k_non_allocating_loop fuel b) + 5 * length r <= 5 * length b /\ n + 1 + length r <= length b | _ => True end.
Proof.
  induction fuel as [|fuel IH]; intros b; [cbn; lia|]. cbn [k_non_allocating_loop]. destruct (is_empty b); [cbn; lia|].
  rewrite kbind_fst, kbind_snd. destruct (hole_spec b PCT) as (o & m & E & H). rewrite E. cbn [fst snd]. destruct o as [[x y]|]; [|cbn; lia].
  rewrite kand_fst, kand_snd. pose proof (strip_decode_snd y) as [T1 T2]. cbn [k_strip_decode fst snd] in *. pose proof (strip_decode_spec y) as D.
  destruct (strip_decode_xdigits2 y) as [[[d|] r]|e|]; cbn [kret fst snd]; [lia| |split; [lia|exact I]|split; [lia|exact I]]. subst r.
  destruct (IH y) as [I1 I2]. split; [lia|]. destruct (fst (k_non_allocating_loop fuel y)) as [[[[n d'] r]|]|e|]; auto. lia.
Qed.
Lemma to_bytes_le : forall b, snd (k_to_bytes b) <= 5 * length b.
Proof. intros. unfold k_to_bytes. rewrite kand_snd. destruct (non_alloc_le (1 + length b) b) as [H _]. destruct (fst _); cbn [kret snd]; lia. Qed.
Lemma into_loop_le : forall fuel acc b, snd (k_into_bytes_loop fuel acc b) <= 6 * length b.
Proof.
  induction fuel as [|fuel IH]; intros acc b; [cbn; lia|]. cbn [k_into_bytes_loop]. destruct (is_empty b); [cbn; lia|].
  rewrite kbind_snd. destruct (hole_spec b PCT) as (o & m & E & H). rewrite E. cbn [fst snd]. destruct o as [[x y]|]; [|cbn [snd]; lia].
  rewrite kand_snd. pose proof (strip_decode_snd y) as [T1 T2]. cbn [k_strip_decode fst snd] in *. pose proof (strip_decode_spec y) as D.
  destruct (strip_decode_xdigits2 y) as [[o r]|e|]; try lia. rewrite kbind_snd. cbn [fst snd].
  match goal with |- context [snd (k_into_bytes_loop fuel ?a r)] => pose proof (IH a r) end. destruct o; subst; lia.
Qed.
Lemma into_bytes_le : forall b, snd (k_into_bytes b) <= 6 * length b.
Proof.
  intros b. unfold k_into_bytes. rewrite kand_snd. destruct (non_alloc_le (1 + length b) b) as [H1 H2].
  destruct (fst (k_non_allocating_loop (1 + length b) b)) as [[[[n d] r]|]|e|]; cbn [kret snd]; try lia. rewrite kand_snd. cbn [fst snd].
  destruct (slice_p b 0 n) as [p|e|]; try lia. pose proof (into_loop_le (1 + length r) (p ++ [d]) r). lia.
Qed.
