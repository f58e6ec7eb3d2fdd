(** * Proofs for C79: decoding, mapping and templates on bytes. *)
From Verif Require Import Base Chars Utf8 SearchSpec MValidate MTrusted MFormat MSearch MPct MEncode MTemplate MMaybePct MExpand MOffset MBytes MBytes2
  PBase PSearch PScan POffset POffset7 PBytes PPath2 PReserved3.

(** ** Positions *)
Lemma position_gen p s :
  (forall c, p c = true -> exists b l, utf8 c = b :: l /\ p b = true) -> (forall c, p c = false -> Forall (fun b => p b = false) (utf8 c)) ->
  position p (utf8s s) = match split_first p s with Some (a, _, _) => Some (blen a) | None => None end.
Proof.
  intros H1 H2. assert (A : forall u v, Forall (fun b => p b = false) u -> position p (u ++ v) = match position p v with Some n => Some (length u + n)%nat | None => None end).
  { induction 1 as [|b u Hb _ IH]; [cbn; now destruct (position p v)|]. cbn [app position]. rewrite Hb, IH. cbn. now destruct (position p v). }
  induction s as [|c r IH]; [reflexivity|]. rewrite utf8s_cons. cbn [split_first]. destruct (p c) eqn:E.
  - destruct (H1 c E) as (b & l & -> & Hb). cbn [app position]. now rewrite Hb.
  - rewrite A, IH by now apply H2. destruct (split_first p r) as [[[a x] t]|]; [|reflexivity]. now rewrite utf8_len, blen_cons.
Qed.
Lemma split_pos_eq p s :
  (forall c, p c = true -> exists b l, utf8 c = b :: l /\ p b = true) -> (forall c, p c = false -> Forall (fun b => p b = false) (utf8 c)) ->
  b_split_pos p s = Ok (split_pos p s).
Proof.
  intros H1 H2. unfold b_split_pos, split_pos. rewrite position_gen by assumption. destruct (split_first p s) as [[[a x] t]|] eqn:E.
  - apply split_first_some in E. destruct E as (-> & _). now rewrite split_mid.
  - pose proof (split_mid s []) as X. now rewrite app_nil_r in X.
Qed.
Lemma low_byte c : c < 128 -> exists b l, utf8 c = b :: l /\ b < 128.
Proof. intros H. rewrite utf8_ascii_eq by exact H. eauto. Qed.
Lemma high_byte c : 128 <= c -> exists b l, utf8 c = b :: l /\ 128 <= b.
Proof. intros H. pose proof (utf8_high c H) as F. destruct (first_byte c) as (b & l & E & _). rewrite E in F. inversion F. eauto. Qed.
Lemma split_ascii s : b_split_pos (fun b => negb (is_ascii b)) s = Ok (split_pos (fun b => negb (is_ascii b)) s).
Proof.
  apply split_pos_eq; intros c; unfold is_ascii.
  - intros H. apply negb_true_iff, N.ltb_ge in H. destruct (high_byte c H) as (b & l & E & Hb). exists b, l. split; [exact E|]. now apply negb_true_iff, N.ltb_ge.
  - intros H. apply negb_false_iff, N.ltb_lt in H. rewrite utf8_ascii_eq by exact H. repeat constructor. now apply negb_false_iff, N.ltb_lt.
Qed.
Lemma split_nonascii s : b_split_pos is_ascii s = Ok (split_pos is_ascii s).
Proof.
  apply split_pos_eq; intros c; unfold is_ascii.
  - intros H. apply N.ltb_lt in H. rewrite utf8_ascii_eq by exact H. exists c, []. split; [reflexivity|]. now apply N.ltb_lt.
  - intros H. apply N.ltb_ge in H. pose proof (utf8_high c H) as F. eapply Forall_impl; [|exact F]. intros b Hb. now apply N.ltb_ge.
Qed.
Lemma wpe_eq fuel : forall s, b_wpe_loop fuel s = wpe_loop fuel s.
Proof.
  induction fuel as [|fuel IH]; intros s; [reflexivity|]. cbn [b_wpe_loop wpe_loop]. destruct (is_empty s); [reflexivity|]. rewrite split_ascii, lift_bind. destruct (split_pos _ s) as [a r].
  apply bind_ext. intros t. destruct (is_empty t); [reflexivity|]. rewrite split_nonascii, lift_bind. destruct (split_pos is_ascii t) as [n q]. destruct (is_empty n); [reflexivity|]. apply bind_ext. intros _. apply IH.
Qed.
Lemma mapped_eq s : b_MappedToUri s = MappedToUri s.
Proof. apply wpe_eq. Qed.

(** ** Template validation *)
Lemma literal_pos_eq s : forall n, b_literal_pos s n = Ok (match position (fun c => negb (is_ascii c) || negb (is_ascii_literal_char c)) s with Some p => Some (n + p)%nat | None => None end).
Proof.
  induction s as [|c r IH]; intros n; [reflexivity|]. cbn [b_literal_pos position]. unfold is_ascii at 1 2, look. destruct (c <? 128) eqn:E; cbn [negb orb bind].
  - destruct (is_ascii_literal_char c); cbn [negb]; [|now rewrite Nat.add_0_r]. rewrite IH. destruct (position _ r); [|reflexivity]. now rewrite Nat.add_succ_comm.
  - now rewrite Nat.add_0_r.
Qed.
Lemma literal_eq s o : b_validate_literal s o = validate_literal s o.
Proof. unfold b_validate_literal, validate_literal. rewrite literal_pos_eq. cbn [tlift bind]. now destruct (position _ s). Qed.
Lemma varname_eq s o : b_validate_varname s o = validate_varname s o.
Proof.
  unfold b_validate_varname, validate_varname.
  assert (E : forall (x y : tres str), x = y -> (do rest <- x ; do ok <- tlift (b_satisfy is_ascii_varchar_continue (fun _ => false) rest) ; if ok : bool then Ok tt else terr InvalidExpression o) = (do rest <- y ; if satisfy_chars_with_pct_encoded is_ascii_varchar_continue (fun _ => false) rest then Ok tt else terr InvalidExpression o)).
  { intros x y ->. destruct y as [r| |]; [|reflexivity|reflexivity]. cbn [bind]. now rewrite satisfy_eq. }
  apply E. destruct (utf8s s) as [|b bs]; [reflexivity|]. destruct (_ && _); [reflexivity|]. unfold is_ascii, look. destruct (b <? 128); [|reflexivity]. cbn [tlift bind andb]. reflexivity.
Qed.
Lemma varname_new_eq s : b_VarName_new s = VarName_new s.
Proof. unfold b_VarName_new, VarName_new. now rewrite varname_eq. Qed.
Lemma comma_eq fuel : forall s, (length s < fuel)%nat -> b_split_comma fuel s = Ok (split_on (N.eqb COMMA) s).
Proof.
  induction fuel as [|fuel IH]; intros s L; [lia|]. cbn [b_split_comma]. rewrite position_split.
  2:{ intros x Hx. unfold COMMA in Hx. apply N.eqb_eq in Hx. subst. reflexivity. }
  assert (G : forall t, split_on (N.eqb COMMA) t = match split_first (N.eqb COMMA) t with Some (a, _, b) => a :: split_on (N.eqb COMMA) b | None => [t] end).
  { induction t as [|c t IHt]; [reflexivity|]. cbn [split_on split_first]. destruct (N.eqb COMMA c) eqn:Ec; [reflexivity|]. rewrite IHt. now destruct (split_first _ t) as [[[a x] b]|]. }
  rewrite (G s). destruct (split_first (N.eqb COMMA) s) as [[[a x] t]|] eqn:E; [|reflexivity]. apply split_first_some in E. destruct E as (Es & _ & Hx). apply N.eqb_eq in Hx. subst x s.
  rewrite split_mid. cbn [bind]. rewrite (str_from_mid (a ++ COMMA :: t) (a ++ [COMMA]) t); [|now rewrite <- app_assoc|now rewrite blen_app]. cbn [bind].
  rewrite IH; [reflexivity|]. rewrite app_length in L. cbn in L. lia.
Qed.
Lemma u16_eq s : parse_u16 (utf8s s) = parse_u16 s.
Proof.
  assert (D : forall s a, parse_digits a (utf8s s) = parse_digits a s).
  { clear. induction s as [|c r IH]; intros a; [reflexivity|]. rewrite utf8s_cons. cbn [parse_digits]. destruct (is_digit c) eqn:E.
    - rewrite utf8_ascii_eq by now apply digit_ascii. cbn [app parse_digits]. rewrite E. destruct (65535 <? _); [reflexivity|]. apply IH.
    - destruct (c <? 128) eqn:L; [apply N.ltb_lt in L; rewrite utf8_ascii_eq by exact L; cbn [app parse_digits]; now rewrite E|]. apply N.ltb_ge in L. destruct (high_byte c L) as (b & l & -> & Hb). cbn [app parse_digits].
      destruct (is_digit b) eqn:F; [|reflexivity]. apply digit_ascii in F. lia. }
  destruct s as [|c r]; [reflexivity|]. destruct (c <? 128) eqn:L.
  - apply N.ltb_lt in L. rewrite utf8s_cons, utf8_ascii_eq by exact L. cbn [app]. unfold parse_u16. rewrite <- (D r). replace (is_empty (utf8s r)) with (is_empty r).
    + destruct (_ && _); [reflexivity|]. rewrite <- (D (c :: r)), utf8s_cons, utf8_ascii_eq by exact L. reflexivity.
    + destruct r as [|d r]; [reflexivity|]. rewrite utf8s_cons. now destruct (first_byte d) as (b & l & -> & _).
  - apply N.ltb_ge in L. unfold parse_u16. rewrite (proj2 (N.eqb_neq c 43)) by (intros ->; lia). cbn [andb]. rewrite <- (D (c :: r)), utf8s_cons. destruct (high_byte c L) as (b & l & E & Hb). rewrite E. cbn [app].
    rewrite (proj2 (N.eqb_neq b 43)) by (intros ->; lia). reflexivity.
Qed.
Lemma suffix_eq s c : c < 128 -> b_strip_suffix_char s c = Ok (strip_suffix_char s c).
Proof.
  intros Hc. unfold b_strip_suffix_char, strip_suffix_char. destruct s as [|x r _] using rev_ind; [reflexivity|].
  assert (U : exists y z, utf8s (r ++ [x]) = y :: z). { destruct (utf8s (r ++ [x])) eqn:E; [|eauto]. apply (f_equal (@length N)) in E. rewrite utf8s_len, blen_app, blen_cons in E. pose proof (clen_pos x). cbn in E. lia. }
  destruct U as (y & z & U). rewrite rev_app_distr. cbn [rev app]. rewrite rev_involutive. rewrite U. rewrite <- U, last_of_bytes by exact Hc. destruct (x =? c) eqn:E; [|reflexivity]. apply N.eqb_eq in E. subst x.
  replace (blen (r ++ [c]) - 1)%nat with (blen r) by (rewrite blen_app, blen_ascii by exact Hc; lia). now rewrite split_mid.
Qed.

(** ** Truncation *)
Lemma take_split n s : forall i l, s = snd (take_chars n i s l) ++ chars_after n s.
Proof.
  revert n. induction s as [|c r IH]; intros n i l; [reflexivity|]. cbn [take_chars chars_after]. destruct (n =? 0); [reflexivity|].
  specialize (IH (n - 1) (i + N.of_nat (clen c)) (Some i)). destruct (take_chars (n - 1) _ r (Some i)) as [l' t]. cbn [snd] in *. cbn [app]. now rewrite <- IH.
Qed.
Lemma take_cut n s l : (do (x, _) <- str_split_at s (blen s - blen (chars_after n s)) ; Ok x) = Ok (snd (take_chars n 0 s l)) /\ exists y, str_split_at s (blen s - blen (chars_after n s)) = Ok (snd (take_chars n 0 s l), y).
Proof.
  pose proof (take_split n s 0 l) as E. set (x := snd _) in *. set (y := chars_after n s) in *. clearbody x y. subst s. rewrite blen_app. replace (blen x + blen y - blen y)%nat with (blen x) by lia. rewrite split_mid. cbn [bind]. eauto.
Qed.
Lemma usize_quiet debug a b : (exists n, usize_sub debug a b = wret n) \/ usize_sub debug a b = wpanic.
Proof. unfold usize_sub. destruct (b <=? a); [eauto|]. destruct debug; eauto. Qed.
Lemma maxlen_eq S debug n fr : b_maxlen_frag S debug n fr = maxlen_frag S debug n fr.
Proof.
  unfold b_maxlen_frag, maxlen_frag. destruct (n =? 0); [reflexivity|]. destruct fr as [s| | |]; try reflexivity.
  destruct (take_cut n s None) as (_ & y & E). destruct (take_chars n 0 s None) as [[c|] t]; cbn [fst snd] in *; [|reflexivity]. apply bind_ext. intros k. rewrite E, lift_bind. reflexivity.
Qed.
Lemma truncate_eq S debug n s : b_truncate_write S debug n s = truncate_write S debug n s.
Proof.
  unfold b_truncate_write, truncate_write. destruct (n =? 0); [reflexivity|]. destruct (take_cut n s None) as (_ & y & E). destruct (take_chars n 0 s None) as [l t]; cbn [fst snd] in *. rewrite E, lift_bind. reflexivity.
Qed.
Lemma truncates_eq S debug l : forall n, b_truncate_chunks S debug n l = truncate_chunks S debug n l.
Proof. induction l as [|s r IH]; intros n; [reflexivity|]. cbn [b_truncate_chunks truncate_chunks]. rewrite truncate_eq. apply bind_ext. intros k. apply IH. Qed.
Lemma bind_cong {A B} (x y : W A) (f g : A -> W B) : x = y -> (forall a, f a = g a) -> wbind x f = wbind y g.
Proof. intros ->. apply bind_ext. Qed.
Lemma dbind_cong {St A B} (x y : D St A) (f g : A -> St -> D St B) : x = y -> (forall a c, f a c = g a c) -> dbind x f = dbind y g.
Proof. intros -> H. destruct y as [o [a c|e c|]]; cbn [dbind]; [now rewrite H|reflexivity|reflexivity]. Qed.
Lemma rbind_cong {E A B} (x y : res E A) (f g : A -> res E B) : x = y -> (forall a, f a = g a) -> bind x f = bind y g.
Proof. intros -> H. destruct y; cbn [bind]; auto. Qed.

Section M.
Context (m : option memchr_crate) (Hm : sound m).

(** ** Decoding *)
Lemma pct_pos_eq h : pct_pos m h = match split_first (N.eqb PCT) h with Some (a, _, _) => Some (length a) | None => None end.
Proof.
  assert (P : forall p, (forall b, p b = N.eqb PCT b) -> position p h = match split_first (N.eqb PCT) h with Some (a, _, _) => Some (length a) | None => None end).
  { intros p Hp. induction h as [|b r IH]; [reflexivity|]. cbn [position split_first]. rewrite Hp, IH. destruct (N.eqb PCT b); [reflexivity|]. now destruct (split_first _ r) as [[[a x] t]|]. }
  unfold pct_pos. destruct m as [c|]; [|now apply P]. rewrite (memchr_eq c Hm). apply P. intros b. unfold is1. apply N.eqb_sym.
Qed.
Lemma from_mid (a b : list N) n : n = length a -> bytes_from (a ++ b) n = Ok b.
Proof. intros ->. unfold bytes_from. apply (slice_mid _ a b []); [now rewrite app_nil_r|reflexivity|now rewrite app_length]. Qed.
Lemma non_alloc_eq fuel : forall r, b_non_allocating_loop m fuel r = non_allocating_loop fuel r.
Proof.
  induction fuel as [|fuel IH]; intros r; [reflexivity|]. cbn [b_non_allocating_loop non_allocating_loop]. destruct (is_empty r); [reflexivity|]. rewrite pct_pos_eq. unfold find_split_hole.
  destruct (split_first (N.eqb PCT) r) as [[[a x] t]|] eqn:E; [|reflexivity]. apply split_first_some in E. destruct E as (-> & _). replace (a ++ x :: t) with ((a ++ [x]) ++ t) by now rewrite <- app_assoc. rewrite from_mid by now rewrite app_length.
  cbn [bind]. apply rbind_cong; [reflexivity|]. intros [[d|] rest]; [reflexivity|]. apply IH.
Qed.
Lemma try_eq b : b_try_non_allocating_decode m b = try_non_allocating_decode b.
Proof. apply non_alloc_eq. Qed.
Lemma to_bytes_eq b : b_to_bytes m b = to_bytes b.
Proof. unfold b_to_bytes, to_bytes. now rewrite try_eq. Qed.
Lemma hole_bytes_eq h n : fs_hole_bytes m h n = Ok (find_split_hole h n).
Proof. unfold fs_hole_bytes. destruct m as [c|]; [exact (proj2 (find_split_hole_bytes_agree c h n Hm))|exact (proj1 (find_split_hole_bytes_agree _ h n simple_contract))]. Qed.
Lemma into_loop_eq fuel : forall x r, b_into_bytes_loop m fuel x r = into_bytes_loop fuel x r.
Proof.
  induction fuel as [|fuel IH]; intros x r; [reflexivity|]. cbn [b_into_bytes_loop into_bytes_loop]. destruct (is_empty r); [reflexivity|]. rewrite hole_bytes_eq. cbn [bind]. destruct (find_split_hole r PCT) as [[a t]|]; [|reflexivity].
  apply rbind_cong; [reflexivity|]. intros [d rest]. apply IH.
Qed.
Lemma into_bytes_eq b : b_into_bytes m b = into_bytes b.
Proof. unfold b_into_bytes, into_bytes. rewrite try_eq. apply rbind_cong; [reflexivity|]. intros [[[n d] r]|]; [|reflexivity]. apply rbind_cong; [reflexivity|]. intros p. apply into_loop_eq. Qed.
Lemma fragments_next_eq r : b_fragments_next m r = fragments_next r.
Proof.
  unfold b_fragments_next, fragments_next. destruct r as [|c r]; [reflexivity|]. destruct (c =? PCT); [reflexivity|]. rewrite pct_pos_eq. destruct (split_first (N.eqb PCT) r) as [[[a x] t]|] eqn:E.
  - apply split_first_some in E. destruct E as (-> & _). change (c :: a ++ x :: t) with ((c :: a) ++ x :: t). rewrite (slice_mid _ [] (c :: a) (x :: t)) by (cbn; reflexivity || lia). cbn [bind]. rewrite from_mid by (cbn; lia). reflexivity.
  - replace (c :: r) with ((c :: r) ++ []) at 1 by apply app_nil_r. rewrite from_mid by reflexivity. reflexivity.
Qed.
Lemma fragments_eq b : b_bytes_fragments m b = bytes_fragments b.
Proof.
  unfold b_bytes_fragments, bytes_fragments. generalize (1 + length b)%nat as fuel. intros fuel. revert b. induction fuel as [|fuel IH]; intros b; [reflexivity|]. cbn [b_fragments_collect fragments_collect]. rewrite fragments_next_eq.
  apply rbind_cong; [reflexivity|]. intros [[f r]|]; [|reflexivity]. now rewrite IH.
Qed.

(** ** Templates *)
Lemma varspec_eq s o : b_validate_varspec m s o = validate_varspec s o.
Proof.
  unfold b_validate_varspec, validate_varspec. rewrite (fs2_hole_eq m Hm) by reflexivity. cbn [tlift bind]. destruct (find_split2_hole s COLON STAR) as [[[a x] r]|]; [|apply varname_eq]. now rewrite varname_eq.
Qed.
Lemma varspecs_eq l : forall i o, b_validate_varspecs m i l o = validate_varspecs i l o.
Proof. induction l as [|v r IH]; intros i o; [reflexivity|]. cbn [b_validate_varspecs validate_varspecs]. rewrite varspec_eq. apply rbind_cong; [reflexivity|]. intros _. apply IH. Qed.
Lemma expr_body_eq s o : b_validate_expr_body m s o = validate_expr_body s o.
Proof.
  unfold b_validate_expr_body, validate_expr_body. destruct (utf8s s) as [|b bs]; [reflexivity|]. destruct (MaybeOperator_from_byte b) as [[op|]|]; [|reflexivity|].
  - apply rbind_cong; [reflexivity|]. intros v. rewrite comma_eq by lia. cbn [tlift bind]. apply varspecs_eq.
  - rewrite comma_eq by lia. cbn [tlift bind]. apply varspecs_eq.
Qed.
Lemma template_loop_eq fuel : forall s r o, b_validate_template_loop m fuel s r o = validate_template_loop fuel s r o.
Proof.
  induction fuel as [|fuel IH]; intros s r o; [reflexivity|]. cbn [b_validate_template_loop validate_template_loop]. destruct (is_empty r); [reflexivity|]. rewrite (fs2_hole_eq m Hm) by reflexivity. cbn [tlift bind].
  destruct (find_split2_hole r PCT LBRACE) as [[[a x] t]|]; [|apply literal_eq]. apply rbind_cong; [|intros u; apply IH]. destruct (x =? PCT); [now rewrite literal_eq|]. destruct (x =? LBRACE); [|reflexivity].
  rewrite literal_eq. apply rbind_cong; [reflexivity|]. intros _. rewrite (fs_hole_eq m) by (exact Hm || reflexivity). cbn [tlift bind]. destruct (find_split_hole t RBRACE) as [[e n]|]; [|reflexivity]. now rewrite expr_body_eq.
Qed.
Lemma template_new_eq s : b_template_new m s = template_new s.
Proof. unfold b_template_new, template_new, validate_template_str. now rewrite template_loop_eq. Qed.
Lemma parse_trusted_eq s : b_VarSpec_parse_trusted m s = VarSpec_parse_trusted s.
Proof.
  unfold b_VarSpec_parse_trusted, VarSpec_parse_trusted. rewrite suffix_eq by reflexivity. cbn [bind]. destruct (strip_suffix_char s STAR); [reflexivity|]. rewrite (fs_hole_eq m) by (exact Hm || reflexivity). cbn [bind].
  destruct (find_split_hole s COLON) as [[a b]|]; [|reflexivity]. now rewrite u16_eq.
Qed.
Lemma varlist_next_eq r : b_varlist_next m r = varlist_next r.
Proof. unfold b_varlist_next, varlist_next. rewrite (fs_hole_eq m) by (exact Hm || reflexivity). cbn [bind]. destruct (find_split_hole r COMMA) as [[a b]|]; now rewrite parse_trusted_eq. Qed.
Lemma chunks_next_eq debug t : b_chunks_next m debug t = chunks_next debug t.
Proof.
  unfold b_chunks_next, chunks_next. destruct (is_empty t); [reflexivity|]. rewrite (fs_eq m Hm) by reflexivity. cbn [bind]. destruct (find_split t LBRACE) as [[[|c l] r]|]; [|reflexivity..]. apply rbind_cong; [reflexivity|]. intros i.
  rewrite (fs_hole_eq m) by (exact Hm || reflexivity). reflexivity.
Qed.
Lemma find_expr_eq debug fuel : forall t, b_find_expr m fuel debug t = find_expr fuel debug t.
Proof. induction fuel as [|fuel IH]; intros t; [reflexivity|]. cbn [b_find_expr find_expr]. rewrite chunks_next_eq. apply rbind_cong; [reflexivity|]. intros [[[l|b] r]|]; [apply IH|reflexivity|reflexivity]. Qed.
Lemma variables_loop_eq debug fuel : forall it, b_variables_loop m fuel debug it = variables_loop fuel debug it.
Proof.
  induction fuel as [|fuel IH]; intros it; [reflexivity|]. cbn [b_variables_loop variables_loop]. rewrite find_expr_eq.
  assert (N : (do (e, chunks) <- find_expr (1 + length (vi_chunks it)) debug (vi_chunks it) ; match e with None => Ok (None, mkVI chunks None) | Some b => do (_, vars) <- decompose b ; b_variables_loop m fuel debug (mkVI chunks (Some vars)) end)
    = (do (e, chunks) <- find_expr (1 + length (vi_chunks it)) debug (vi_chunks it) ; match e with None => Ok (None, mkVI chunks None) | Some b => do (_, vars) <- decompose b ; variables_loop fuel debug (mkVI chunks (Some vars)) end)).
  { apply rbind_cong; [reflexivity|]. intros [[b|] c]; [|reflexivity]. apply rbind_cong; [reflexivity|]. intros [op v]. apply IH. }
  rewrite N. destruct (vi_vars it) as [v|]; [|reflexivity]. now rewrite varlist_next_eq.
Qed.
Lemma variables_next_eq debug it : b_variables_next m debug it = variables_next debug it.
Proof. apply variables_loop_eq. Qed.
Lemma variables_eq debug t : b_template_variables m debug t = template_variables debug t.
Proof.
  unfold b_template_variables, template_variables. generalize (2 + length t)%nat as n. generalize (variables t) as it. intros it n. revert it. induction n as [|n IH]; intros it; [reflexivity|]. cbn [b_variables_collect variables_collect].
  rewrite variables_next_eq. apply rbind_cong; [reflexivity|]. intros [[v|] i]; [|reflexivity]. now rewrite IH.
Qed.

(** ** The reserved set *)
Section Process.
Context {St : Type} (debug : bool) (f g : St -> Frag -> W (St + unit)) (Hf : forall st x, f st x = g st x).
Lemma undecodable_eq st w : output_as_undecodable debug f st w = output_as_undecodable debug g st w.
Proof.
  unfold output_as_undecodable, andthen. rewrite Hf. apply bind_ext. intros [st1|u]; [|reflexivity]. destruct (Nat.ltb 0 _); [|reflexivity]. rewrite Hf. apply bind_ext. intros [st2|u]; [|reflexivity].
  destruct (Nat.ltb 1 _); [|reflexivity]. destruct (_ && _); [reflexivity|]. apply Hf.
Qed.
Lemma decompose_eq fuel : forall st db r, b_decompose_loop m debug f fuel st db r = decompose_loop debug g fuel st db r.
Proof.
  induction fuel as [|fuel IH]; intros st db r; [reflexivity|]. cbn [b_decompose_loop decompose_loop]. destruct (is_empty r); [reflexivity|]. apply bind_ext. intros [[n x] db1]. destruct (Nat.eqb n 0).
  - apply bind_ext. intros fl. apply bind_cong; [destruct fl as [[w db2]|]; [now rewrite undecodable_eq|reflexivity]|]. intros [[[st1 db2] r1]|u]; [|reflexivity]. rewrite (fs_eq m Hm), lift_bind by reflexivity.
    destruct (match find_split r1 PCT with Some p => p | None => (r1, []) end) as [pre suf]. destruct (_ && _); [reflexivity|]. rewrite Hf. apply bind_ext. intros [st2|u]; [apply IH|reflexivity].
  - apply bind_cong; [destruct x; [reflexivity|apply Hf|apply undecodable_eq]|]. intros [st1|u]; [|reflexivity]. apply bind_ext. intros t. apply IH.
Qed.
Lemma chunks_eq l : forall st db, b_decompose_chunks m debug f st db l = decompose_chunks debug g st db l.
Proof. induction l as [|s r IH]; intros st db; [reflexivity|]. cbn [b_decompose_chunks decompose_chunks]. apply bind_cong; [apply decompose_eq|]. intros [[st1 db1]|u]; [apply IH|reflexivity]. Qed.
Lemma process_eq st v : b_process_percent_encoded_best_effort m debug f st v = process_percent_encoded_best_effort debug g st v.
Proof.
  unfold b_process_percent_encoded_best_effort, process_percent_encoded_best_effort. rewrite chunks_eq. apply bind_ext. intros [[st1 db]|u]; [|reflexivity]. destruct (snd v); [|reflexivity|reflexivity]. apply bind_ext. intros [[w d]|]; [|reflexivity].
  apply bind_cong; [|reflexivity]. unfold andthen. rewrite Hf. apply bind_ext. intros [st2|u]; [|reflexivity]. apply bind_cong; [destruct (Nat.ltb 0 _); [apply Hf|reflexivity]|]. intros [st3|u]; [|reflexivity]. destruct (Nat.ltb 1 _); [apply Hf|reflexivity].
Qed.
End Process.
Lemma escape_eq S debug v a : b_escape_write m S debug v a = escape_write S debug v a.
Proof. unfold b_escape_write, escape_write. destruct a; [|reflexivity]. now apply process_eq. Qed.
Lemma escape_max_eq S debug v a n : b_escape_write_with_maxlen m S debug v a n = escape_write_with_maxlen S debug v a n.
Proof. unfold b_escape_write_with_maxlen, escape_write_with_maxlen. destruct a; [apply process_eq; apply maxlen_eq|]. destruct n; [|reflexivity]. now rewrite truncates_eq. Qed.
Lemma visit_string_eq S debug vs op first v : b_visit_string m S debug vs op first v = visit_string S debug vs op first v.
Proof. unfold b_visit_string, visit_string. now rewrite escape_max_eq. Qed.
Lemma visit_item_eq S debug vs op st v : b_visit_item m S debug vs op st v = visit_item S debug vs op st v.
Proof. unfold b_visit_item, visit_item. destruct st as [first zero]. apply bind_ext. intros ex. now rewrite !escape_eq. Qed.
Lemma visit_entry_eq S debug vs op st v : b_visit_entry m S debug vs op st v = visit_entry S debug vs op st v.
Proof. unfold b_visit_entry, visit_entry. destruct st as [first zero], v as [k v]. apply bind_ext. intros ex. now rewrite !escape_eq. Qed.
Lemma each_eq {A} (f g : bool * bool -> A -> W (bool * bool)) : (forall st a, f st a = g st a) -> forall l st, visit_each f st l = visit_each g st l.
Proof. intros H. induction l as [|x r IH]; intros st; [reflexivity|]. cbn [visit_each]. rewrite H. apply bind_ext. intros s. apply IH. Qed.
Lemma visit_value_eq S debug vs op first v : b_visit_value m S debug vs op first v = visit_value S debug vs op first v.
Proof.
  destruct v; cbn [b_visit_value visit_value]; [reflexivity|apply visit_string_eq| |].
  - now rewrite (each_eq _ _ (visit_item_eq S debug vs op)).
  - now rewrite (each_eq _ _ (visit_entry_eq S debug vs op)).
Qed.
Lemma expand_vars_eq S debug ctx op fuel : forall first r, b_expand_vars m fuel S debug ctx op first r = expand_vars fuel S debug ctx op first r.
Proof. induction fuel as [|fuel IH]; intros first r; [reflexivity|]. cbn [b_expand_vars expand_vars]. rewrite varlist_next_eq. apply bind_ext. intros [[[n vs] t]|]; [|reflexivity]. rewrite visit_value_eq. apply bind_ext. intros x. apply IH. Qed.
Lemma expanded_eq S debug ctx t : b_expanded_fmt m S debug ctx t = expanded_fmt S debug ctx t.
Proof.
  unfold b_expanded_fmt, expanded_fmt. generalize (1 + length t)%nat as fuel. intros fuel. revert t. induction fuel as [|fuel IH]; intros t; [reflexivity|]. cbn [b_expanded_loop expanded_loop]. rewrite chunks_next_eq. apply bind_ext.
  intros [[[l|b] r]|]; [|  |reflexivity]; (apply bind_cong; [|intros _; apply IH]); [reflexivity|]. unfold b_expand_expr, expand_expr. apply bind_ext. intros [op vars]. apply expand_vars_eq.
Qed.
Lemma typecheck_vars_eq ctx fuel : forall p r, b_typecheck_vars m fuel ctx p r = typecheck_vars fuel ctx p r.
Proof. induction fuel as [|fuel IH]; intros p r; [reflexivity|]. cbn [b_typecheck_vars typecheck_vars]. rewrite varlist_next_eq. apply rbind_cong; [reflexivity|]. intros [[[n vs] t]|]; [|reflexivity]. destruct (_ && _); [reflexivity|]. apply IH. Qed.
Lemma typecheck_eq debug ctx t : b_expand_new m debug ctx t = expand_new debug ctx t.
Proof.
  unfold b_expand_new, expand_new, b_typecheck_context, typecheck_context. generalize (1 + length t)%nat as fuel. generalize 0%nat as p. intros p fuel. revert p t. induction fuel as [|fuel IH]; intros p t; [reflexivity|].
  cbn [b_typecheck_loop typecheck_loop]. rewrite chunks_next_eq. apply rbind_cong; [reflexivity|]. intros [[[l|b] r]|]; [apply IH| |reflexivity]. apply rbind_cong; [reflexivity|]. intros [op vars]. rewrite typecheck_vars_eq. apply rbind_cong; [reflexivity|].
  intros q. destruct (Nat.eqb q _); [apply IH|reflexivity].
Qed.
Lemma expand_eq S debug ctx t : b_expand_to_string m S debug ctx t = expand_to_string S debug ctx t.
Proof. unfold b_expand_to_string, expand_to_string. now rewrite typecheck_eq, expanded_eq. Qed.
Lemma dyn_vars_eq {St} S debug (ctx : DynCtx St) fuel : forall op first p r c, b_dyn_vars m S debug ctx fuel op first p r c = dyn_vars S debug ctx fuel op first p r c.
Proof.
  induction fuel as [|fuel IH]; intros op first p r c; [reflexivity|]. cbn [b_dyn_vars dyn_vars]. rewrite varlist_next_eq. apply dbind_cong; [reflexivity|]. intros [[[n vs] t]|] c1; [|reflexivity].
  destruct (dyn_visit ctx Typecheck (vs_name vs) c1) as [v c2]. destruct (_ && _); [reflexivity|]. destruct (dyn_visit ctx Expand (vs_name vs) c2) as [v' c3]. rewrite visit_value_eq. apply dbind_cong; [reflexivity|]. intros x c4. apply IH.
Qed.
Lemma dyn_loop_eq {St} S debug (ctx : DynCtx St) fuel : forall p t c, b_dyn_loop m S debug ctx fuel p t c = dyn_loop S debug ctx fuel p t c.
Proof.
  induction fuel as [|fuel IH]; intros p t c; [reflexivity|]. cbn [b_dyn_loop dyn_loop]. rewrite chunks_next_eq. apply dbind_cong; [reflexivity|]. intros [[[l|b] r]|] c1; [| |reflexivity]; (apply dbind_cong; [|intros; apply IH]); [reflexivity|].
  unfold b_dyn_expr, dyn_expr. apply dbind_cong; [reflexivity|]. intros [op vars] c2. apply dbind_cong; [apply dyn_vars_eq|reflexivity].
Qed.
Lemma dynamic_eq {St Wr} S debug (ctx : DynCtx St) (w : Wr -> str -> wstep Wr) st t c : b_expand_dynamic m S debug ctx w st t c = expand_dynamic S debug ctx w st t c.
Proof. unfold b_expand_dynamic, expand_dynamic. now rewrite dyn_loop_eq. Qed.
Lemma dynamic_string_eq {St} S debug (ctx : DynCtx St) t c : b_expand_dynamic_to_string m S debug ctx t c = expand_dynamic_to_string S debug ctx t c.
Proof. unfold b_expand_dynamic_to_string, expand_dynamic_to_string. now rewrite dynamic_eq. Qed.
End M.
