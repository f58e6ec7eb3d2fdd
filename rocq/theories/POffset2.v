(** * Proofs for C77: the splitter; password, host and fragment edits. *)
From Verif Require Import Base Chars Utf8 SearchSpec MValidate MTrusted MFormat MWriters MSearch MPct MPath MNormalize MEdit MOffset PBase PSearch POffset.

(** ** Pieces of a string *)
Definition sch (s : option str) : str := match s with Some s => s ++ [COLON] | None => [] end.
Definition aut (a : option str) : str := match a with Some a => [SLASH; SLASH] ++ a | None => [] end.
Definition qry (q : option str) : str := match q with Some q => [QMARK] ++ q | None => [] end.
Definition frg (f : option str) : str := match f with Some f => [HASH] ++ f | None => [] end.
Definition whole s a p q f : str := sch s ++ aut a ++ p ++ qry q ++ frg f.

Lemma scheme_pieces i : i = sch (snd (scheme_colon_opt i)) ++ fst (scheme_colon_opt i) /\
  match snd (scheme_colon_opt i) with Some s => ~ In SLASH s | None => True end.
Proof.
  unfold scheme_colon_opt, find_split4_hole. destruct (split_first _ i) as [[[s c] r]|] eqn:E; cbn [fst snd sch]; [|now split].
  apply split_first_some in E. destruct E as (-> & Nn & _). destruct (c =? COLON) eqn:Ec; cbn [fst snd sch]; [|now split].
  apply N.eqb_eq in Ec. subst c. split; [now rewrite <- app_assoc|]. intros H. unfold none in Nn. rewrite forallb_forall in Nn. specialize (Nn _ H). discriminate Nn.
Qed.
Lemma authority_pieces i : i = aut (snd (slash_slash_authority_opt i)) ++ fst (slash_slash_authority_opt i).
Proof.
  unfold slash_slash_authority_opt. destruct (strip_prefix _ i) as [s|] eqn:E; [|reflexivity]. apply strip_prefix_some in E. subst i.
  unfold find_split3. destruct (split_first _ s) as [[[a c] r]|] eqn:E; cbn [fst snd aut]; [|now rewrite app_nil_r].
  apply split_first_some in E. destruct E as (-> & _). now rewrite <- app_assoc.
Qed.
Lemma query_pieces i : i = snd (until_query i) ++ fst (until_query i).
Proof.
  unfold until_query, find_split2. destruct (split_first _ i) as [[[a c] r]|] eqn:E; cbn [fst snd]; [|now rewrite app_nil_r].
  apply split_first_some in E. now destruct E as (-> & _).
Qed.
Lemma tail_pieces i q f : decompose_query_and_fragment i = Ok (q, f) -> i = qry q ++ frg f.
Proof.
  unfold decompose_query_and_fragment. destruct i as [|c r]; [intros [= <- <-]; reflexivity|].
  destruct (c =? QMARK) eqn:Eq.
  - apply N.eqb_eq in Eq. subst c. unfold find_split_hole. destruct (split_first _ r) as [[[a c] b]|] eqn:E; intros [= <- <-]; cbn [qry frg].
    + apply split_first_some in E. destruct E as (-> & _ & Ec). apply N.eqb_eq in Ec. now subst c.
    + now rewrite app_nil_r.
  - destruct (c =? HASH) eqn:Eh; [|discriminate]. apply N.eqb_eq in Eh. subst c. intros [= <- <-]. reflexivity.
Qed.
Lemma tail_ok i : exists q f, decompose_query_and_fragment (fst (until_query i)) = Ok (q, f).
Proof.
  unfold until_query, find_split2. destruct (split_first _ i) as [[[a c] r]|] eqn:E; cbn [fst decompose_query_and_fragment]; [|now exists None, None].
  apply split_first_some in E. destruct E as (_ & _ & E).
  destruct (c =? QMARK) eqn:E1; [destruct (find_split_hole r HASH) as [[x y]|]; eauto|]. destruct (c =? HASH) eqn:E2; [eauto|]. exfalso.
  apply orb_true_iff in E. destruct E as [E|E]; congruence.
Qed.

(** The splitter, with lengths counted by [len]. *)
Definition splitter (len : str -> nat) (s a : option str) (p : str) (q f : option str) : Splitter :=
  mkSplitter (option_map len s) (option_map (fun _ => len (sch s ++ aut a)) a)
    (option_map (fun _ => len ((sch s ++ aut a ++ p) ++ [QMARK])) q)
    (option_map (fun _ => len ((sch s ++ aut a ++ p ++ qry q) ++ [HASH])) f).
Lemma nonzero_pos n : (0 < n)%nat -> nonzero n = Some n.
Proof. destruct n; [lia|reflexivity]. Qed.
Lemma blen_pos (s : str) : s <> [] -> (0 < blen s)%nat.
Proof. intros H. destruct (blen s) eqn:E; [now apply blen_nil in E|lia]. Qed.
Lemma length_pos (s : str) : s <> [] -> (0 < length s)%nat.
Proof. destruct s; [congruence|cbn; lia]. Qed.
Section M.
Variable m : option memchr_crate.
Hypothesis Hm : sound m.
Ltac lens := repeat rewrite ?app_length, ?blen_app, ?app_nil_r; change (blen [SLASH; SLASH]) with 2%nat; change (blen [COLON]) with 1%nat; change (blen [QMARK]) with 1%nat; change (blen [HASH]) with 1%nat; change (blen []) with 0%nat; cbn [length].
Lemma same_sp a b c d a' b' c' d' : a = a' -> b = b' -> c = c' -> d = d' -> @Ok Empty_set _ (mkSplitter a b c d) = Ok (mkSplitter a' b' c' d').
Proof. now intros -> -> -> ->. Qed.
Ltac same_splitter := apply same_sp; [reflexivity|reflexivity| |]; try reflexivity; f_equal; lia.
Lemma splitters i : (forall r, scheme_colon_opt i <> (r, Some [])) -> exists s a p q f, i = whole s a p q f /\
  decompose i = Ok (splitter (@length N) s a p q f) /\ o_decompose m i = Ok (splitter blen s a p q f) /\ match s with Some s => ~ In SLASH s | None => True end.
Proof.
  intros Hs. destruct (scheme_pieces i) as [E1 Ns]. set (i1 := fst (scheme_colon_opt i)) in *. set (s := snd (scheme_colon_opt i)) in *.
  pose proof (authority_pieces i1) as E2. set (i2 := fst (slash_slash_authority_opt i1)) in *. set (a := snd (slash_slash_authority_opt i1)) in *.
  pose proof (query_pieces i2) as E3. destruct (tail_ok i2) as (q & f & Eq). set (i3 := fst (until_query i2)) in *. set (p := snd (until_query i2)) in *.
  pose proof (tail_pieces _ _ _ Eq) as E4. exists s, a, p, q, f.
  assert (Ei : i = whole s a p q f) by (rewrite E1 at 1; rewrite E2 at 1; rewrite E3 at 1; rewrite E4 at 1; reflexivity).
  split; [exact Ei|]. split; [|split; [|exact Ns]].
  - unfold decompose. rewrite (surjective_pairing (scheme_colon_opt i)). fold i1 s. rewrite (surjective_pairing (slash_slash_authority_opt i1)). fold i2 a.
    rewrite (surjective_pairing (until_query i2)). fold i3 p. rewrite Eq. cbn [bind].
    assert (L1 : length i = (length (sch s) + length i1)%nat) by (rewrite E1 at 1; apply app_length).
    assert (L2 : length i1 = (length (aut a) + length i2)%nat) by (rewrite E2 at 1; apply app_length).
    assert (L3 : length i2 = (length p + length i3)%nat) by (rewrite E3 at 1; apply app_length).
    assert (L4 : length i3 = (length (qry q) + length (frg f))%nat) by (rewrite E4 at 1; apply app_length).
    assert (Q : match s with Some s => nonzero (length s) | None => None end = option_map (@length N) s).
    { destruct s as [s0|] eqn:Es; [|reflexivity]. apply nonzero_pos, length_pos. intros ->. apply (Hs i1). unfold i1. rewrite (surjective_pairing (scheme_colon_opt i)). f_equal. exact Es. }
    rewrite Q. unfold splitter.
    replace (match a with Some s0 => nonzero (length i - length i1 + 2 + length s0) | None => None end) with (option_map (fun _ => length (sch s ++ aut a)) a).
    2:{ clearbody a. destruct a as [a0|]; [|reflexivity]. cbn [option_map aut]. rewrite nonzero_pos by lia. f_equal. lens. lia. }
    destruct q as [q|], f as [f|]; cbn [option_map qry frg] in *; rewrite ?app_length in *; cbn [length] in *; rewrite ?nonzero_pos by lia; same_splitter.
  - unfold o_decompose. rewrite o_scheme_colon_opt_eq by auto. cbn [bind]. rewrite (surjective_pairing (scheme_colon_opt i)). fold i1 s. rewrite o_slash_slash_eq by auto.
    cbn [bind]. rewrite (surjective_pairing (slash_slash_authority_opt i1)). fold i2 a.
    rewrite o_until_query_eq by auto. cbn [bind]. rewrite (surjective_pairing (until_query i2)). fold i3 p. rewrite o_dqf_eq by auto. rewrite Eq. cbn [bind].
    assert (L1 : blen i = (blen (sch s) + blen i1)%nat) by (rewrite E1 at 1; apply blen_app).
    assert (L2 : blen i1 = (blen (aut a) + blen i2)%nat) by (rewrite E2 at 1; apply blen_app).
    assert (L3 : blen i2 = (blen p + blen i3)%nat) by (rewrite E3 at 1; apply blen_app).
    assert (L4 : blen i3 = (blen (qry q) + blen (frg f))%nat) by (rewrite E4 at 1; apply blen_app).
    assert (Q : match s with Some s => nonzero (blen s) | None => None end = option_map blen s).
    { destruct s as [s0|] eqn:Es; [|reflexivity]. apply nonzero_pos, blen_pos. intros ->. apply (Hs i1). unfold i1. rewrite (surjective_pairing (scheme_colon_opt i)). f_equal. exact Es. }
    rewrite Q. unfold splitter.
    replace (match a with Some s0 => nonzero (blen i - blen i1 + 2 + blen s0) | None => None end) with (option_map (fun _ => blen (sch s ++ aut a)) a).
    2:{ clearbody a. destruct a as [a0|]; [|reflexivity]. cbn [option_map aut]. rewrite nonzero_pos by lia. f_equal. lens. lia. }
    destruct q as [q|], f as [f|]; cbn [option_map qry frg] in *; rewrite ?blen_app in *;
      change (blen [QMARK]) with 1%nat in *; change (blen [HASH]) with 1%nat in *; change (blen []) with 0%nat in *; rewrite ?nonzero_pos by lia; same_splitter.
Qed.
End M.
(** ** The accessors of the splitter give the pieces *)
Ltac lens := rewrite ?blen_app, ?app_length, ?app_nil_r; change (blen [SLASH; SLASH]) with 2%nat; change (blen [COLON]) with 1%nat; change (blen [QMARK]) with 1%nat; change (blen [HASH]) with 1%nat;
  change (blen []) with 0%nat; cbn [length].
Lemma major_b sp x : o_split_into_major sp x = (do s <- o_sp_scheme_str sp x ; do a <- o_sp_authority_str sp x ; do f <- o_sp_fragment_str sp x ; do q <- o_sp_query_str sp x ;
  do p <- o_sp_path_str sp x ; Ok (s, a, p, q, f)).
Proof.
  unfold o_split_into_major, o_sp_scheme_str, o_sp_authority_str, o_sp_path_str, o_sp_query_str, o_sp_fragment_str, sp_path_range.
  destruct sp as [[e|] [e'|] [st|] [st'|]]; cbn [scheme_end authority_end query_start fragment_start]; rewrite <- ?Nat.add_assoc; reflexivity.
Qed.
Lemma major_c sp x : split_into_major sp x = (do s <- sp_scheme_str sp x ; do a <- sp_authority_str sp x ; do f <- sp_fragment_str sp x ; do q <- sp_query_str sp x ;
  do p <- sp_path_str sp x ; Ok (s, a, p, q, f)).
Proof.
  unfold split_into_major, sp_scheme_str, sp_authority_str, sp_path_str, sp_query_str, sp_fragment_str, sp_path_range.
  destruct sp as [[e|] [e'|] [st|] [st'|]]; cbn [scheme_end authority_end query_start fragment_start]; rewrite <- ?Nat.add_assoc; reflexivity.
Qed.
Section Pieces.
Context (s a : option str) (p : str) (q f : option str).
Notation i := (whole s a p q f).
Lemma piece_scheme : o_sp_scheme_str (splitter blen s a p q f) i = Ok s /\ sp_scheme_str (splitter (@length N) s a p q f) i = Ok s.
Proof.
  unfold o_sp_scheme_str, sp_scheme_str. cbn [scheme_end splitter]. destruct s as [s0|]; [|now split]. cbn [option_map opt_bslice opt_slice].
  split; [rewrite (bslice_mid _ [] s0 ([COLON] ++ aut a ++ p ++ qry q ++ frg f))|rewrite (slice_mid _ [] s0 ([COLON] ++ aut a ++ p ++ qry q ++ frg f))]; auto;
    unfold whole; cbn [sch app]; now rewrite <- app_assoc.
Qed.
Lemma piece_authority : o_sp_authority_str (splitter blen s a p q f) i = Ok a /\ sp_authority_str (splitter (@length N) s a p q f) i = Ok a.
Proof.
  unfold o_sp_authority_str, sp_authority_str. cbn [scheme_end authority_end splitter]. destruct a as [a0|]; [|now split]. cbn [option_map opt_bslice opt_slice].
  split; [rewrite (bslice_mid _ (sch s ++ [SLASH; SLASH]) a0 (p ++ qry q ++ frg f))|rewrite (slice_mid _ (sch s ++ [SLASH; SLASH]) a0 (p ++ qry q ++ frg f))]; auto;
    unfold whole; cbn [aut]; rewrite <- ?app_assoc; auto; destruct s as [s0|]; cbn [option_map sch]; lens; lia.
Qed.
Lemma path_ends : sp_path_range (splitter blen s a p q f) (blen i) = (blen (sch s ++ aut a), (blen (sch s ++ aut a) + blen p)%nat) /\
  sp_path_range (splitter (@length N) s a p q f) (length i) = (length (sch s ++ aut a), (length (sch s ++ aut a) + length p)%nat).
Proof.
  unfold sp_path_range, whole. cbn [scheme_end authority_end query_start fragment_start splitter].
  split; f_equal; destruct s as [s0|], a as [a0|], q as [q0|], f as [f0|]; cbn [option_map sch aut qry frg]; lens; lia.
Qed.
Lemma piece_path : o_sp_path_str (splitter blen s a p q f) i = Ok p /\ sp_path_str (splitter (@length N) s a p q f) i = Ok p.
Proof.
  unfold o_sp_path_str, sp_path_str. destruct path_ends as [-> ->].
  split; [apply (bslice_mid _ (sch s ++ aut a) p (qry q ++ frg f))|apply (slice_mid _ (sch s ++ aut a) p (qry q ++ frg f))]; auto; unfold whole; now rewrite <- app_assoc.
Qed.
Lemma piece_path_empty : sp_is_path_empty (splitter blen s a p q f) (blen i) = sp_is_path_empty (splitter (@length N) s a p q f) (length i).
Proof.
  unfold sp_is_path_empty. destruct path_ends as [-> ->]. f_equal. destruct p as [|c r].
  - change (blen []) with 0%nat. cbn [length]. rewrite !Nat.add_0_r. now rewrite !Nat.ltb_irrefl.
  - rewrite blen_cons. pose proof (clen_pos c). cbn [length]. rewrite !(proj2 (Nat.ltb_lt _ _)); [reflexivity|lia|lia].
Qed.
Lemma piece_query : o_sp_query_str (splitter blen s a p q f) i = Ok q /\ sp_query_str (splitter (@length N) s a p q f) i = Ok q.
Proof.
  unfold o_sp_query_str, sp_query_str. cbn [query_start fragment_start splitter]. destruct q as [q0|]; [|now split]. cbn [option_map opt_bslice opt_slice].
  split; [rewrite (bslice_mid _ ((sch s ++ aut a ++ p) ++ [QMARK]) q0 (frg f))|rewrite (slice_mid _ ((sch s ++ aut a ++ p) ++ [QMARK]) q0 (frg f))]; auto;
    try (unfold whole; cbn [qry]; now rewrite <- !app_assoc); destruct f as [f0|]; cbn [option_map]; unfold whole; cbn [qry frg]; lens; lia.
Qed.
Lemma piece_fragment : o_sp_fragment_str (splitter blen s a p q f) i = Ok f /\ sp_fragment_str (splitter (@length N) s a p q f) i = Ok f.
Proof.
  unfold o_sp_fragment_str, sp_fragment_str. cbn [fragment_start splitter]. destruct f as [f0|]; [|now split]. cbn [option_map opt_bslice opt_slice].
  split; [rewrite (bslice_mid _ ((sch s ++ aut a ++ p ++ qry q) ++ [HASH]) f0 [])|rewrite (slice_mid _ ((sch s ++ aut a ++ p ++ qry q) ++ [HASH]) f0 [])]; auto;
    unfold whole; cbn [frg]; rewrite ?app_nil_r, <- ?app_assoc; auto; lens; lia.
Qed.
Lemma piece_major : o_split_into_major (splitter blen s a p q f) i = Ok (s, a, p, q, f) /\ split_into_major (splitter (@length N) s a p q f) i = Ok (s, a, p, q, f).
Proof.
  destruct piece_scheme as [A1 A2], piece_authority as [B1 B2], piece_path as [C1 C2], piece_query as [D1 D2], piece_fragment as [E1 E2].
  rewrite major_b, major_c, A1, A2, B1, B2, C1, C2, D1, D2, E1, E2. now split.
Qed.
End Pieces.
