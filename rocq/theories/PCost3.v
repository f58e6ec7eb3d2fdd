(** * The counting accessors of MCost.v. *)
From Verif Require Import Base Chars Utf8 MValidate MTrusted MFormat MSearch MPct MEncode MTemplate MCost PBase PSearch PCost PCost2.
Open Scope nat_scope.

Ltac kg := repeat first
  [ rewrite kand_fst | rewrite kbind_fst
  | progress unfold kret, k_first, k_last, k_strip, k_find_split2, k_find_split3, k_find_split4_hole, k_rfind_split2, k_find_split_hole
  | progress cbn [fst snd bind] ].
Lemma colon_fst : forall i, fst (k_scheme_colon i) = scheme_colon i.
Proof. intros. unfold k_scheme_colon, scheme_colon, find_split_hole. kg. destruct (split_first _ i) as [[[a c] b]|]; reflexivity. Qed.
Lemma colon_opt_fst : forall i, fst (k_scheme_colon_opt i) = scheme_colon_opt i.
Proof. reflexivity. Qed.
Lemma slash_fst : forall i, fst (k_slash_slash_authority_opt i) = slash_slash_authority_opt i.
Proof. intros. unfold k_slash_slash_authority_opt, slash_slash_authority_opt, find_split3. kg. destruct (strip_prefix _ i); reflexivity. Qed.
Lemma until_fst : forall i, fst (k_until_query i) = until_query i.
Proof. reflexivity. Qed.
Lemma qf_fst : forall i, fst (k_query_and_fragment i) = decompose_query_and_fragment i.
Proof.
  intros [|c r]; [reflexivity|]. unfold k_query_and_fragment, decompose_query_and_fragment, find_split_hole. kg.
  destruct (c =? QMARK)%N; kg; [|reflexivity]. destruct (split_first _ r) as [[[a x] b]|]; reflexivity.
Qed.
Lemma decompose_fst : forall i, fst (k_decompose i) = MTrusted.decompose i.
Proof.
  intros i. unfold k_decompose, MTrusted.decompose. rewrite kbind_fst, colon_opt_fst. destruct (scheme_colon_opt i) as [i1 sch].
  rewrite kbind_fst, slash_fst. destruct (slash_slash_authority_opt i1) as [i2 auth].
  rewrite kbind_fst, until_fst. destruct (until_query i2) as [i3 u]. rewrite kand_fst, qf_fst.
  destruct (decompose_query_and_fragment i3) as [[q f]|e|]; try reflexivity. destruct q, f; reflexivity.
Qed.
Lemma to_major_fst : forall i, fst (k_to_major i) = to_major i.
Proof. intros i. unfold k_to_major, to_major. rewrite kand_fst, decompose_fst. destruct (MTrusted.decompose i); reflexivity. Qed.
Ltac pairs := repeat match goal with |- context [match ?x with (_, _) => _ end] => is_var x; destruct x end.
Lemma scheme_str_fst : forall t i, fst (k_scheme_str t i) = scheme_str t i.
Proof.
  intros t i. destruct t; cbn [k_scheme_str scheme_str]; try reflexivity; unfold extract_scheme_absolute, extract_scheme.
  1,2: rewrite kand_fst, colon_fst; destruct (scheme_colon i) as [[a b]|e|]; reflexivity.
  rewrite kbind_fst, colon_opt_fst. destruct (scheme_colon_opt i); reflexivity.
Qed.
Lemma authority_str_fst : forall t i, fst (k_authority_str t i) = authority_str t i.
Proof.
  intros t i. destruct t; cbn [k_authority_str authority_str]; try reflexivity;
    unfold extract_authority_absolute, extract_authority, extract_authority_relative.
  1,2: rewrite kand_fst, colon_fst; destruct (scheme_colon i) as [[a b]|e|]; try reflexivity; cbn [bind];
    rewrite kbind_fst, slash_fst; destruct (slash_slash_authority_opt a); reflexivity.
  - rewrite kbind_fst, colon_opt_fst. destruct (scheme_colon_opt i) as [a b]. rewrite kbind_fst, slash_fst. cbn [fst]. destruct (slash_slash_authority_opt a); reflexivity.
  - rewrite kbind_fst, slash_fst. destruct (slash_slash_authority_opt i); reflexivity.
Qed.
Lemma path_str_fst : forall t i, fst (k_path_str t i) = path_str t i.
Proof.
  intros t i. assert (P : forall r : str, fst (kdo (r, _) <- k_slash_slash_authority_opt r ; kdo (_, p) <- k_until_query r ; kret (Ok p)) =
    Ok (snd (until_query (fst (slash_slash_authority_opt r)))) :> may str).
  { intros r. rewrite kbind_fst, slash_fst. destruct (slash_slash_authority_opt r) as [a b]. rewrite kbind_fst, until_fst. cbn [fst]. destruct (until_query a); reflexivity. }
  destruct t; cbn [k_path_str path_str]; try reflexivity; unfold extract_path_absolute, extract_path, extract_path_relative.
  1,2: rewrite kand_fst, colon_fst; destruct (scheme_colon i) as [[a b]|e|]; try reflexivity; apply P.
  - rewrite kbind_fst, colon_opt_fst. destruct (scheme_colon_opt i) as [a b]. apply P.
  - apply P.
Qed.
Lemma query_str_fst : forall debug t i, fst (k_query_str debug t i) = query_str debug t i.
Proof.
  intros debug t i. destruct t; cbn [k_query_str query_str]; try reflexivity; unfold extract_query, extract_query_absolute_iri.
  all: rewrite kbind_fst, until_fst; destruct (until_query i) as [r u]; cbn [fst].
  1: reflexivity.
  all: rewrite kand_fst, qf_fst; destruct (decompose_query_and_fragment r) as [[q f]|e|]; reflexivity.
Qed.
Lemma fragment_str_fst : forall t i, fst (k_fragment_str t i) = fragment_str t i.
Proof.
  intros t i. destruct t; cbn [k_fragment_str fragment_str]; try reflexivity; unfold extract_fragment, split_fragment, find_split_hole; kg.
  all: destruct (split_first _ i) as [[[a c] b]|]; reflexivity.
Qed.
Lemma authority_split_fst : forall i, fst (k_decompose_authority i) = decompose_authority i.
Proof.
  intros i. unfold k_decompose_authority, decompose_authority, find_split_hole, rfind_split2. kg.
  destruct (split_first _ i) as [[[a c] b]|]; kg; reflexivity.
Qed.

(** ** Bounds *)
Lemma colon_le : forall i, match fst (k_scheme_colon i) with Ok (r, _) => snd (k_scheme_colon i) + length r <= length i | _ => snd (k_scheme_colon i) <= length i end.
Proof.
  intros. unfold k_scheme_colon. rewrite kbind_fst, kbind_snd, kret_fst, kret_snd. destruct (hole_spec i COLON) as (o & m & E & H). rewrite E. cbn [fst snd].
  destruct o as [[a b]|]; lia.
Qed.
Lemma colon_opt_le : forall i, snd (k_scheme_colon_opt i) <= length i /\ length (fst (fst (k_scheme_colon_opt i))) <= length i.
Proof.
  intros. unfold k_scheme_colon_opt, k_find_split4_hole, k_first. rewrite kbind_fst, kbind_snd, kret_fst, kret_snd. cbn [fst snd].
  set (p := fun c => _). pose proof (count_le p i). destruct (split_first p i) as [[[a c] b]|] eqn:E; [apply count_some in E; destruct (c =? COLON)%N|]; cbn [fst]; lia.
Qed.
Lemma slash_le : forall i, snd (k_slash_slash_authority_opt i) + length (fst (fst (k_slash_slash_authority_opt i))) <= length i + 2.
Proof.
  intros. unfold k_slash_slash_authority_opt, k_strip. rewrite kbind_fst, kbind_snd. cbn [fst snd length].
  destruct (strip_prefix [SLASH; SLASH] i) as [s|] eqn:E; [|cbn; lia]. apply strip_length in E. cbn [length] in E.
  unfold k_find_split3, k_first. rewrite !kbind_fst, !kbind_snd, !kret_fst, !kret_snd. cbn [fst snd].
  set (p := fun c => _). pose proof (count_le p s). destruct (split_first p s) as [[[a c] b]|] eqn:E'; [apply count_some in E'|]; cbn [fst length]; lia.
Qed.
Lemma slash_two : forall i, 2 <= snd (k_slash_slash_authority_opt i).
Proof. intros. unfold k_slash_slash_authority_opt. rewrite kbind_snd. cbn [k_strip snd length]. lia. Qed.
Lemma until_le : forall i, snd (k_until_query i) <= length i /\ length (fst (fst (k_until_query i))) <= length i.
Proof.
  intros. unfold k_until_query, k_find_split2, k_first. rewrite !kbind_fst, !kbind_snd, !kret_fst, !kret_snd. cbn [fst snd].
  set (p := fun c => _). pose proof (count_le p i). destruct (split_first p i) as [[[a c] b]|] eqn:E'; [apply count_some in E'|]; cbn [fst length]; lia.
Qed.
Lemma qf_le : forall i, snd (k_query_and_fragment i) <= length i + 1.
Proof.
  intros i. unfold k_query_and_fragment. rewrite kbind_snd. cbn [snd fst]. destruct i as [|c r]; [cbn; lia|]. destruct (c =? QMARK)%N; rewrite ?kbind_snd, ?kret_snd; [|cbn; lia].
  destruct (hole_spec r HASH) as (o & m & E & H). rewrite E. cbn [fst snd length]. destruct o as [[a b]|]; lia.
Qed.
Lemma decompose_le : forall i, snd (k_decompose i) <= 3 * length i + 3.
Proof.
  intros i. unfold k_decompose. rewrite kbind_snd. pose proof (colon_opt_le i) as H1. destruct (k_scheme_colon_opt i) as [[i1 sch] n1]. cbn [fst snd] in *.
  rewrite kbind_snd. pose proof (slash_le i1) as H2. pose proof (slash_two i1) as H2'. destruct (k_slash_slash_authority_opt i1) as [[i2 auth] n2]. cbn [fst snd] in *.
  rewrite kbind_snd. pose proof (until_le i2) as H3. destruct (k_until_query i2) as [[i3 u] n3]. cbn [fst snd] in *.
  rewrite kand_snd. pose proof (qf_le i3) as H4. destruct (k_query_and_fragment i3) as [[[q f]|e|] n4]; cbn [fst snd] in *; [|lia|lia].
  destruct q, f; rewrite kret_snd; lia.
Qed.
Lemma to_major_le : forall i, snd (k_to_major i) <= 3 * length i + 3.
Proof. intros i. unfold k_to_major. rewrite kand_snd. pose proof (decompose_le i). destruct (fst (k_decompose i)); rewrite ?kret_snd; lia. Qed.
Lemma scheme_str_le : forall t i, snd (k_scheme_str t i) <= 3 * length i + 3.
Proof.
  intros t i. pose proof (colon_le i) as A. pose proof (colon_opt_le i) as B.
  destruct t; cbn [k_scheme_str]; rewrite ?kand_snd, ?kbind_snd, ?kret_snd; try lia.
  1,2: destruct (k_scheme_colon i) as [[[a b]|e|] n]; cbn [fst snd] in *; rewrite ?kret_snd; lia.
  destruct (k_scheme_colon_opt i) as [[a b] n]; cbn [fst snd] in *; rewrite ?kret_snd; lia.
Qed.
Lemma authority_str_le : forall t i, snd (k_authority_str t i) <= 3 * length i + 3.
Proof.
  intros t i. pose proof (colon_le i) as A. pose proof (colon_opt_le i) as B. pose proof slash_le as C.
  assert (D : forall (r : str), snd (kdo (_, a) <- k_slash_slash_authority_opt r ; kret (Ok a : may (option str))) <= length r + 2).
  { intros r. specialize (C r). rewrite kbind_snd. destruct (k_slash_slash_authority_opt r) as [[a b] n]; cbn [fst snd] in *; rewrite ?kret_snd; lia. }
  destruct t; cbn [k_authority_str]; rewrite ?kret_snd; try lia.
  1,2: rewrite kand_snd; destruct (k_scheme_colon i) as [[[a b]|e|] n]; cbn [fst snd] in *; try specialize (D a); lia.
  - rewrite kbind_snd. destruct (k_scheme_colon_opt i) as [[a b] n]; cbn [fst snd] in *. specialize (D a). lia.
  - specialize (D i). lia.
Qed.
Lemma path_str_le : forall t i, snd (k_path_str t i) <= 3 * length i + 3.
Proof.
  intros t i. pose proof (colon_le i) as A. pose proof (colon_opt_le i) as B. pose proof slash_le as C.
  assert (D : forall (r : str), snd (kdo (r, _) <- k_slash_slash_authority_opt r ; kdo (_, p) <- k_until_query r ; kret (Ok p : may str)) <= length r + 2).
  { intros r. specialize (C r). rewrite kbind_snd. destruct (k_slash_slash_authority_opt r) as [[a b] n]; cbn [fst snd] in *. rewrite kbind_snd.
    pose proof (until_le a). destruct (k_until_query a) as [[x y] m]; cbn [fst snd] in *. rewrite kret_snd. lia. }
  destruct t; cbn [k_path_str]; rewrite ?kret_snd; try lia.
  1,2: rewrite kand_snd; destruct (k_scheme_colon i) as [[[a b]|e|] n]; cbn [fst snd] in *; try specialize (D a); lia.
  - rewrite kbind_snd. destruct (k_scheme_colon_opt i) as [[a b] n]; cbn [fst snd] in *. specialize (D a). lia.
  - specialize (D i). lia.
Qed.
Lemma query_str_le : forall debug t i, snd (k_query_str debug t i) <= 3 * length i + 3.
Proof.
  intros debug t i. pose proof (until_le i) as A.
  destruct t; cbn [k_query_str]; rewrite ?kret_snd; try lia; rewrite kbind_snd; destruct (k_until_query i) as [[r u] n]; cbn [fst snd] in *; rewrite ?kret_snd; try lia.
  all: rewrite kand_snd; pose proof (qf_le r); destruct (k_query_and_fragment r) as [[[q f]|e|] m]; cbn [fst snd] in *; rewrite ?kret_snd; lia.
Qed.
Lemma fragment_str_le : forall t i, snd (k_fragment_str t i) <= 3 * length i + 3.
Proof.
  intros t i. destruct t; cbn [k_fragment_str]; rewrite ?kret_snd; try lia; rewrite kbind_snd, kret_snd;
    destruct (hole_spec i HASH) as (o & m & E & H); rewrite E; cbn [fst snd]; destruct o as [[a b]|]; lia.
Qed.
Lemma authority_split_le : forall i, snd (k_decompose_authority i) <= 2 * length i.
Proof.
  intros i. unfold k_decompose_authority. rewrite kbind_snd. destruct (hole_spec i AT) as (o & m & E & H); rewrite E; cbn [fst snd].
  assert (R : forall s, snd (k_rfind_split2 s COLON RBRACK) <= length s).
  { intros s. unfold k_rfind_split2, k_last. rewrite kbind_snd, kret_snd. cbn [snd]. pose proof (rev_length s).
    match goal with |- context [count_first ?p ?l] => pose proof (count_le p l) end. lia. }
  destruct o as [[a b]|]; cbn [fst snd]; rewrite kbind_snd, kret_snd; [specialize (R b)|specialize (R i)]; lia.
Qed.
