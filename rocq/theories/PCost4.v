(** * Accepting a string needs a look at each of its characters. *)
From Verif Require Import Base Chars Utf8 MValidate MTrusted MFormat MSearch MPct MEncode MTemplate MCost PBase PSearch PCost PCost2.
Open Scope nat_scope.

Lemma count_none : forall p s, split_first p s = None -> count_first p s = length s.
Proof.
  induction s as [|x r IH]; cbn; intros H; [reflexivity|]. destruct (p x); [discriminate|].
  destruct (split_first p r) as [[[a' c'] b']|]; [discriminate|]. rewrite IH by reflexivity. reflexivity.
Qed.
Lemma count_pos : forall p s, s <> [] -> 1 <= count_first p s.
Proof. intros p [|x r] H; [congruence|]. cbn. destruct (p x); lia. Qed.
Lemma all_ge : forall p s, fst (k_all p s) = true -> snd (k_all p s) = length s.
Proof.
  intros p s. unfold k_all. cbn [fst snd]. induction s as [|x r IH]; cbn; [reflexivity|]. destruct (p x); cbn; [|discriminate]. intros H. rewrite IH by exact H. reflexivity.
Qed.
Lemma sat_ge : forall pa pn s, fst (k_satisfy pa pn s) = true -> snd (k_satisfy pa pn s) = length s.
Proof.
  intros pa pn s. remember (length s) as n eqn:En. assert (Hn : length s <= n) by lia. rewrite En. clear En. revert s Hn.
  induction n as [|n IH]; intros [|c r] Hn; cbn [length] in Hn |- *; try reflexivity; try lia.
  cbn [k_satisfy]. destruct (is_ascii c); [destruct (c =? PCT)%N|].
  - destruct r as [|u [|l r2]]; cbn [length] in *; repeat (destruct (is_hexdigit _)); cbn [fst]; try discriminate.
    rewrite kbind_fst, kbind_snd. cbn [fst snd]. intros H. rewrite (IH r2) by (assumption || lia). lia.
  - destruct (pa c); cbn [fst]; try discriminate. rewrite kbind_fst, kbind_snd. cbn [fst snd]. intros H. rewrite (IH r) by (assumption || lia). lia.
  - destruct (pn c); cbn [fst]; try discriminate. rewrite kbind_fst, kbind_snd. cbn [fst snd]. intros H. rewrite (IH r) by (assumption || lia). lia.
Qed.
Lemma check_ge : forall x k, fst (k_check x k) = Ok tt -> fst x = true.
Proof. intros [[] n] k; cbn; [reflexivity|discriminate]. Qed.
Lemma hole_ge : forall s n, exists o m, k_find_split_hole s n = (o, m) /\ match o with
  | Some (a, b) => m = length a + 1 /\ length s = length a + 1 + length b | None => m = length s end.
Proof.
  intros. unfold k_find_split_hole, kbind, k_first. cbn [fst snd kret].
  destruct (split_first (N.eqb n) s) as [[[a c] b]|] eqn:E; eexists; eexists; (split; [reflexivity|]); cbn.
  - destruct (count_some _ _ _ _ _ E). lia.
  - rewrite count_none by exact E. lia.
Qed.
Lemma keep_ge : forall s n, exists o m, k_find_split s n = (o, m) /\ match o with
  | Some (a, b) => m = length a + 1 /\ length s = length a + length b | None => m = length s end.
Proof.
  intros. unfold k_find_split, kbind, k_first. cbn [fst snd kret].
  destruct (split_first (N.eqb n) s) as [[[a c] b]|] eqn:E; eexists; eexists; (split; [reflexivity|]); cbn.
  - destruct (count_some _ _ _ _ _ E). lia.
  - rewrite count_none by exact E. lia.
Qed.
Lemma hole2_ge : forall s n1 n2, exists o m, k_find_split2_hole s n1 n2 = (o, m) /\ match o with
  | Some (a, _, b) => m = length a + 1 /\ length s = length a + 1 + length b | None => m = length s end.
Proof.
  intros. unfold k_find_split2_hole, k_first.
  destruct (split_first (fun c => (c =? n1)%N || (c =? n2)%N) s) as [[[a c] b]|] eqn:E; eexists; eexists; (split; [reflexivity|]); cbn.
  - destruct (count_some _ _ _ _ _ E). lia.
  - apply count_none. exact E.
Qed.
Ltac chk := match goal with
  | |- fst (k_check ?x ?k) = Ok tt -> length ?i <= snd (k_check ?x ?k) => intros H; apply check_ge, sat_ge in H; rewrite check_snd; lia
  end.
Lemma query_ge : forall S i, fst (k_query S i) = Ok tt -> length i <= snd (k_query S i).
Proof. intros. unfold k_query in *. apply check_ge, sat_ge in H. rewrite check_snd. lia. Qed.
Lemma fragment_ge : forall S i, fst (k_fragment S i) = Ok tt -> length i <= snd (k_fragment S i).
Proof. intros. unfold k_fragment in *. apply check_ge, sat_ge in H. rewrite check_snd. lia. Qed.
Lemma path_chars_ge : forall S i, fst (k_path_chars S i) = Ok tt -> length i <= snd (k_path_chars S i).
Proof. intros. unfold k_path_chars in *. apply check_ge, sat_ge in H. rewrite check_snd. lia. Qed.
Lemma v6_part_ge : forall i rest part, fst (k_split_v6_addr_part i) = Ok (rest, part) -> length i <= snd (k_split_v6_addr_part i) + length rest.
Proof.
  intros i rest part. unfold k_split_v6_addr_part. rewrite kbind_fst, kbind_snd. destruct (hole_ge i COLON) as (o & m & E & H). rewrite E. cbn [fst snd].
  destruct o as [[a b]|]; [|lia]. destruct (Nat.leb 5 (blen a)); [discriminate|]. destruct (is_empty a).
  - rewrite kbind_fst, kbind_snd. unfold k_strip_char. rewrite kret_fst, kret_snd. cbn [fst snd].
    destruct (strip_ascii_char_prefix b COLON) as [r|] eqn:Es; [|discriminate]. apply strip_char_length in Es. injection 1 as <- _. lia.
  - rewrite kbind_fst, kbind_snd. destruct (negb (fst (k_all is_hexdigit a))); [discriminate|]. rewrite kbind_fst, kbind_snd. unfold k_strip_char. rewrite kret_fst, kret_snd. cbn [fst snd].
    destruct (strip_ascii_char_prefix b COLON) as [r|] eqn:Es; [apply strip_char_length in Es|]; injection 1 as <- _; lia.
Qed.
Lemma v6_last : forall i rest, fst (k_split_v6_addr_part i) = Ok (rest, H16End) \/ fst (k_split_v6_addr_part i) = Ok (rest, V4) -> rest = [].
Proof.
  intros i rest. unfold k_split_v6_addr_part. rewrite kbind_fst. destruct (hole_ge i COLON) as (o & m & E & H). rewrite E. cbn [fst snd].
  destruct o as [[a b]|].
  - destruct (Nat.leb 5 (blen a)); [intros [X|X]; discriminate X|]. destruct (is_empty a).
    + rewrite kbind_fst. unfold k_strip_char. rewrite kret_fst. cbn [fst]. destruct (strip_ascii_char_prefix b COLON); intros [X|X]; discriminate X.
    + rewrite kbind_fst. destruct (negb (fst (k_all is_hexdigit a))); [intros [X|X]; discriminate X|]. rewrite kbind_fst. unfold k_strip_char. rewrite kret_fst. cbn [fst].
      destruct (strip_ascii_char_prefix b COLON); intros [X|X]; discriminate X.
  - destruct (Nat.leb 5 (blen i)).
    + rewrite kand_fst. destruct (k_ipv4address i) as [[u|e|] n]; cbn [fst kret]; intros [X|X]; try discriminate X; injection X as <-; reflexivity.
    + rewrite kbind_fst, kret_fst. destruct (fst (k_all is_hexdigit i)); intros [X|X]; try discriminate X; injection X as <-; reflexivity.
Qed.
Lemma v6_loop_ge : forall fuel i h o, fst (k_v6_loop fuel i h o) = Ok tt -> length i <= snd (k_v6_loop fuel i h o).
Proof.
  induction fuel as [|fuel IH]; intros i h o H; [discriminate H|]. cbn [k_v6_loop] in *. unfold vres in *.
  destruct i as [|c r]; [cbn; lia|]. remember (c :: r) as i eqn:Ei.
  replace (is_empty i) with false in * by (rewrite Ei; reflexivity). clear Ei c r. rewrite kand_fst in H. rewrite kand_snd.
  pose proof (v6_part_ge i) as L. pose proof (v6_last i) as L'. destruct (k_split_v6_addr_part i) as [[[rest part]|e|] n]; cbn [fst snd] in *; try discriminate H.
  specialize (L rest part eq_refl).
  destruct part; try (rewrite (L' rest ltac:(auto)) in L; cbn [length] in L; lia).
  - destruct o; [discriminate H|]. destruct (Nat.ltb 8 (h + 1)); [discriminate H|]. apply IH in H. unfold vres in *. lia.
  - destruct (is_empty rest); [discriminate H|]. destruct (Nat.ltb 8 (h + 1)); [discriminate H|]. apply IH in H. unfold vres in *. lia.
  - destruct o; [discriminate H|]. destruct (Nat.ltb 8 h); [discriminate H|]. apply IH in H. unfold vres in *. lia.
Qed.
Lemma wrapped_ge : forall i m, get_wrapped_inner i LBRACK RBRACK = Some m -> length i = 2 + length m.
Proof.
  intros [|p s] m E; cbn in E; [discriminate|]. destruct (rev s) as [|q ri] eqn:E'; [discriminate|].
  destruct ((p =? LBRACK)%N && (q =? RBRACK)%N); [|discriminate]. injection E as <-. apply (f_equal (@length _)) in E'.
  rewrite !rev_length in *. cbn in *. lia.
Qed.
Definition ipvfuture (r : str) : K vres :=
  kdo o <- k_find_split_hole r DOT ;
  match o with
  | None => kret (Err InvalidHost)
  | Some (maybe_ver, maybe_addr) =>
      if is_empty maybe_ver then kret (Err InvalidHost)
      else
        kdo b <- k_all is_hexdigit maybe_ver ;
        if negb b then kret (Err InvalidHost)
        else if is_empty maybe_addr then kret (Err InvalidHost)
        else
          kdo b <- k_all is_ascii maybe_addr ;
          if negb b then kret (Err InvalidHost)
          else k_check (k_all is_ascii_userinfo_ipvfutureaddr maybe_addr) InvalidHost
  end.
Lemma ipvfuture_ge : forall r, fst (ipvfuture r) = Ok tt -> length r <= snd (ipvfuture r).
Proof.
  intros r. unfold ipvfuture. rewrite kbind_fst, kbind_snd. destruct (hole_ge r DOT) as (o & m & E & H). rewrite E. cbn [fst snd].
  destruct o as [[a b]|]; [|discriminate]. destruct (is_empty a); [discriminate|]. rewrite kbind_fst, kbind_snd.
  destruct (negb (fst (k_all is_hexdigit a))); [discriminate|]. destruct (is_empty b); [discriminate|]. rewrite kbind_fst, kbind_snd.
  destruct (negb (fst (k_all is_ascii b))); [discriminate|]. intros X. apply check_ge, all_ge in X. rewrite check_snd. lia.
Qed.
Lemma host_eq : forall S i, k_host S i =
  kdo o <- k_wrapped_inner i LBRACK RBRACK ;
  match o with
  | Some m => kdo o <- (kdo o <- k_strip_char m 118 ; match o with Some r => kret (Some r) | None => k_strip_char m 86 end) ;
              match o with Some r => ipvfuture r | None => k_ipv6address m end
  | None => k_check (k_satisfy is_ascii_regname (is_nonascii_regname S) i) InvalidHost
  end.
Proof. reflexivity. Qed.
Lemma host_ge : forall S i, fst (k_host S i) = Ok tt -> length i <= snd (k_host S i).
Proof.
  intros S i. rewrite host_eq. rewrite kbind_fst, kbind_snd. unfold k_wrapped_inner. cbn [fst snd]. destruct (get_wrapped_inner i LBRACK RBRACK) as [m|] eqn:E.
  - apply wrapped_ge in E. unfold kbind, kret, k_strip_char. cbn [fst snd].
    destruct (strip_ascii_char_prefix m 118) as [r|] eqn:E1; cbn [fst snd].
    + intros H. apply ipvfuture_ge in H. apply strip_char_length in E1. unfold vres in *. lia.
    + destruct (strip_ascii_char_prefix m 86) as [r|] eqn:E2; cbn [fst snd].
      * intros H. apply ipvfuture_ge in H. apply strip_char_length in E2. unfold vres in *. lia.
      * intros H. apply v6_loop_ge in H. unfold k_ipv6address, vres in *. lia.
  - intros H. apply check_ge, sat_ge in H. rewrite check_snd. lia.
Qed.
Lemma authority_ge : forall S i, fst (k_authority S i) = Ok tt -> length i <= snd (k_authority S i).
Proof.
  intros S i. assert (Host : forall j : str, let x := (kdo o <- k_rfind_split_hole j COLON ;
      kdo maybe_host <- match o with
                        | Some (maybe_host, maybe_port) => kdo b <- k_all is_digit maybe_port ; kret (if b then maybe_host else j)
                        | None => kret j
                        end ;
      k_host S maybe_host) in fst x = Ok tt -> length j <= snd x).
  { intros j x. subst x. unfold k_rfind_split_hole, kbind, kret, k_last. cbn [fst snd].
    destruct (split_last (N.eqb COLON) j) as [[[a c] b]|] eqn:E; cbn [fst snd].
    - assert (1 <= count_first (N.eqb COLON) (rev j)).
      { apply count_pos. intros N. apply (f_equal (@length _)) in N. rewrite rev_length in N. apply last_some in E. cbn in N. lia. }
      apply last_some in E. pose proof (all_ge is_digit b) as D.
      destruct (fst (k_all is_digit b)); intros X; apply host_ge in X; unfold vres in *; [specialize (D eq_refl)|]; lia.
    - intros X; apply host_ge in X; unfold vres in *; lia. }
  unfold k_authority. rewrite kbind_fst, kbind_snd. destruct (hole_ge i AT) as (o & m & E & Ho). rewrite E. clear E. cbn [fst snd]. rewrite kand_fst, kand_snd.
  destruct o as [[a b]|].
  - rewrite kand_snd, kret_snd, kand_fst, kret_fst. destruct (k_userinfo S a) as [[u|e|] n]; cbn [fst snd] in *; try discriminate.
    specialize (Host b). cbv zeta in Host. intros X. specialize (Host X). unfold vres in *. lia.
  - rewrite kret_snd, kret_fst. intros X. specialize (Host i X). unfold vres in *. lia.
Qed.
Lemma path_abempty_ge : forall S i, fst (k_path_abempty S i) = Ok tt -> length i <= snd (k_path_abempty S i).
Proof.
  intros S [|c i]; [cbn; lia|]. unfold k_path_abempty. cbn [is_empty]. rewrite kbind_fst, kbind_snd. unfold k_strip. cbn [fst snd].
  destruct (strip_prefix [SLASH] (c :: i)) as [r|] eqn:E; [|discriminate]. apply strip_length in E. intros X. apply path_chars_ge in X. unfold vres in *. cbn in *. lia.
Qed.
Lemma path_absolute_ge : forall S i, fst (k_path_absolute_authority_absent S i) = Ok tt -> length i <= snd (k_path_absolute_authority_absent S i).
Proof.
  intros S [|c i]; [cbn; lia|]. unfold k_path_absolute_authority_absent. cbn [is_empty]. rewrite kbind_fst, kbind_snd. unfold k_starts. cbn [fst snd].
  destruct (starts_with [SLASH; SLASH] (c :: i)); [discriminate|]. intros X. apply path_chars_ge in X. unfold vres in *. lia.
Qed.
Lemma path_relative_ge : forall S i, fst (k_path_relative_authority_absent S i) = Ok tt -> length i <= snd (k_path_relative_authority_absent S i).
Proof.
  intros S i. unfold k_path_relative_authority_absent. rewrite kbind_fst, kbind_snd. unfold k_starts. cbn [fst snd].
  destruct (starts_with [SLASH; SLASH] i); [discriminate|]. rewrite kbind_fst, kbind_snd. destruct (fst (k_find_split2_hole i SLASH COLON)) as [[[a c] b]|].
  - destruct (c =? SLASH)%N; [|discriminate]. intros X. apply path_chars_ge in X. unfold vres in *. lia.
  - intros X. apply path_chars_ge in X. unfold vres in *. lia.
Qed.
Lemma authority_path_ge : forall S i, fst (k_authority_path_abempty S i) = Ok tt -> length i <= snd (k_authority_path_abempty S i).
Proof.
  intros S i. unfold k_authority_path_abempty. rewrite kbind_fst, kbind_snd. destruct (keep_ge i SLASH) as (o & m & E & Ho). rewrite E. clear E. cbn [fst snd].
  destruct o as [[a b]|]; rewrite kand_fst, kand_snd.
  - pose proof (authority_ge S a) as A. destruct (k_authority S a) as [[[]|e|] n]; cbn [fst snd] in *; try discriminate. specialize (A eq_refl).
    intros X. apply path_abempty_ge in X. unfold vres in *. lia.
  - unfold vres in *. lia.
Qed.
Lemma after_path_ge : forall S c r a, fst (k_after_path S c r a) = Ok tt -> length r <= snd (k_after_path S c r a).
Proof.
  intros S c r a. unfold k_after_path. rewrite kbind_fst, kbind_snd.
  assert (T : forall q f : str, let x := (rdo _ <- k_query S q ;
    if negb a && negb (is_empty f) then kret (Err UnexpectedFragment) else k_fragment S f) in fst x = Ok tt -> length f <= snd x).
  { intros q f x. subst x. rewrite kand_fst, kand_snd. destruct (k_query S q) as [[u|e|] n]; cbn [fst snd] in *; try discriminate.
    destruct (negb a && negb (is_empty f)); [discriminate|]. intros X. apply fragment_ge in X. unfold vres in *. lia. }
  destruct (c =? QMARK)%N.
  - destruct (hole_ge r HASH) as (o & m & E & Ho). rewrite kbind_fst, kbind_snd, E. cbn [fst snd]. destruct o as [[q f]|]; rewrite kret_fst, kret_snd; intros X.
    + apply T in X. unfold vres in *. lia.
    + unfold vres in *. lia.
  - rewrite kret_fst, kret_snd. intros X. apply T in X. unfold vres in *. lia.
Qed.
Lemma after_scheme_ge : forall S kp a i, (forall x, fst (kp x) = Ok tt -> length x <= snd (kp x)) ->
  fst (k_after_scheme S kp a i) = Ok tt -> length i <= snd (k_after_scheme S kp a i).
Proof.
  intros S kp a i Hp. unfold k_after_scheme. rewrite kbind_fst, kbind_snd. unfold k_strip. cbn [fst snd].
  assert (Tail : forall (v : str -> K vres) x y z, let t := kand (rdo _ <- v x ; kret (Ok (Some (y, z)))) (fun after_path =>
      match after_path with Some (first, rest) => k_after_path S first rest a | None => kret (Ok tt) end) in fst t = Ok tt -> length z <= snd t).
  { intros v x y z t. subst t. rewrite kand_fst, kand_snd, kand_fst, kand_snd, kret_snd, kret_fst.
    destruct (v x) as [[u|e|] n]; cbn [fst snd] in *; try discriminate. intros X. apply after_path_ge in X. unfold vres in *. lia. }
  assert (Tail' : forall (v : str -> K vres) x, (fst (v x) = Ok tt -> length x <= snd (v x)) -> let t := kand (rdo _ <- v x ; kret (Ok None)) (fun after_path =>
      match after_path with Some (first, rest) => k_after_path S first rest a | None => kret (Ok tt) end) in fst t = Ok tt -> length x <= snd t).
  { intros v x Hv t. subst t. rewrite kand_fst, kand_snd, kand_fst, kand_snd, kret_snd, kret_fst.
    destruct (v x) as [[[]|e|] n]; cbn [fst snd] in *; try discriminate. specialize (Hv eq_refl). intros _. rewrite kret_snd. unfold vres in *. lia. }
  destruct (strip_prefix [SLASH; SLASH] i) as [j|] eqn:Ej.
  - apply strip_length in Ej. cbn [length] in *. destruct (hole2_ge j QMARK HASH) as (o & m & E & Ho).
    destruct o as [[[x y] z]|]; unfold kbind; rewrite E; cbn [fst snd]; intros X.
    + specialize (Tail (k_authority_path_abempty S) x y z). unfold kand in *.
      destruct (k_authority_path_abempty S x) as [[u|e|] n]; cbn [fst snd kret] in *; try discriminate X. specialize (Tail X). unfold vres in *. lia.
    + clear Tail Tail' X. unfold kand, vres in *. destruct (k_authority_path_abempty S j) as [[u|e|] n]; cbn [fst snd kret] in *; lia.
  - cbn [length] in *. destruct (hole2_ge i QMARK HASH) as (o & m & E & Ho).
    destruct o as [[[x y] z]|]; unfold kbind; rewrite E; cbn [fst snd]; intros X.
    + specialize (Tail kp x y z). unfold kand in *.
      destruct (kp x) as [[u|e|] n]; cbn [fst snd kret] in *; try discriminate X. specialize (Tail X). unfold vres in *. lia.
    + clear Tail Tail' X Hp. unfold kand, vres in *. destruct (kp i) as [[u|e|] n]; cbn [fst snd kret] in *; lia.
Qed.
Lemma relative_ref_ge : forall S i, fst (k_relative_ref S i) = Ok tt -> length i <= snd (k_relative_ref S i).
Proof. intros S i. apply after_scheme_ge. apply path_relative_ge. Qed.
Lemma common_ge : forall S i r, fst (k_uri_reference_common S i r) = Ok tt -> length i <= snd (k_uri_reference_common S i r).
Proof.
  intros S i r. unfold k_uri_reference_common. rewrite kbind_fst, kbind_snd. destruct (hole_ge i COLON) as (o & m & E & Ho). rewrite E. clear E. cbn [fst snd].
  destruct o as [[a b]|].
  - rewrite kbind_fst, kbind_snd. destruct (is_err (fst (k_scheme a))).
    + destruct (is_relative_allowed r); [|discriminate]. intros X. apply relative_ref_ge in X. unfold vres in *. lia.
    + intros X. apply after_scheme_ge in X; [|apply path_absolute_ge]. unfold vres in *. lia.
  - destruct (is_relative_allowed r); [|discriminate]. intros X. apply relative_ref_ge in X. unfold vres in *. lia.
Qed.
Lemma validate_ge : forall S t s, validate S t s = Ok tt -> length s <= snd (k_validate S t s).
Proof.
  intros S t s H. rewrite <- k_validate_fst in H. destruct t; cbn [k_validate] in *;
    solve [exact (common_ge _ _ _ H) | exact (relative_ref_ge _ _ H) | exact (query_ge _ _ H) | exact (fragment_ge _ _ H)].
Qed.
Lemma new_validate : forall S t s, new S t s = Ok s -> validate S t s = Ok tt.
Proof. intros S t s. unfold new. destruct (validate S t s) as [[]|e|]; [reflexivity|discriminate|discriminate]. Qed.
Lemma new_ge : forall S t s, new S t s = Ok s -> length s <= snd (k_validate S t s).
Proof. intros S t s H. apply validate_ge, new_validate, H. Qed.
