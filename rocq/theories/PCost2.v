(** * Bounds on the counters of MCost.v. *)
From Verif Require Import Base Chars Utf8 MValidate MTrusted MFormat MSearch MPct MEncode MTemplate MCost PBase PSearch PCost.
Open Scope nat_scope.

Lemma kand_snd : forall E A B (x : K (res E A)) (f : A -> K (res E B)),
  snd (kand x f) = snd x + match fst x with Ok a => snd (f a) | _ => 0 end.
Proof. intros E A B [[a|e|] n] f; cbn; lia. Qed.
Lemma kbind_snd : forall A B (x : K A) (f : A -> K B), snd (kbind x f) = snd x + snd (f (fst x)).
Proof. reflexivity. Qed.
Lemma kret_snd : forall A (a : A), snd (kret a) = 0.
Proof. reflexivity. Qed.
Lemma kret_fst : forall A (a : A), fst (kret a) = a.
Proof. reflexivity. Qed.

Lemma count_le : forall p s, count_first p s <= length s.
Proof. induction s as [|c r IH]; cbn; [lia|]. destruct (p c); lia. Qed.
Lemma count_some : forall p s a c b, split_first p s = Some (a, c, b) -> count_first p s = length a + 1 /\ length s = length a + 1 + length b.
Proof.
  induction s as [|x r IH]; cbn; intros a c b H; [discriminate|]. destruct (p x); [injection H as <- <- <-; cbn; lia|].
  destruct (split_first p r) as [[[a' c'] b']|]; [|discriminate]. injection H as <- <- <-. destruct (IH _ _ _ eq_refl). cbn. lia.
Qed.
Lemma last_some : forall p s a c b, split_last p s = Some (a, c, b) -> length s = length a + 1 + length b.
Proof.
  induction s as [|x r IH]; cbn; intros a c b H; [discriminate|].
  destruct (split_last p r) as [[[a' c'] b']|].
  - injection H as <- <- <-. specialize (IH _ _ _ eq_refl). cbn. lia.
  - destruct (p x); [|discriminate]. injection H as <- <- <-. cbn. lia.
Qed.
Lemma satisfy_le : forall pa pn s, snd (k_satisfy pa pn s) <= length s.
Proof.
  intros pa pn s. remember (length s) as n eqn:En. assert (Hn : length s <= n) by lia. rewrite En. clear En. revert s Hn.
  induction n as [|n IH]; intros [|c r] Hn; cbn [length] in Hn |- *; try (cbn; lia).
  cbn [k_satisfy]. destruct (is_ascii c); [destruct (c =? PCT)%N|].
  - destruct r as [|u [|l r2]]; cbn [length] in *; repeat (destruct (is_hexdigit _)); cbn [snd]; try lia.
    rewrite kbind_snd. cbn [snd]. specialize (IH r2). lia.
  - destruct (pa c); cbn [snd]; [|lia]. rewrite kbind_snd. cbn [snd]. specialize (IH r). lia.
  - destruct (pn c); cbn [snd]; [|lia]. rewrite kbind_snd. cbn [snd]. specialize (IH r). lia.
Qed.
Lemma all_le : forall p s, snd (k_all p s) <= length s.
Proof. intros. apply count_le. Qed.
Lemma check_snd : forall x k, snd (k_check x k) = snd x.
Proof. reflexivity. Qed.
Lemma octet_le : forall s, snd (k_dec_octet s) <= length s.
Proof. intros. unfold k_dec_octet. cbn [snd]. lia. Qed.
(** Searching. *)
Lemma hole_spec : forall s n, exists o m, k_find_split_hole s n = (o, m) /\ match o with
  | Some (a, b) => m = length a + 1 /\ length s = length a + 1 + length b | None => m <= length s end.
Proof.
  intros. unfold k_find_split_hole, kbind, k_first. cbn [fst snd kret].
  destruct (split_first (N.eqb n) s) as [[[a c] b]|] eqn:E; eexists; eexists; (split; [reflexivity|]); cbn.
  - destruct (count_some _ _ _ _ _ E). lia.
  - pose proof (count_le (N.eqb n) s). lia.
Qed.
Lemma keep_spec : forall s n, exists o m, k_find_split s n = (o, m) /\ match o with
  | Some (a, b) => m = length a + 1 /\ length s = length a + length b /\ 1 <= length b | None => m <= length s end.
Proof.
  intros. unfold k_find_split, kbind, k_first. cbn [fst snd kret].
  destruct (split_first (N.eqb n) s) as [[[a c] b]|] eqn:E; eexists; eexists; (split; [reflexivity|]); cbn.
  - destruct (count_some _ _ _ _ _ E). lia.
  - pose proof (count_le (N.eqb n) s). lia.
Qed.
Lemma hole2_spec : forall s n1 n2, exists o m, k_find_split2_hole s n1 n2 = (o, m) /\ match o with
  | Some (a, _, b) => m = length a + 1 /\ length s = length a + 1 + length b | None => m <= length s end.
Proof.
  intros. unfold k_find_split2_hole, k_first.
  destruct (split_first (fun c => (c =? n1)%N || (c =? n2)%N) s) as [[[a c] b]|] eqn:E; eexists; eexists; (split; [reflexivity|]); cbn.
  - destruct (count_some _ _ _ _ _ E). lia.
  - pose proof (count_le (fun c => (c =? n1)%N || (c =? n2)%N) s). lia.
Qed.
Lemma rhole_spec : forall s n, exists o m, k_rfind_split_hole s n = (o, m) /\ m <= length s /\ match o with
  | Some (a, b) => length s = length a + 1 + length b | None => True end.
Proof.
  intros. unfold k_rfind_split_hole, kbind, k_last. cbn [fst snd kret].
  assert (H : count_first (N.eqb n) (rev s) <= length s) by (rewrite <- rev_length; apply count_le).
  destruct (split_last (N.eqb n) s) as [[[a c] b]|] eqn:E; eexists; eexists; (split; [reflexivity|]); cbn; (split; [lia|]); [|exact I].
  apply last_some in E. exact E.
Qed.
Ltac kstep := repeat first
  [ rewrite kand_snd | rewrite kbind_snd | rewrite kret_snd | rewrite kret_fst | rewrite check_snd
  | progress unfold vres, tres, k_wrapped_inner, k_strip_char, k_strip, k_starts, k_position
  | progress cbn [fst snd bind length] ].
Ltac hole s c o := let H := fresh in let m := fresh "m" in
  destruct (hole_spec s c) as (o & m & H & ?); rewrite H; clear H; kstep.
Ltac ll := unfold vres, tres in *; lia.

Lemma scheme_le : forall i, snd (k_scheme i) <= length i.
Proof.
  intros [|c r]; [cbn; lia|]. unfold k_scheme. kstep. destruct (is_alpha c); kstep; [|lia].
  pose proof (all_le (fun b => is_ascii b && is_ascii_scheme_continue b) r). lia.
Qed.
Lemma query_le : forall S i, snd (k_query S i) <= length i.
Proof. intros. apply satisfy_le. Qed.
Lemma fragment_le : forall S i, snd (k_fragment S i) <= length i.
Proof. intros. apply satisfy_le. Qed.
Lemma userinfo_le : forall S i, snd (k_userinfo S i) <= length i.
Proof. intros. apply satisfy_le. Qed.
Lemma path_chars_le : forall S i, snd (k_path_chars S i) <= length i.
Proof. intros. apply satisfy_le. Qed.
Lemma ipv4_le : forall i, snd (k_ipv4address i) <= 2 * length i.
Proof.
  intros i. unfold k_ipv4address. kstep. hole i DOT o1. destruct o1 as [[a b]|]; kstep; [|lia].
  pose proof (octet_le a). destruct (negb (fst (k_dec_octet a))); kstep; [lia|].
  hole b DOT o2. destruct o2 as [[a2 b2]|]; kstep; [|lia].
  pose proof (octet_le a2). destruct (negb (fst (k_dec_octet a2))); kstep; [lia|].
  hole b2 DOT o3. destruct o3 as [[a3 b3]|]; kstep; [|lia].
  pose proof (octet_le a3). destruct (negb (fst (k_dec_octet a3))); kstep; [lia|].
  pose proof (octet_le b3). lia.
Qed.
Lemma strip_char_length : forall s c r, strip_ascii_char_prefix s c = Some r -> length s = 1 + length r.
Proof. intros [|x s] c r; cbn; [discriminate|]. destruct (x =? c)%N; [|discriminate]. injection 1 as <-. reflexivity. Qed.
Lemma v6_part_le : forall i, i <> [] -> match fst (k_split_v6_addr_part i) with
  | Ok (rest, part) => match part with H16Cont | H16Omit | Omit => snd (k_split_v6_addr_part i) + 2 * length rest <= 2 * length i /\ length rest < length i
                                     | _ => snd (k_split_v6_addr_part i) <= 3 * length i end
  | _ => snd (k_split_v6_addr_part i) <= 3 * length i end.
Proof.
  intros i Hi. assert (1 <= length i) by (destruct i; [congruence|cbn; lia]). unfold k_split_v6_addr_part. kstep. rewrite kbind_fst. hole i COLON o1.
  destruct o1 as [[a b]|]; kstep.
  - destruct (Nat.leb 5 (blen a)); kstep; [lia|]. destruct (is_empty a) eqn:Ea; kstep.
    + rewrite kbind_fst. kstep. destruct (strip_ascii_char_prefix b COLON) as [r|] eqn:E; [apply strip_char_length in E|]; lia.
    + rewrite kbind_fst. assert (1 <= length a) by (destruct a; [discriminate|cbn; lia]).
      pose proof (all_le is_hexdigit a). destruct (negb (fst (k_all is_hexdigit a))); kstep; [lia|].
      rewrite kbind_fst. kstep. destruct (strip_ascii_char_prefix b COLON) as [r|] eqn:E; [apply strip_char_length in E|]; lia.
  - destruct (Nat.leb 5 (blen i)); kstep.
    + rewrite kand_fst. pose proof (ipv4_le i). destruct (k_ipv4address i) as [[u|e|] n]; kstep; cbn [snd] in *; lia.
    + rewrite kbind_fst. kstep. pose proof (all_le is_hexdigit i). destruct (fst (k_all is_hexdigit i)); lia.
Qed.
Lemma v6_loop_le : forall fuel i h o, snd (k_v6_loop fuel i h o) <= 3 * length i.
Proof.
  induction fuel as [|fuel IH]; intros i h o; cbn [k_v6_loop]; kstep; [lia|].
  destruct i as [|c r]; [cbn; lia|]. remember (c :: r) as i eqn:Ei. assert (Hi : i <> []) by (rewrite Ei; discriminate).
  replace (is_empty i) with false by (rewrite Ei; reflexivity). clear Ei c r. kstep.
  pose proof (v6_part_le i Hi) as L. destruct (k_split_v6_addr_part i) as [[[rest part]|e|] n]; kstep; cbn [fst snd] in L; try lia.
  pose proof (fun h o => IH rest h o) as I.
  destruct part; try destruct (is_empty rest); try destruct o; kstep; try lia;
    match goal with |- context [Nat.ltb 8 ?n] => destruct (Nat.ltb 8 n) end; kstep; try lia;
    match goal with |- context [k_v6_loop fuel rest ?a ?b] => specialize (I a b) end; ll.
Qed.
Lemma host_le : forall S i, snd (k_host S i) <= 3 * length i + 2.
Proof.
  intros S i. unfold k_host. kstep. destruct (get_wrapped_inner i LBRACK RBRACK) as [m|] eqn:E; kstep;
    [|pose proof (satisfy_le is_ascii_regname (is_nonascii_regname S) i); ll].
  assert (L : length i = 2 + length m).
  { destruct i as [|p s]; cbn in E; [discriminate|]. destruct (rev s) as [|q ri] eqn:E'; [discriminate|].
    destruct ((p =? LBRACK)%N && (q =? RBRACK)%N); [|discriminate]. injection E as <-. apply (f_equal (@length _)) in E'.
    rewrite !rev_length in *. cbn in *. ll. }
  assert (Rest : forall r, length m = 1 + length r ->
    snd (kdo o <- k_find_split_hole r DOT ;
          match o with
          | None => kret (Err InvalidHost)
          | Some (maybe_ver, maybe_addr) =>
              if is_empty maybe_ver then kret (Err InvalidHost)
              else
                kdo b <- k_all is_hexdigit maybe_ver ;
                if negb b then kret (Err InvalidHost)
                else if is_empty maybe_addr then kret (Err InvalidHost)
                else
                  kdo b <- k_all is_ascii maybe_addr ;
                  if negb b then kret (Err InvalidHost)
                  else k_check (k_all is_ascii_userinfo_ipvfutureaddr maybe_addr) InvalidHost
          end) <= 2 * length r + 1).
  { intros r _. kstep. hole r DOT o. destruct o as [[a b]|]; kstep; [|ll]. destruct (is_empty a); kstep; [ll|].
    pose proof (all_le is_hexdigit a). destruct (negb (fst (k_all is_hexdigit a))); kstep; [ll|].
    destruct (is_empty b); kstep; [ll|]. pose proof (all_le is_ascii b). destruct (negb (fst (k_all is_ascii b))); kstep; [ll|].
    pose proof (all_le is_ascii_userinfo_ipvfutureaddr b). ll. }
  destruct (strip_ascii_char_prefix m 118) as [r|] eqn:E1; kstep.
  - apply strip_char_length in E1. rewrite kbind_fst; cbn [fst snd kret]; rewrite ?kret_fst; cbn [fst snd]. match goal with |- context [snd (kbind (k_find_split_hole r DOT) ?f)] => pose proof (Rest r E1 : snd (kbind (k_find_split_hole r DOT) f) <= 2 * length r + 1) end. ll.
  - destruct (strip_ascii_char_prefix m 86) as [r|] eqn:E2; kstep.
    + apply strip_char_length in E2. rewrite kbind_fst; cbn [fst snd kret]; rewrite ?kret_fst; cbn [fst snd]. match goal with |- context [snd (kbind (k_find_split_hole r DOT) ?f)] => pose proof (Rest r E2 : snd (kbind (k_find_split_hole r DOT) f) <= 2 * length r + 1) end. ll.
    + unfold k_ipv6address. pose proof (v6_loop_le (Datatypes.S (length m)) m 0 false). rewrite kbind_fst; cbn [fst]. ll.
Qed.
Lemma authority_le : forall S i, snd (k_authority S i) <= 6 * length i + 2.
Proof.
  intros S i. assert (Host : forall j : str, snd (kdo o <- k_rfind_split_hole j COLON ;
      kdo maybe_host <- match o with
                        | Some (maybe_host, maybe_port) => kdo b <- k_all is_digit maybe_port ; kret (if b then maybe_host else j)
                        | None => kret j
                        end ;
      k_host S maybe_host) <= 5 * length j + 2).
  { intros j. rewrite kbind_snd. destruct (rhole_spec j COLON) as (o & m & E & Hm & Ho). rewrite E. clear E. kstep. destruct o as [[a b]|]; kstep.
    - pose proof (all_le is_digit b). rewrite kbind_fst. kstep. destruct (fst (k_all is_digit b)).
      + pose proof (host_le S a). ll.
      + pose proof (host_le S j). ll.
    - pose proof (host_le S j). ll. }
  unfold k_authority. rewrite kbind_snd. destruct (hole_spec i AT) as (o & m & E & Ho). rewrite E. clear E. cbn [fst snd]. rewrite kand_snd.
  destruct o as [[a b]|].
  - rewrite kand_snd, kret_snd, kand_fst, kret_fst. pose proof (userinfo_le S a). destruct (k_userinfo S a) as [[u|e|] n]; cbn [fst snd] in *; [|ll|ll].
    specialize (Host b). ll.
  - rewrite kret_snd, kret_fst. specialize (Host i). ll.
Qed.
Lemma strip_length : forall p s r, strip_prefix p s = Some r -> length s = length p + length r.
Proof.
  induction p as [|x p IH]; intros [|y s] r; cbn; try discriminate; try (injection 1 as <-; reflexivity).
  destruct (x =? y)%N; [|discriminate]. intros H. rewrite (IH _ _ H). reflexivity.
Qed.
Lemma path_abempty_le : forall S i, snd (k_path_abempty S i) <= length i.
Proof.
  intros S [|c i]; [cbn; lia|]. unfold k_path_abempty. cbn [is_empty]. kstep. destruct (strip_prefix [SLASH] (c :: i)) as [r|] eqn:E; kstep; [|ll].
  apply strip_length in E. cbn in E. pose proof (path_chars_le S r). ll.
Qed.
Lemma path_absolute_le : forall S i, snd (k_path_absolute_authority_absent S i) <= length i + 2.
Proof.
  intros S i. unfold k_path_absolute_authority_absent. destruct (is_empty i); kstep; [ll|]. pose proof (path_chars_le S i).
  destruct (starts_with [SLASH; SLASH] i); kstep; ll.
Qed.
Lemma path_relative_le : forall S i, snd (k_path_relative_authority_absent S i) <= 2 * length i + 2.
Proof.
  intros S i. unfold k_path_relative_authority_absent. kstep. pose proof (path_chars_le S i). destruct (starts_with [SLASH; SLASH] i); kstep; [ll|].
  destruct (hole2_spec i SLASH COLON) as (o & m & E & Ho). rewrite E. kstep. destruct o as [[[a c] b]|]; [|ll].
  destruct (c =? SLASH)%N; kstep; ll.
Qed.
Lemma authority_path_le : forall S i, snd (k_authority_path_abempty S i) <= 7 * length i + 2.
Proof.
  intros S i. unfold k_authority_path_abempty. kstep. destruct (keep_spec i SLASH) as (o & m & E & Ho). rewrite E. clear E. cbn [fst snd].
  destruct o as [[a b]|]; rewrite kand_snd.
  - pose proof (authority_le S a). pose proof (path_abempty_le S b). destruct (k_authority S a) as [[u|e|] n]; cbn [fst snd] in *; ll.
  - pose proof (authority_le S i). pose proof (path_abempty_le S []). cbn [length] in *. destruct (k_authority S i) as [[u|e|] n]; cbn [fst snd] in *; ll.
Qed.
Lemma after_path_le : forall S c r a, snd (k_after_path S c r a) <= 2 * length r.
Proof.
  intros S c r a. unfold k_after_path. rewrite kbind_snd.
  assert (T : forall q f : str, snd (rdo _ <- k_query S q ;
    if negb a && negb (is_empty f) then kret (Err UnexpectedFragment) else k_fragment S f) <= length q + length f).
  { intros q f. rewrite kand_snd. pose proof (query_le S q). pose proof (fragment_le S f). destruct (k_query S q) as [[u|e|] n]; cbn [fst snd] in *; [|ll|ll].
    destruct (negb a && negb (is_empty f)); rewrite ?kret_snd; ll. }
  destruct (c =? QMARK)%N.
  - destruct (hole_spec r HASH) as (o & m & E & Ho). rewrite kbind_fst, kbind_snd, E. cbn [fst snd]. destruct o as [[q f]|]; rewrite kret_fst, kret_snd.
    + specialize (T q f). ll.
    + specialize (T r []). cbn [length] in T. ll.
  - rewrite kret_fst, kret_snd. specialize (T [] r). cbn [length] in T. ll.
Qed.
Lemma after_scheme_le : forall S kp a i, (forall x, snd (kp x) <= 2 * length x + 2) -> snd (k_after_scheme S kp a i) <= 8 * length i + 4.
Proof.
  intros S kp a i Hp. unfold k_after_scheme. rewrite kbind_snd. unfold k_strip. cbn [fst snd].
  assert (Tail : forall (v : str -> K vres) x y z, snd (kand (rdo _ <- v x ; kret (Ok (Some (y, z)))) (fun after_path =>
      match after_path with Some (first, rest) => k_after_path S first rest a | None => kret (Ok tt) end)) <= snd (v x) + 2 * length z).
  { intros v x y z. rewrite kand_snd, kand_fst, kand_snd, kret_snd, kret_fst. pose proof (after_path_le S y z a).
    destruct (v x) as [[u|e|] n]; cbn [fst snd] in *; ll. }
  assert (Tail' : forall (v : str -> K vres) x, snd (kand (rdo _ <- v x ; kret (Ok None)) (fun after_path =>
      match after_path with Some (first, rest) => k_after_path S first rest a | None => kret (Ok tt) end)) <= snd (v x)).
  { intros v x. rewrite kand_snd, kand_fst, kand_snd, kret_snd, kret_fst.
    destruct (v x) as [[u|e|] n]; cbn [fst snd] in *; rewrite ?kret_snd; ll. }
  destruct (strip_prefix [SLASH; SLASH] i) as [j|] eqn:Ej.
  - apply strip_length in Ej. cbn [length] in *. destruct (hole2_spec j QMARK HASH) as (o & m & E & Ho).
    destruct o as [[[x y] z]|]; unfold kbind; rewrite E; cbn [fst snd].
    + pose proof (authority_path_le S x). specialize (Tail (k_authority_path_abempty S) x y z). unfold kand in Tail |- *.
      destruct (k_authority_path_abempty S x) as [[u|e|] n]; cbn [fst snd kret] in *; ll.
    + pose proof (authority_path_le S j). specialize (Tail' (k_authority_path_abempty S) j). unfold kand in Tail' |- *.
      destruct (k_authority_path_abempty S j) as [[u|e|] n]; cbn [fst snd kret] in *; ll.
  - cbn [length] in *. destruct (hole2_spec i QMARK HASH) as (o & m & E & Ho).
    destruct o as [[[x y] z]|]; unfold kbind; rewrite E; cbn [fst snd].
    + specialize (Hp x). specialize (Tail kp x y z). unfold kand in Tail |- *.
      destruct (kp x) as [[u|e|] n]; cbn [fst snd kret] in *; ll.
    + specialize (Hp i). specialize (Tail' kp i). unfold kand in Tail' |- *.
      destruct (kp i) as [[u|e|] n]; cbn [fst snd kret] in *; ll.
Qed.
Lemma relative_ref_le : forall S i, snd (k_relative_ref S i) <= 8 * length i + 4.
Proof. intros. apply after_scheme_le. apply path_relative_le. Qed.
Lemma common_le : forall S i r, snd (k_uri_reference_common S i r) <= 10 * length i + 4.
Proof.
  intros S i r. unfold k_uri_reference_common. rewrite kbind_snd. destruct (hole_spec i COLON) as (o & m & E & Ho). rewrite E. clear E. cbn [fst snd].
  pose proof (relative_ref_le S i). destruct o as [[a b]|].
  - rewrite kbind_snd. pose proof (scheme_le a). destruct (is_err (fst (k_scheme a))).
    + destruct (is_relative_allowed r); rewrite ?kret_snd; ll.
    + pose proof (after_scheme_le S (k_path_absolute_authority_absent S) (is_fragment_allowed r) b) as L.
      specialize (L ltac:(intros x; pose proof (path_absolute_le S x); ll)). ll.
  - destruct (is_relative_allowed r); rewrite ?kret_snd; ll.
Qed.
Lemma validate_le : forall S t s, snd (k_validate S t s) <= 10 * length s + 4.
Proof.
  intros S [] s; cbn [k_validate].
  1-3: apply common_le.
  - pose proof (relative_ref_le S s). ll.
  - pose proof (query_le S s). ll.
  - pose proof (fragment_le S s). ll.
Qed.

(** ** Templates *)
Lemma clen_pos : forall c, 1 <= clen c.
Proof. intros c. unfold clen. repeat (destruct (_ <? _)%N); lia. Qed.
Lemma split_at_length : forall s n a b, str_split_at s n = Ok (a, b) -> length s = length a + length b /\ (1 <= n -> 1 <= length a).
Proof.
  induction s as [|c r IH]; intros n a b H; (destruct n as [|n]; [injection H as <- <-; cbn; lia|]); [discriminate H|].
  cbn [str_split_at] in H. destruct (Nat.ltb (Datatypes.S n) (clen c)); [discriminate H|].
  destruct (str_split_at r (Datatypes.S n - clen c)) as [[a' b']|e|] eqn:E; try discriminate H.
  injection H as <- <-. apply IH in E as [E _]. cbn. lia.
Qed.
Lemma from_length : forall s n b, str_from s n = Ok b -> length b <= length s /\ (1 <= n -> length b < length s).
Proof.
  intros s n b. unfold str_from. destruct (str_split_at s n) as [[x y]|e|] eqn:E; cbn; try discriminate. injection 1 as <-.
  apply split_at_length in E. lia.
Qed.
Lemma tlift_ok : forall A (x : may A) a, tlift x = Ok a -> x = Ok a.
Proof. intros A [a|[]|] b; cbn; [injection 1 as <-; reflexivity|discriminate]. Qed.
Lemma literal_le : forall s o, snd (k_literal s o) <= length s.
Proof. intros. unfold k_literal, k_position. rewrite kbind_snd, kret_snd. cbn [snd]. pose proof (count_le (fun c => negb (is_ascii c) || negb (is_ascii_literal_char c)) s). lia. Qed.
Lemma varname_le : forall s o, snd (k_varname s o) <= length s + 3.
Proof.
  intros s o. unfold k_varname, tres. rewrite kand_snd. cbn [fst snd].
  match goal with |- context [match ?x with Ok _ => _ | Err _ => _ | Panic => _ end] => destruct x as [r|e|] eqn:E end; try lia.
  rewrite kbind_snd, kret_snd. pose proof (satisfy_le is_ascii_varchar_continue (fun _ => false) r) as L.
  assert (length r <= length s).
  { destruct (utf8s s) as [|b bs]; [discriminate|]. destruct ((b =? PCT)%N && starts_with_double_hexdigits bs).
    - apply tlift_ok, from_length in E. lia.
    - destruct (is_ascii b && is_ascii_varchar_start b); [|discriminate]. apply tlift_ok, from_length in E. lia. }
  lia.
Qed.
Lemma varspec_le : forall s o, snd (k_varspec s o) <= 2 * length s + 7.
Proof.
  intros s o. unfold k_varspec, tres. rewrite kbind_snd. destruct (hole2_spec s COLON STAR) as (h & m & E & H). rewrite E. clear E. cbn [fst snd].
  destruct h as [[[a c] b]|]; [|pose proof (varname_le s o); ll]. pose proof (varname_le a o).
  destruct (c =? COLON)%N; [|destruct (c =? STAR)%N]; rewrite ?kand_snd, ?kret_snd; try ll;
    destruct (k_varname a o) as [[u|e|] n]; cbn [fst snd] in *; rewrite ?kret_snd; try ll.
  destruct (Nat.leb 1 (blen b) && Nat.leb (blen b) 5) eqn:El; cbn [negb]; rewrite ?kbind_snd, ?kret_snd; [|ll].
  apply andb_prop in El as [_ El]. apply Nat.leb_le in El. unfold k_position. cbn [snd].
  pose proof (count_le (fun b => negb (is_digit b)) (utf8s b)). rewrite PSearch.utf8s_len in *. ll.
Qed.
Fixpoint total (l : list str) : nat := match l with [] => 0 | x :: r => length x + 1 + total r end.
Lemma split_on_total : forall p s, total (split_on p s) = length s + 1.
Proof.
  induction s as [|c r IH]; [reflexivity|]. cbn [split_on]. destruct (p c); cbn [total length]; [lia|].
  destruct (split_on p r) as [|x l]; cbn [total length] in *; lia.
Qed.
Lemma varspecs_le : forall l n o, snd (k_varspecs n l o) <= 8 * total l.
Proof.
  induction l as [|v l IH]; intros n o; [cbn; lia|]. cbn [k_varspecs total]. unfold tres in *. rewrite kbind_snd. cbn [snd fst]. rewrite kand_snd.
  match goal with |- context [k_varspec v ?o'] => pose proof (varspec_le v o'); destruct (k_varspec v o') as [[u|e|] m] end; cbn [fst snd] in *; try ll.
  match goal with |- context [k_varspecs ?a l ?b] => specialize (IH a b) end. ll.
Qed.
Lemma expr_body_le : forall s o, snd (k_expr_body s o) <= 8 * length s + 9.
Proof.
  intros s o. unfold k_expr_body, tres. destruct (utf8s s) as [|b bs]; [rewrite kret_snd; ll|]. rewrite kbind_snd. cbn [fst snd].
  destruct (MaybeOperator_from_byte b) as [[op|]|]; rewrite ?kand_snd, ?kret_snd, ?kret_fst; try ll.
  - destruct (tlift (str_from s 1)) as [v|e|] eqn:E; try ll. apply tlift_ok, from_length in E.
    pose proof (varspecs_le (split_on (N.eqb COMMA) v) 0 (o + 1)) as L. rewrite split_on_total in L. ll.
  - pose proof (varspecs_le (split_on (N.eqb COMMA) s) 0 o) as L. rewrite split_on_total in L. ll.
Qed.
Lemma template_loop_le : forall fuel s r o, snd (k_template_loop fuel s r o) <= 9 * length r.
Proof.
  induction fuel as [|fuel IH]; intros s r o; cbn [k_template_loop]; unfold tres in *; [rewrite kret_snd; ll|].
  destruct (is_empty r); [rewrite kret_snd; ll|]. rewrite kbind_snd. destruct (hole2_spec r PCT LBRACE) as (h & m & E & H). rewrite E. clear E. cbn [fst snd].
  destruct h as [[[l c] z]|]; [|pose proof (literal_le r o); ll]. rewrite kand_snd.
  set (step := if (c =? PCT)%N then _ else _).
  assert (Hs : match fst step with Ok nr => snd step + 9 * length nr <= 2 * length l + 9 * length z + 8 | _ => snd step <= 2 * length l + 9 * length z + 8 end).
  { subst step. destruct (c =? PCT)%N.
    - rewrite kand_fst, kand_snd. pose proof (literal_le l o). destruct (k_literal l o) as [[u|e|] n]; cbn [fst snd] in *; try ll.
      destruct (Nat.ltb (blen z) 2); rewrite ?kret_fst, ?kret_snd; [cbn; ll|]. rewrite kand_fst, kand_snd, kret_fst, kret_snd.
      destruct (tlift (str_split_at z 2)) as [[p q]|e|] eqn:E; try ll. apply tlift_ok, split_at_length in E.
      rewrite kand_fst, kand_snd. cbn [fst snd]. destruct (tlift (byte_at (utf8s p) 0)) as [x0|e|]; try ll.
      destruct (is_hexdigit x0); cbn [negb]; rewrite ?kret_fst, ?kret_snd; [|cbn; ll].
      rewrite kand_fst, kand_snd. cbn [fst snd]. destruct (tlift (byte_at (utf8s p) 1)) as [x1|e|]; try ll.
      destruct (is_hexdigit x1); cbn [negb]; rewrite ?kret_fst, ?kret_snd; cbn; ll.
    - destruct (c =? LBRACE)%N; [|rewrite kret_fst, kret_snd; ll].
      rewrite kand_fst, kand_snd. pose proof (literal_le l o). destruct (k_literal l o) as [[u|e|] n]; cbn [fst snd] in *; try ll.
      rewrite kbind_fst, kbind_snd. destruct (hole_spec z RBRACE) as (h & k & E & H'). rewrite E. clear E. cbn [fst snd].
      destruct h as [[e q]|]; [|rewrite kret_fst, kret_snd; cbn; ll]. rewrite kand_fst, kand_snd, kret_fst, kret_snd.
      match goal with |- context [k_expr_body e ?o'] => pose proof (expr_body_le e o'); destruct (k_expr_body e o') as [[u'|e'|] n'] end; cbn [fst snd] in *; ll. }
  destruct step as [[nr|e|] n]; cbn [fst snd] in *; try ll.
  match goal with |- context [k_template_loop fuel s nr ?b] => specialize (IH s nr b) end. ll.
Qed.
Lemma template_le : forall s, snd (k_template s) <= 9 * length s.
Proof. intros. apply template_loop_le. Qed.
