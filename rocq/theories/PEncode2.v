(** Proofs for C21: IRI to URI conversion. *)
From Verif Require Import Base Chars Rfc3986 Utf8 CompSpec PctSpec RfcResolve NormSpec MValidate MTrusted MFormat MWriters MPct MEncode EncodeSpec
  PBase PScan PHost PAuth PValidate PTrusted PComps PAscii PTypes PPct PSearch PPath2 PNorm7 PEncode.

(** ** The mapping *)
Lemma to_uri_app a b : to_uri (a ++ b) = to_uri a ++ to_uri b.
Proof. apply encode_app. Qed.
Lemma to_uri_cons c s : to_uri (c :: s) = (if c <? 128 then [c] else triplets (utf8 c)) ++ to_uri s.
Proof. reflexivity. Qed.
Lemma to_uri_low c s : c < 128 -> to_uri (c :: s) = c :: to_uri s.
Proof. intros H. rewrite to_uri_cons. apply N.ltb_lt in H. now rewrite H. Qed.
Lemma to_uri_ascii s : all_ascii s = true -> to_uri s = s.
Proof.
  induction s as [|c s IH]; [reflexivity|]. cbn [all_ascii forallb]. intros H. bdestr. rewrite to_uri_low by (unfold is_ascii in *; lia). f_equal. now apply IH.
Qed.
Lemma ascii_scalar s : all_ascii s = true -> all_scalar s = true.
Proof. apply forallb_impl. intros c. unfold is_ascii, is_scalar. lia. Qed.
Lemma all_scalar_app a b : all_scalar (a ++ b) = all_scalar a && all_scalar b.
Proof. apply forallb_app'. Qed.
Lemma triplets_ascii bs : bytes bs -> all_ascii (triplets bs) = true.
Proof.
  induction 1 as [|b bs H B IH]; [reflexivity|]. unfold triplets. cbn [flat_map]. rewrite all_ascii_app. change (flat_map triplet bs) with (triplets bs). rewrite IH, andb_true_r.
  destruct (hex_digit_facts (b / 16) (byte_div b H)) as (_ & _ & _ & _ & X). destruct (hex_digit_facts (b mod 16) (byte_mod b)) as (_ & _ & _ & _ & Y).
  unfold triplet. cbn [all_ascii forallb]. unfold is_ascii. lia.
Qed.
Lemma to_uri_is_ascii s : all_scalar s = true -> all_ascii (to_uri s) = true.
Proof.
  induction s as [|c s IH]; [reflexivity|]. cbn [all_scalar forallb]. intros H. bdestr. rewrite to_uri_cons, all_ascii_app, IH by assumption. rewrite andb_true_r.
  destruct (c <? 128) eqn:E; [cbn [all_ascii forallb]; unfold is_ascii; now rewrite E|]. apply triplets_ascii. now apply utf8_bytes.
Qed.
Lemma scan_triplets g bs x : bytes bs -> scan g (triplets bs ++ x) = scan g x.
Proof.
  intros H. rewrite scan_app; auto. induction H as [|b bs H B IH]; [reflexivity|]. unfold triplets. cbn [flat_map]. change (flat_map triplet bs) with (triplets bs).
  destruct (hex_digit_facts (b / 16) (byte_div b H)) as (_ & X & _). destruct (hex_digit_facts (b mod 16) (byte_mod b)) as (_ & Y & _).
  unfold triplet. cbn [app]. change 37 with PCT. rewrite scan_pct, IH. rewrite hexdig_eq in X, Y. now rewrite X, Y.
Qed.
Lemma scan_uri f g s : (forall c, f c = true -> is_scalar c = true) -> (forall c, f c = true -> c < 128 -> g c = true) ->
  scan f s = true -> all_scalar s = true /\ scan g (to_uri s) = true.
Proof.
  intros H1 H2. revert s. apply (scan_ind (fun s => scan f s = true -> all_scalar s = true /\ scan g (to_uri s) = true)).
  - auto.
  - intros c r Hc IH. rewrite scan_cons by assumption. intros E. bdestr. destruct IH as [X Y]; auto. split; [apply andb_true_intro; auto|].
    rewrite to_uri_cons. destruct (c <? 128) eqn:E.
    + cbn [app]. rewrite scan_cons by assumption. rewrite Y, H2; auto. lia.
    + rewrite scan_triplets; auto. apply utf8_bytes. auto.
  - intros u l r IH. rewrite scan_pct. intros E. bdestr. destruct IH as [X Y]; auto.
    assert (Au := hex_ascii u H). assert (Al := hex_ascii l H3). unfold is_ascii in *. split.
    + cbn [all_scalar forallb]. fold (all_scalar r). rewrite X. unfold is_scalar. change PCT with 37. lia.
    + rewrite !to_uri_low by (change PCT with 37; lia). rewrite scan_pct, H, H3, Y. reflexivity.
  - now rewrite scan_pct0.
  - intros u. now rewrite scan_pct1.
Qed.

Definition maps (A B : lang) : Prop := forall s, A s -> all_scalar s = true /\ B (to_uri s).
Lemma unreserved_low c : unreserved IriSpec c = true -> c < 128 -> unreserved UriSpec c = true.
Proof. intros H L. assert (A : is_ascii c = true) by (unfold is_ascii; lia). rewrite (unreserved_ascii IriSpec _ A) in H. now rewrite (unreserved_ascii UriSpec _ A). Qed.
Lemma private_low c : iri_only IriSpec iprivate c = true -> c < 128 -> False.
Proof. cbn [iri_only]. unfold iprivate, between. lia. Qed.
Lemma sub_scalar c : sub_delims c = true -> is_scalar c = true.
Proof. intros H. destruct (is_ascii c) eqn:A; [unfold is_ascii, is_scalar in *; lia|]. exfalso. revert H. apply not_true_iff_false. 
  unfold sub_delims, one_of, is_ascii in *. cbn [lit existsb]. cbn [N_of_ascii N_of_digits]. rewrite ?orb_false_iff, ?N.eqb_neq. lia. Qed.
Ltac chr_tac := repeat match goal with
  | H : (_ || _) = true |- _ => apply orb_prop in H; destruct H as [H|H]
  | H : (?c =? _) = true |- _ => apply N.eqb_eq in H; subst c end.
Lemma f_pchar_maps : (forall c, f_pchar IriSpec c = true -> is_scalar c = true) /\ (forall c, f_pchar IriSpec c = true -> c < 128 -> f_pchar UriSpec c = true).
Proof.
  split; intros c H; unfold f_pchar in *; chr_tac; auto using sub_scalar; try reflexivity; try (eapply unreserved_scalar; eassumption); intros L.
  - now rewrite unreserved_low. - rewrite H. now rewrite orb_true_r.
Qed.
Lemma f_slash_maps : (forall c, f_pchar_slash IriSpec c = true -> is_scalar c = true) /\ (forall c, f_pchar_slash IriSpec c = true -> c < 128 -> f_pchar_slash UriSpec c = true).
Proof.
  destruct f_pchar_maps as [P Q]. split; intros c H; unfold f_pchar_slash in *; chr_tac; auto; intros L; try reflexivity. now rewrite Q.
Qed.
Lemma f_fragment_maps : (forall c, f_fragment IriSpec c = true -> is_scalar c = true) /\ (forall c, f_fragment IriSpec c = true -> c < 128 -> f_fragment UriSpec c = true).
Proof.
  destruct f_pchar_maps as [P Q]. split; intros c H; unfold f_fragment in *; chr_tac; auto; intros L; try reflexivity. now rewrite Q.
Qed.
Lemma f_query_maps : (forall c, f_query IriSpec c = true -> is_scalar c = true) /\ (forall c, f_query IriSpec c = true -> c < 128 -> f_query UriSpec c = true).
Proof.
  destruct f_pchar_maps as [P Q]. split; intros c H; unfold f_query in *; chr_tac; auto; try reflexivity; try (intros L; reflexivity).
  - cbn [iri_only] in H. clear P Q. unfold iprivate, is_scalar, between in *. lia.
  - intros L. now rewrite Q.
  - intros L. exfalso. eapply private_low; eauto.
Qed.
Lemma f_regname_maps : (forall c, f_regname IriSpec c = true -> is_scalar c = true) /\ (forall c, f_regname IriSpec c = true -> c < 128 -> f_regname UriSpec c = true).
Proof.
  split; intros c H; unfold f_regname in *; chr_tac; auto using sub_scalar; try (eapply unreserved_scalar; eassumption); intros L.
  - now rewrite unreserved_low. - rewrite H. now rewrite orb_true_r.
Qed.
Lemma f_userinfo_maps : (forall c, f_userinfo IriSpec c = true -> is_scalar c = true) /\ (forall c, f_userinfo IriSpec c = true -> c < 128 -> f_userinfo UriSpec c = true).
Proof.
  destruct f_regname_maps as [P Q]. split; intros c H; unfold f_userinfo, f_regname in *; apply orb_prop in H; destruct H as [H|H]; auto; [chr_tac; reflexivity|intros L; now rewrite Q|intros L; chr_tac; reflexivity].
Qed.
Lemma maps_query : maps (query IriSpec) (query UriSpec).
Proof. intros s H. rewrite query_scan in *. apply (scan_uri (f_query IriSpec)); auto; apply f_query_maps. Qed.
Lemma maps_fragment : maps (fragment IriSpec) (fragment UriSpec).
Proof. intros s H. rewrite fragment_scan in *. apply (scan_uri (f_fragment IriSpec)); auto; apply f_fragment_maps. Qed.
Lemma maps_userinfo : maps (userinfo IriSpec) (userinfo UriSpec).
Proof. intros s H. rewrite userinfo_scan in *. apply (scan_uri (f_userinfo IriSpec)); auto; apply f_userinfo_maps. Qed.
Lemma maps_ascii A : asc_in A -> maps A A.
Proof. intros H s X. specialize (H s X). rewrite to_uri_ascii by exact H. split; auto. now apply ascii_scalar. Qed.
Lemma maps_host : maps (host IriSpec) (host UriSpec).
Proof.
  intros s [H|[H|H]].
  - destruct (maps_ascii _ IP_literal_ascii s H). split; auto. now left.
  - destruct (maps_ascii _ IPv4_ascii s H). split; auto. right. now left.
  - rewrite reg_name_scan in H. apply (scan_uri _ (f_regname UriSpec)) in H; try apply f_regname_maps. destruct H. split; auto. right. right. now rewrite reg_name_scan.
Qed.
Lemma maps_port : maps port port.
Proof. apply maps_ascii. intros s H. apply star_cls in H. eapply forallb_asc; [|exact H]. intros c. unfold DIGIT, between, is_ascii. lia. Qed.
Lemma maps_scheme : maps scheme scheme.
Proof. apply maps_ascii. intros s H. now apply asc_scheme. Qed.
Lemma maps_opt A B o : maps A B -> opt_in A o -> opt_in B (omap o) /\ match o with Some x => all_scalar x = true | None => True end.
Proof. intros M H. destruct o as [x|]; cbn [opt_in omap] in *; auto. destruct (M x H); auto. Qed.
Lemma authority_string_uri u h p : to_uri (authority_string u h p) = authority_string (omap u) (to_uri h) (omap p).
Proof.
  unfold authority_string. rewrite !to_uri_app. f_equal; [|f_equal]; [destruct u|destruct p]; cbn [omap]; rewrite ?to_uri_app; reflexivity.
Qed.
Lemma maps_authority : maps (authority IriSpec) (authority UriSpec).
Proof.
  intros s H. apply authority_comps in H. destruct H as (u & h & p & -> & Hu & Hh & Hp). destruct (maps_opt _ _ u maps_userinfo Hu) as [U1 U2]. destruct (maps_opt _ _ p maps_port Hp) as [P1 P2]. destruct (maps_host h Hh) as [H1 H2].
  split; [|rewrite authority_string_uri; apply authority_comps; do 3 eexists; split; [reflexivity|auto]].
  unfold authority_string. rewrite !all_scalar_app, H1. destruct u, p; rewrite ?all_scalar_app, ?U2, ?P2; reflexivity.
Qed.
Lemma maps_abempty : maps (path_abempty IriSpec) (path_abempty UriSpec).
Proof.
  intros s H. rewrite path_abempty_scan in *. destruct H as [->|(r & -> & H)]; [split; [reflexivity|now left]|].
  apply (scan_uri _ (f_pchar_slash UriSpec)) in H; try apply f_slash_maps. destruct H as [H1 H2]. split; [exact H1|]. right. exists (to_uri r). split; auto.
Qed.
Lemma uri_head c s : 128 <= c -> exists r, to_uri (c :: s) = PCT :: r.
Proof.
  intros H. rewrite to_uri_cons. replace (c <? 128) with false by lia. unfold triplets. destruct (utf8 c) eqn:E; [now apply utf8_nonempty in E|]. cbn [flat_map]. unfold triplet. cbn [app]. eexists. reflexivity.
Qed.
Lemma uri_slashes s : starts_with [SLASH; SLASH] (to_uri s) = starts_with [SLASH; SLASH] s.
Proof.
  assert (X : forall a b, starts_with [SLASH; SLASH] (a :: b) = (SLASH =? a) && starts_with [SLASH] b). { intros a b. unfold starts_with. cbn [strip_prefix]. destruct (SLASH =? a); reflexivity. }
  assert (Y : forall a b, starts_with [SLASH] (a :: b) = (SLASH =? a)). { intros a b. unfold starts_with. cbn [strip_prefix]. destruct (SLASH =? a); reflexivity. }
  destruct s as [|a s]; [reflexivity|]. destruct (N.ltb_spec a 128) as [L|L].
  - rewrite to_uri_low by exact L. rewrite !X. f_equal. destruct s as [|b s]; [reflexivity|]. destruct (N.ltb_spec b 128) as [M|M].
    + rewrite to_uri_low by exact M. now rewrite !Y.
    + destruct (uri_head b s M) as (r & ->). rewrite !Y. replace (SLASH =? b) with false; [reflexivity|]. symmetry. apply N.eqb_neq. unfold SLASH. lia.
  - destruct (uri_head a s L) as (r & ->). rewrite !X. replace (SLASH =? a) with false; [reflexivity|]. symmetry. apply N.eqb_neq. unfold SLASH. lia.
Qed.
Lemma uri_split p s : all_scalar s = true -> (forall c, p c = true -> c < 128 /\ c <> 37 /\ HEXDIG c = false) ->
  split_first p (to_uri s) = match split_first p s with Some (a, c, b) => Some (to_uri a, c, to_uri b) | None => None end.
Proof.
  intros Hs Hp. induction s as [|c s IH]; [reflexivity|]. cbn [all_scalar forallb] in Hs. bdestr. cbn [split_first]. destruct (p c) eqn:E.
  - destruct (Hp c E) as [L _]. rewrite to_uri_low by exact L. cbn [split_first]. now rewrite E.
  - rewrite to_uri_cons. destruct (c <? 128) eqn:L.
    + cbn [app split_first]. rewrite E, IH by assumption. destruct (split_first p s) as [[[a x] b]|]; auto. rewrite to_uri_low by lia. reflexivity.
    + assert (N1 : none p (triplets (utf8 c)) = true).
      { assert (B : bytes (utf8 c)) by now apply utf8_bytes. clear - B Hp. induction B as [|b bs B Bs IH]; [reflexivity|]. unfold triplets. cbn [flat_map]. rewrite none_app. change (flat_map triplet bs) with (triplets bs). rewrite IH, andb_true_r.
        destruct (hex_digit_facts (b / 16) (byte_div b B)) as (_ & X & _). destruct (hex_digit_facts (b mod 16) (byte_mod b)) as (_ & Y & _).
        unfold triplet. rewrite !none_cons. change (none p []) with true.
        destruct (p 37) eqn:E0; [destruct (Hp _ E0) as (_ & Z & _); congruence|]. destruct (p (hex_digit (b / 16))) eqn:E1; [destruct (Hp _ E1) as (_ & _ & Z); congruence|].
        destruct (p (hex_digit (b mod 16))) eqn:E2; [destruct (Hp _ E2) as (_ & _ & Z); congruence|]. reflexivity. }
      destruct (split_first p s) as [[[a x] b]|] eqn:F.
      * rewrite to_uri_cons, L. assert (G := F). apply split_first_some in G. destruct G as (_ & _ & Px). apply split_first_some in IH; auto. destruct IH as (IH1 & IH2 & _).
        rewrite IH1. rewrite app_assoc. apply split_first_app; auto. rewrite none_app, N1, IH2. reflexivity.
      * apply split_first_none in IH; auto. apply split_first_none_app. now rewrite none_app, N1, IH.
Qed.
Lemma uri_first_colon s : all_scalar s = true -> first_is_colon (to_uri s) = first_is_colon s.
Proof.
  intros H. unfold first_is_colon, find_split2_hole. rewrite uri_split; auto.
  - destruct (split_first _ s) as [[[a x] b]|]; reflexivity.
  - intros c. unfold COLON, SLASH. intros X. chr_tac; repeat split; auto; discriminate.
Qed.
Lemma maps_abs : maps (path_absolute IriSpec <|> path_rootless IriSpec <|> path_empty) (path_absolute UriSpec <|> path_rootless UriSpec <|> path_empty).
Proof.
  intros s H. rewrite path_noauth_abs in *. destruct H as [H1 H2]. apply (scan_uri _ (f_pchar_slash UriSpec)) in H1; try apply f_slash_maps. rewrite uri_slashes. tauto.
Qed.
Lemma maps_rel : maps (path_absolute IriSpec <|> path_noscheme IriSpec <|> path_empty) (path_absolute UriSpec <|> path_noscheme UriSpec <|> path_empty).
Proof.
  intros s H. rewrite path_noauth_rel in *. destruct H as (H1 & H2 & H3). apply (scan_uri _ (f_pchar_slash UriSpec)) in H1; try apply f_slash_maps. destruct H1 as [H1 H4]. rewrite uri_slashes, uri_first_colon; auto.
Qed.
Lemma recompose_uri s a p q f : to_uri (recompose s a p q f) = recompose (omap s) (omap a) (to_uri p) (omap q) (omap f).
Proof.
  unfold recompose. rewrite !to_uri_app. destruct s, a, q, f; cbn [omap]; rewrite ?to_uri_app; reflexivity.
Qed.
Lemma reads_uri i C : reads IriSpec i C -> all_scalar i = true /\ reads UriSpec (to_uri i) (to_uri_comps C).
Proof.
  destruct C as [s a p q f]. intros [H ->]. unfold reads, comps_ok in *. cbn [c_s c_a c_p c_q c_f to_uri_comps] in *. rewrite recompose_uri.
  destruct H as (Hs & Ha & Hq & Hf & Hp). destruct (maps_opt _ _ s maps_scheme Hs) as [S1 S2]. destruct (maps_opt _ _ a maps_authority Ha) as [A1 A2]. destruct (maps_opt _ _ q maps_query Hq) as [Q1 Q2]. destruct (maps_opt _ _ f maps_fragment Hf) as [F1 F2].
  assert (P : all_scalar p = true /\ match omap a, omap s with
    | Some _, _ => path_abempty UriSpec (to_uri p) | None, Some _ => (path_absolute UriSpec <|> path_rootless UriSpec <|> path_empty) (to_uri p)
    | None, None => (path_absolute UriSpec <|> path_noscheme UriSpec <|> path_empty) (to_uri p) end).
  { destruct a; [|destruct s]; cbn [omap]; [now apply maps_abempty|now apply maps_abs|now apply maps_rel]. }
  destruct P as [P1 P2]. split; [|split; [unfold components_ok; auto|reflexivity]].
  unfold recompose. rewrite !all_scalar_app, P1. destruct s, a, q, f; rewrite ?all_scalar_app, ?S2, ?A2, ?Q2, ?F2; reflexivity.
Qed.
Lemma maps_ty t : maps (ty_lang IriSpec t) (ty_lang UriSpec t).
Proof.
  intros s H. destruct t; cbn [ty_lang] in *.
  - apply absolute_code_comps in H. destruct H as (s' & a & p & q & f & -> & H & Hf). destruct (reads_uri _ (mkC (Some s') a p q f) (conj H eq_refl)) as [X [Y1 Y2]]. cbn [c_s c_a c_p c_q c_f] in Y2, X. split; auto.
    apply absolute_code_comps. rewrite Y2. do 5 eexists. split; [reflexivity|]. split; [exact Y1|]. cbn [c_f to_uri_comps]. destruct Hf; subst; auto.
  - apply iri_reads in H. destruct H as (C & H & D). apply reads_uri in H. destruct H as [X Y]. split; auto. eapply reads_iri; eauto. destruct C as [[|] ? ? ? ?]; auto.
  - apply reference_reads in H. destruct H as (C & H). apply reads_uri in H. destruct H as [X Y]. split; auto. eapply reads_reference; eauto.
  - apply relative_comps in H. destruct H as (a & p & q & f & -> & H). destruct (reads_uri _ (mkC None a p q f) (conj H eq_refl)) as [X [Y1 Y2]]. cbn [c_s c_a c_p c_q c_f] in Y2, X. split; auto.
    apply relative_comps. rewrite Y2. do 4 eexists. split; [reflexivity|]. exact Y1.
  - now apply maps_query.
  - now apply maps_fragment.
Qed.

(** ** Streaming conversion *)
Inductive pb : nat -> list N -> Prop :=
| pb_nil : pb 0 []
| pb_cons : forall k x y r, pb k r -> pb (S k) (PCT :: x :: y :: r).
Lemma pb_length k buf : pb k buf -> length buf = (k * 3)%nat.
Proof. induction 1; cbn [length]; lia. Qed.
Lemma pb_repeat k : pb k (repeat PCT (k * 3)).
Proof. induction k; cbn [repeat Nat.mul Nat.add]; now constructor. Qed.
Lemma fill_ok k : forall buf bs, pb k buf -> bytes bs -> exists buf' used rest, fill buf bs = Ok (buf', rest) /\ bs = used ++ rest /\ pb k buf' /\
  firstn (length used * 3) buf' = triplets used /\ length used = Nat.min k (length bs).
Proof.
  induction k as [|k IH]; intros buf bs P B; inversion P; subst.
  - exists [], [], bs. cbn [fill]. repeat split; auto.
  - destruct bs as [|b bs].
    + exists (PCT :: x :: y :: r), [], []. cbn [fill]. repeat split; auto.
    + inversion B; subst. destruct (IH r bs H0 H3) as (buf' & used & rest & E & -> & P' & F & L).
      destruct (hex_digit_facts (b / 16) (byte_div b H2)) as (_ & _ & _ & X & _). destruct (hex_digit_facts (b mod 16) (byte_mod b)) as (_ & _ & _ & Y & _).
      exists (PCT :: hex_digit (b / 16) :: hex_digit (b mod 16) :: buf'), (b :: used), rest. cbn [fill]. rewrite N.eqb_refl, X. cbn [bind]. rewrite byte_land, Y. cbn [bind]. rewrite E. cbn [bind].
      split; [reflexivity|]. split; [reflexivity|]. split; [now constructor|]. split; [|cbn [length]; lia]. cbn [length Nat.mul Nat.add firstn]. rewrite F. reflexivity.
Qed.
Lemma slice_firstn (b : list N) n : (n <= length b)%nat -> slice_p b 0 n = Ok (firstn n b).
Proof.
  intros H. unfold slice_p, slice. replace (Nat.leb 0 n && Nat.leb n (length b))%bool with true by (symmetry; apply andb_true_intro; split; apply Nat.leb_le; lia).
  cbn [skipn]. now rewrite Nat.sub_0_r.
Qed.
Lemma pct_loop_ok k fuel : forall buf bs, (0 < k)%nat -> pb k buf -> bytes bs -> (length bs < fuel)%nat -> outs (pct_encode_loop fuel buf bs) = Some (triplets bs, tt).
Proof.
  induction fuel as [|fuel IH]; intros buf bs K P B L; [lia|]. cbn [pct_encode_loop]. destruct bs as [|b bs]; [apply outs_ret|].
  destruct (fill_ok k buf (b :: bs) P B) as (buf' & used & rest & E & Eb & P' & F & Lu). rewrite E. assert (Lb : length (used ++ rest) = S (length bs)) by (rewrite <- Eb; reflexivity). rewrite Eb in *. assert (Bl : bytes rest) by (apply Forall_app in B; apply B).
  change (triplets (used ++ rest)) with (flat_map triplet (used ++ rest)). rewrite flat_map_app. change (flat_map triplet used) with ([] ++ triplets used). rewrite <- app_assoc. eapply outs_bind; [apply outs_lift|]. cbv beta iota.
  replace (length (used ++ rest) - length rest)%nat with (length used) by (rewrite app_length; lia).
  rewrite slice_firstn by (rewrite (pb_length _ _ P'); lia). rewrite F.
  change (triplets used ++ flat_map triplet rest) with ([] ++ triplets used ++ triplets rest). eapply outs_bind; [apply outs_lift|]. cbv beta.
  eapply outs_bind; [apply outs_write|]. cbv beta. apply IH; auto. rewrite app_length in *. cbn [length] in *. lia.
Qed.
Lemma percent_encode_bytes_ok len s : (3 <= len)%nat -> all_scalar s = true -> outs (percent_encode_bytes len s) = Some (triplets (utf8s s), tt).
Proof.
  intros H Hs. unfold percent_encode_bytes. replace (Nat.ltb len 3) with false by (symmetry; apply Nat.ltb_ge; lia). apply pct_loop_ok with (k := (len / 3)%nat); auto using pb_repeat, utf8s_bytes.
  apply Nat.div_str_pos. lia.
Qed.
Lemma split_pos_ok p s a b : split_pos p s = (a, b) -> s = a ++ b /\ none p a = true /\ match b with [] => True | c :: _ => p c = true end.
Proof.
  unfold split_pos. destruct (split_first p s) as [[[x c] y]|] eqn:E; intros X; injection X as <- <-.
  - apply split_first_some in E. destruct E as (-> & ? & ?). auto.
  - apply split_first_none in E. rewrite app_nil_r. auto.
Qed.
Lemma to_uri_nonascii s : none is_ascii s = true -> to_uri s = triplets (utf8s s).
Proof.
  induction s as [|c s IH]; [reflexivity|]. rewrite none_cons. intros H. bdestr. rewrite to_uri_cons. replace (c <? 128) with false by (unfold is_ascii in *; lia). rewrite IH by assumption. unfold triplets, utf8s. cbn [flat_map]. now rewrite flat_map_app.
Qed.
Lemma none_nonascii s : none (fun c => negb (is_ascii c)) s = true -> all_ascii s = true.
Proof. induction s as [|c s IH]; [reflexivity|]. rewrite none_cons, negb_involutive. intros H. bdestr. cbn [all_ascii forallb]. rewrite H. now apply IH. Qed.
Lemma wpe_ok fuel : forall s, (length s < fuel)%nat -> all_scalar s = true -> outs (wpe_loop fuel s) = Some (to_uri s, tt).
Proof.
  induction fuel as [|fuel IH]; intros s L Hs; [lia|]. cbn [wpe_loop]. destruct (is_empty s) eqn:Es; [apply is_empty_iff in Es; subst; apply outs_ret|].
  destruct (split_pos (fun c => negb (is_ascii c)) s) as [ascii rest] eqn:E1. apply split_pos_ok in E1. destruct E1 as (E1 & N1 & H1).
  assert (A1 := none_nonascii _ N1).
  assert (X : outs (if is_empty ascii then wret s else write ascii >> wret rest) = Some (ascii, rest)).
  { destruct (is_empty ascii) eqn:Ea; [apply is_empty_iff in Ea; subst ascii; cbn [app] in E1; subst; apply outs_ret|].
    cbn. now rewrite app_nil_r. }
  rewrite E1, to_uri_app, (to_uri_ascii ascii) by exact A1. rewrite E1, all_scalar_app in Hs. bdestr. rewrite <- E1.
  eapply outs_bind; [exact X|]. cbv beta. destruct (is_empty rest) eqn:Er; [apply is_empty_iff in Er; subst; apply outs_ret|].
  destruct (split_pos is_ascii rest) as [non rest'] eqn:E2. assert (E2' := E2). apply split_pos_ok in E2. destruct E2 as (E2 & N2 & H2).
  assert (NE : is_empty non = false).
  { destruct non; [|reflexivity]. exfalso. cbn [app] in E2. subst rest'. destruct rest as [|c rest]; [discriminate|]. rewrite H2 in H1. discriminate. }
  rewrite NE. rewrite E2, to_uri_app, (to_uri_nonascii non) by exact N2. rewrite E2, all_scalar_app in *. bdestr.
  eapply outs_bind; [apply percent_encode_bytes_ok; auto; cbn; lia|]. cbv beta. apply IH; auto.
  rewrite E1, !app_length in L. destruct non; [discriminate|]. cbn [length] in L. lia.
Qed.
Lemma mapped_outs s : all_scalar s = true -> outs (MappedToUri s) = Some (to_uri s, tt).
Proof. apply wpe_ok. lia. Qed.
Lemma mapped_text s : all_scalar s = true -> text (MappedToUri s) = Ok (to_uri s).
Proof. intros H. eapply outs_text. now apply mapped_outs. Qed.
Lemma mapped_dedicated debug t s : new IriSpec t s = Ok s -> mapped_to_dedicated_string debug t s = Ok (to_uri s) /\ new UriSpec t (to_uri s) = Ok (to_uri s).
Proof.
  intros H. apply new_ok in H. destruct (maps_ty t s H) as [X Y]. unfold mapped_to_dedicated_string. rewrite mapped_text by exact X. cbn [bind]. split; [|now apply new_ok].
  apply unchecked_ok. now apply validate_iff.
Qed.
Lemma to_uri_denotes s b : all_scalar s = true -> denotes s b -> denotes (to_uri s) b.
Proof.
  intros Hs D. revert Hs. induction D as [|c s b Hc D IH|u l s b Hu Hl D IH]; intros Hs; [constructor| |].
  - cbn [all_scalar forallb] in Hs. bdestr. rewrite to_uri_cons. destruct (c <? 128); [apply dn_raw; auto|]. apply triplets_denote; auto. now apply utf8_bytes.
  - cbn [all_scalar forallb] in Hs. bdestr. assert (Au := hex_ascii u Hu). assert (Al := hex_ascii l Hl). unfold is_ascii in *. rewrite !to_uri_low by lia. apply dn_trip; auto.
Qed.

(** ** In-place conversion *)
Definition enc_bytes (b : list N) : list N := flat_map (fun x => if is_ascii x then [x] else triplet x) b.
Lemma enc_app a b : enc_bytes (a ++ b) = enc_bytes a ++ enc_bytes b.
Proof. apply flat_map_app. Qed.
Lemma get_at_app a x b : get_at (a ++ x :: b) (length a) = Ok x.
Proof. unfold get_at. rewrite nth_error_app2, Nat.sub_diag by lia. reflexivity. Qed.
Lemma set_at_app a x b v : set_at (a ++ x :: b) (length a) v = Ok (a ++ v :: b).
Proof. induction a; cbn [app length set_at]; auto. now rewrite IHa. Qed.
Lemma list_last (l : list N) n : length l = S n -> exists l' x, l = l' ++ [x] /\ length l' = n.
Proof.
  intros H. destruct (exists_last (l := l)) as (l' & x & E); [intros ->; discriminate|]. exists l', x. split; auto. subst. rewrite app_length in H. cbn [length] in H. lia.
Qed.
Lemma count_app a b : count_nonascii (a ++ b) = (count_nonascii a + count_nonascii b)%nat.
Proof. unfold count_nonascii. rewrite filter_app. apply app_length. Qed.
Lemma count_zero b : count_nonascii b = 0%nat -> enc_bytes b = b.
Proof.
  unfold count_nonascii, enc_bytes. induction b as [|x b IH]; auto. cbn [filter flat_map]. destruct (is_ascii x); cbn [negb length app]; [|lia]. intros H. f_equal. auto.
Qed.
Lemma inline_ok fuel : forall P M T, bytes P -> length M = (count_nonascii P * 2)%nat -> (length P < fuel)%nat ->
  inline_loop fuel (P ++ M ++ T) (length P + length M) (length P) (count_nonascii P) = Ok (enc_bytes P ++ T).
Proof.
  induction fuel as [|fuel IH]; intros P M T B Lm L; [lia|]. destruct (count_nonascii P) as [|r] eqn:C.
  { cbn [inline_loop]. destruct M; [|discriminate]. cbn [app]. rewrite count_zero by exact C. reflexivity. }
  cbn [inline_loop]. destruct P as [|x P _] using rev_ind; [discriminate|]. rewrite app_length. cbn [length]. unfold sub_p at 1.
  replace (Nat.ltb (length P + 1) 1) with false by (symmetry; apply Nat.ltb_ge; lia). cbn [bind]. unfold sub_p at 1. replace (Nat.ltb (length P + 1 + length M) 1) with false by (symmetry; apply Nat.ltb_ge; lia). cbn [bind].
  replace (length P + 1 - 1)%nat with (length P) by lia. rewrite <- app_assoc. cbn [app]. rewrite get_at_app. cbn [bind]. rewrite count_app in C. unfold count_nonascii at 2 in C. cbn [filter] in C.
  apply Forall_app in B. destruct B as [B Bx]. inversion Bx as [|? ? Bx' _]; subst. rewrite app_length in L. cbn [length] in L. rewrite enc_app. unfold enc_bytes at 2. cbn [flat_map].
  destruct (is_ascii x) eqn:A; cbn [negb length] in C.
  - destruct (list_last (x :: M) (length M) eq_refl) as (M' & y & E & LM').
    assert (Z : P ++ x :: M ++ T = (P ++ M') ++ y :: T) by (rewrite app_comm_cons, E, <- !app_assoc; reflexivity). rewrite Z.
    replace (length P + 1 + length M - 1)%nat with (length (P ++ M')) by (rewrite app_length; lia). rewrite set_at_app. cbn [bind]. rewrite <- app_assoc, app_length.
    replace (S r) with (count_nonascii P) by lia. rewrite IH; auto; try lia. rewrite <- app_assoc. reflexivity.
  - destruct (list_last (x :: M) (length M) eq_refl) as (M1 & y1 & E1 & L1). destruct (list_last M1 (length M - 1)) as (M2 & y2 & E2 & L2); [lia|]. destruct (list_last M2 (length M - 2)) as (M3 & y3 & E3 & L3); [lia|].
    assert (Z : P ++ x :: M ++ T = (P ++ M3) ++ y3 :: y2 :: y1 :: T) by (rewrite app_comm_cons, E1, E2, E3, <- !app_assoc; reflexivity). rewrite Z.
    unfold sub_p. replace (Nat.ltb (length P + 1 + length M - 1) 2) with false by (symmetry; apply Nat.ltb_ge; lia). cbn [bind].
    replace (length P + 1 + length M - 1 - 2)%nat with (length (P ++ M3)) by (rewrite app_length; lia). rewrite set_at_app. cbn [bind].
    destruct (hex_digit_facts (x / 16) (byte_div x Bx')) as (_ & _ & _ & X & _). destruct (hex_digit_facts (x mod 16) (byte_mod x)) as (_ & _ & _ & Y & _). rewrite X. cbn [bind].
    replace (length (P ++ M3) + 1)%nat with (length ((P ++ M3) ++ [PCT])) by (rewrite app_length; reflexivity). replace ((P ++ M3) ++ PCT :: y2 :: y1 :: T) with (((P ++ M3) ++ [PCT]) ++ y2 :: y1 :: T) by (rewrite <- (app_assoc (P ++ M3)); reflexivity).
    rewrite set_at_app. cbn [bind]. rewrite byte_land, Y. cbn [bind].
    replace (length (P ++ M3) + 2)%nat with (length ((P ++ M3) ++ [PCT; hex_digit (x / 16)])) by (rewrite app_length; reflexivity).
    replace (((P ++ M3) ++ [PCT]) ++ hex_digit (x / 16) :: y1 :: T) with (((P ++ M3) ++ [PCT; hex_digit (x / 16)]) ++ y1 :: T) by (rewrite <- !(app_assoc (P ++ M3)); reflexivity).
    rewrite set_at_app. cbn [bind]. rewrite <- !app_assoc, app_length. replace r with (count_nonascii P) by lia. rewrite IH; auto; lia.
Qed.
Lemma enc_utf8s s : all_scalar s = true -> enc_bytes (utf8s s) = to_uri s.
Proof.
  induction s as [|c s IH]; [reflexivity|]. cbn [all_scalar forallb]. intros H. bdestr. change (utf8s (c :: s)) with (utf8 c ++ utf8s s). rewrite enc_app, to_uri_cons, IH by assumption. f_equal. destruct (c <? 128) eqn:L.
  - rewrite utf8_ascii_eq by lia. unfold enc_bytes. cbn [flat_map]. unfold is_ascii. rewrite L. reflexivity.
  - assert (X := utf8_high c). unfold enc_bytes, triplets. assert (Y : Forall (fun b => 128 <= b) (utf8 c)) by (apply X; lia). clear - Y. induction Y; [reflexivity|]. cbn [flat_map]. rewrite IHY. unfold is_ascii. replace (x <? 128) with false by lia. reflexivity.
Qed.
Lemma utf8s_ascii s : all_ascii s = true -> utf8s s = s.
Proof. induction s as [|c s IH]; [reflexivity|]. cbn [all_ascii forallb]. intros H. bdestr. change (utf8s (c :: s)) with (utf8 c ++ utf8s s). rewrite utf8_ascii_eq by (unfold is_ascii in *; lia). cbn [app]. f_equal. auto. Qed.
Lemma inline_text s : all_scalar s = true -> try_percent_encode_iri_inline true s = (Ok tt, to_uri s).
Proof.
  intros H. unfold try_percent_encode_iri_inline. destruct (Nat.eqb_spec (count_nonascii (utf8s s)) 0) as [E|E].
  - f_equal. apply count_zero in E. rewrite enc_utf8s in E by exact H.
    assert (X := to_uri_is_ascii s H). rewrite E in X. rewrite E. clear E. revert H X. induction s as [|c s IH]; [reflexivity|]. change (utf8s (c :: s)) with (utf8 c ++ utf8s s). rewrite all_ascii_app. cbn [all_scalar forallb]. intros H X. bdestr.
    assert (c < 128). { destruct (N.ltb_spec c 128); auto. assert (Y := utf8_high c). destruct (utf8 c) eqn:Z; [now apply utf8_nonempty in Z|]. specialize (Y ltac:(lia)). inversion Y; subst. cbn [all_ascii forallb] in *. bdestr. unfold is_ascii in *. lia. }
    rewrite utf8_ascii_eq by assumption. cbn [app]. f_equal. auto.
  - cbn [negb]. rewrite app_length, repeat_length. assert (X := inline_ok (1 + length (utf8s s)) (utf8s s) (repeat 0 (count_nonascii (utf8s s) * 2)) [] (utf8s_bytes s H)). rewrite repeat_length, app_nil_r in X.
    rewrite X by (auto; lia). rewrite app_nil_r, enc_utf8s by exact H. assert (Y := to_uri_is_ascii s H). assert (F : from_utf8 (to_uri s) = Some (to_uri s)); [|now rewrite F].
    apply from_utf8_ok. split; [now apply ascii_scalar|]. symmetry. now apply utf8s_ascii.
Qed.
Lemma uri_is_iri t s : ty_lang UriSpec t s -> ty_lang IriSpec t s.
Proof. intros H. apply asc_ty in H. apply H. Qed.
Lemma inline_typed debug t s : new IriSpec t s = Ok s -> try_encode_to_uri_inline true debug t s = (Ok tt, to_uri s).
Proof.
  intros H. apply new_ok in H. destruct (maps_ty t s H) as [X Y]. unfold try_encode_to_uri_inline. rewrite inline_text by exact X.
  replace (is_ok (validate IriSpec t (to_uri s))) with true; [now rewrite andb_false_r|]. symmetry. apply is_ok_validate, validate_iff. now apply uri_is_iri.
Qed.
Lemma ascii_count s : all_ascii s = true -> count_nonascii (utf8s s) = 0%nat.
Proof. intros H. rewrite utf8s_ascii by exact H. unfold count_nonascii. induction s as [|c s IH]; [reflexivity|]. cbn [all_ascii forallb filter] in *. bdestr. rewrite H. cbn [negb]. auto. Qed.
Lemma inline_typed_fail debug t s : new IriSpec t s = Ok s -> 
  (all_ascii s = true -> try_encode_to_uri_inline false debug t s = (Ok tt, s)) /\ (all_ascii s = false -> try_encode_to_uri_inline false debug t s = (Err AllocFailed, s)).
Proof.
  intros H. apply new_ok in H. destruct (maps_ty t s H) as [X Y]. unfold try_encode_to_uri_inline, try_percent_encode_iri_inline. split; intros A.
  - rewrite ascii_count by exact A. cbn [Nat.eqb]. replace (is_ok (validate IriSpec t s)) with true; [now rewrite andb_false_r|]. symmetry. now apply is_ok_validate, validate_iff.
  - destruct (Nat.eqb_spec (count_nonascii (utf8s s)) 0) as [E|E]; [|reflexivity]. exfalso. apply count_zero in E. rewrite enc_utf8s in E by exact X. assert (Z := to_uri_is_ascii s X). rewrite E in Z. clear - A Z. 
    induction s as [|c s IH]; [discriminate|]. change (utf8s (c :: s)) with (utf8 c ++ utf8s s) in Z. rewrite all_ascii_app in Z. bdestr. cbn [all_ascii forallb] in A. fold (all_ascii s) in A. destruct (is_ascii c) eqn:Ec; cbn [andb] in A; auto.
    assert (Q := utf8_high c). destruct (utf8 c) eqn:Z'; [now apply utf8_nonempty in Z'|]. unfold is_ascii in Ec. specialize (Q ltac:(lia)). inversion Q; subst. cbn [all_ascii forallb] in *. bdestr. unfold is_ascii in *. lia.
Qed.
Lemma encode_into debug t s : new IriSpec t s = Ok s -> try_encode_into_uri true debug t s = Ok (to_uri s).
Proof.
  intros H. unfold try_encode_into_uri. rewrite inline_typed by exact H. apply new_ok in H. destruct (maps_ty t s H) as [X Y]. now rewrite unchecked_ok by now apply validate_iff.
Qed.
Lemma encode_into_fail debug t s : new IriSpec t s = Ok s ->
  (all_ascii s = true -> try_encode_into_uri false debug t s = Ok s) /\ (all_ascii s = false -> try_encode_into_uri false debug t s = Err AllocFailed).
Proof.
  intros H. unfold try_encode_into_uri. destruct (inline_typed_fail debug t s H) as (X1 & X2). split; intros A; [rewrite (X1 A)|now rewrite (X2 A)].
  assert (U : new UriSpec t s = Ok s) by now apply (as_uri_ok debug t s H). apply new_ok in U. now rewrite unchecked_ok by now apply validate_iff.
Qed.
Lemma into_uri_ok debug t s : new IriSpec t s = Ok s ->
  (all_ascii s = true -> try_into_uri debug t s = Ok (inl s) /\ new UriSpec t s = Ok s) /\ (all_ascii s = false -> try_into_uri debug t s = Ok (inr s)).
Proof.
  intros H. apply new_ok in H. unfold try_into_uri. split; intros A; rewrite A; cbn [negb]; [|reflexivity].
  assert (X : ty_lang UriSpec t s) by (apply asc_ty; auto). rewrite unchecked_ok by now apply validate_iff. cbn [bind]. split; auto. now apply new_ok.
Qed.
