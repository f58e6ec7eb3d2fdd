(** * Proofs for C81: the byte-level interface (MBytes4.v) is the one of MCalls.v and MProg.v. *)
From Coq Require Import Lia.
From Verif Require Import Base Chars Rfc3986 Utf8 CompSpec RfcResolve PctSpec NormSpec EditSpec HistSpec CallSpec SearchSpec BuildSpec
  MValidate MTrusted MTypes MFormat MWriters MSearch MPct MPath MNormalize MEdit MEncode MBuild MCalls MProg MOffset MBytes MBytes2 MBytes3 MBytes4
  PBase PScan PSearch POffset POffset2 POffset3 POffset4 POffset5 POffset6 POffset7 POffset8 PBytes PBytes2 PBytes4 PNorm6 PNorm7 PNorm8 PComps PTypes3 PEncode2 PEdit PBuild3 PCalls PProg.

Section M.
Context (m : option memchr_crate) (Hm : sound m) (debug : bool).
Lemma y_new_eq S t s : y_new m S t s = new S t s.
Proof. unfold y_new, new. now rewrite (validate_eq m Hm). Qed.
Lemma y_unchecked_eq S t s : y_unchecked m debug S t s = new_unchecked_justified debug S t s.
Proof. unfold y_unchecked, new_unchecked_justified. now rewrite (validate_eq m Hm). Qed.
Lemma y_debug_eq S t s : y_debug_valid m debug S t s = debug_valid debug S t s.
Proof. unfold y_debug_valid, debug_valid. now rewrite (validate_eq m Hm). Qed.
Lemma y_typed_eq S t o : y_typed m debug S t o = match o with Some x => do x <- new_unchecked_justified debug S t x ; Ok (Some x) | None => Ok None end.
Proof. destruct o; cbn [y_typed]; [now rewrite y_unchecked_eq|reflexivity]. Qed.
Lemma y_scheme_eq t i : y_scheme_str m t i = scheme_str t i.
Proof. destruct t; cbn [y_scheme_str scheme_str]; rewrite ?(o_extract_scheme_absolute_eq m Hm), ?(o_extract_scheme_eq m Hm); reflexivity. Qed.
Lemma y_authority_eq t i : y_authority_str m t i = authority_str t i.
Proof. destruct t; cbn [y_authority_str authority_str]; rewrite ?(o_extract_authority_absolute_eq m Hm), ?(o_extract_authority_eq m Hm), ?(o_extract_authority_relative_eq m Hm); reflexivity. Qed.
Lemma y_path_str_eq t i : y_path_str m t i = path_str t i.
Proof. destruct t; cbn [y_path_str path_str]; rewrite ?(o_extract_path_absolute_eq m Hm), ?(o_extract_path_eq m Hm), ?(o_extract_path_relative_eq m Hm); reflexivity. Qed.
Lemma y_query_str_eq t i : y_query_str m debug t i = query_str debug t i.
Proof. destruct t; cbn [y_query_str query_str]; rewrite ?(o_extract_query_absolute_eq m Hm), ?(o_extract_query_eq m Hm); reflexivity. Qed.
Lemma y_fragment_str_eq t i : y_fragment_str m t i = fragment_str t i.
Proof. destruct t; cbn [y_fragment_str fragment_str]; rewrite ?(o_extract_fragment_eq m Hm); reflexivity. Qed.
Lemma y_query_ri_eq S t i : y_query_ri m debug S t i = query_ri debug S t i.
Proof. unfold y_query_ri, query_ri. rewrite y_query_str_eq. destruct (query_str debug t i) as [q|[]|]; try reflexivity. cbn [bind]. apply y_typed_eq. Qed.
Lemma y_fragment_ri_eq S t i : y_fragment_ri m debug S t i = fragment_ri debug S t i.
Proof. unfold y_fragment_ri, fragment_ri. rewrite y_fragment_str_eq. destruct (fragment_str t i) as [q|[]|]; try reflexivity. cbn [bind]. apply y_typed_eq. Qed.
Lemma y_reg_name_eq a : y_ac_reg_name m a = o_ac_reg_name a.
Proof. unfold y_ac_reg_name, o_ac_reg_name. destruct (o_ac_host a) as [h|[]|]; try reflexivity. cbn [bind]. rewrite (is_reg_name_eq m Hm). reflexivity. Qed.
Lemma y_to_iri_eq S s : y_to_iri m debug S s = to_iri debug S s.
Proof. unfold y_to_iri, to_iri. rewrite (o_extract_scheme_eq m Hm), !y_unchecked_eq. reflexivity. Qed.
Lemma y_to_relative_eq S s : y_to_relative_iri m debug S s = to_relative_iri debug S s.
Proof. unfold y_to_relative_iri, to_relative_iri. now rewrite y_to_iri_eq. Qed.
Lemma y_into_iri_eq S s : y_into_iri m debug S s = into_iri debug S s.
Proof. unfold y_into_iri, into_iri. rewrite (o_extract_scheme_eq m Hm), !y_unchecked_eq. reflexivity. Qed.
Lemma y_into_relative_eq S s : y_into_relative_iri m debug S s = into_relative_iri debug S s.
Proof. unfold y_into_relative_iri, into_relative_iri. now rewrite y_into_iri_eq. Qed.
Lemma y_to_af_eq S s : y_to_absolute_and_fragment m debug S s = to_absolute_and_fragment debug S s.
Proof. unfold y_to_absolute_and_fragment, to_absolute_and_fragment. rewrite (o_split_fragment_eq m Hm). cbn [bind]. destruct (split_fragment s) as [p f]. rewrite y_unchecked_eq, y_typed_eq. reflexivity. Qed.
Lemma y_to_absolute_eq S s : y_to_absolute m debug S s = to_absolute debug S s.
Proof.
  rewrite <- (o_to_absolute_eq m Hm). unfold y_to_absolute, o_to_absolute. destruct (o_split_fragment m s) as [[p f]|[]|]; try reflexivity. cbn [bind].
  destruct (str_to s (blen p)) as [x|[]|]; try reflexivity. cbn [bind]. apply y_unchecked_eq.
Qed.
Lemma y_into_af_eq S s : y_into_absolute_and_fragment m debug S s = into_absolute_and_fragment debug S s.
Proof. unfold y_into_absolute_and_fragment, into_absolute_and_fragment. rewrite (o_split_owned_eq m Hm). destruct (split_fragment_owned s) as [[p f]|[]|]; try reflexivity. cbn [bind]. rewrite y_unchecked_eq, y_typed_eq. reflexivity. Qed.
Lemma y_into_absolute_eq S s : y_into_absolute m debug S s = into_absolute debug S s.
Proof. unfold y_into_absolute, into_absolute. rewrite o_remove_fragment_eq. cbn [bind]. apply y_unchecked_eq. Qed.
Lemma y_mask_eq S t i : y_mask_to_dedicated_string m debug S t i = may_of (mask_to_dedicated_string debug true S t i).
Proof.
  rewrite <- (o_mask_dedicated_eq m Hm). unfold y_mask_to_dedicated_string, o_mask_to_dedicated_string. destruct (o_password_range_to_hide m i) as [[[st e]|]|[]|]; try reflexivity. cbn [bind].
  destruct (_ || _); [reflexivity|]. cbn [negb]. destruct (str_to i st) as [l|[]|]; try reflexivity; cbn [bind]. destruct (str_from i e) as [r|[]|]; try reflexivity; cbn [bind].
  rewrite y_unchecked_eq. now destruct (new_unchecked_justified debug S t (l ++ r)) as [x|[]|].
Qed.
Lemma y_remove_eq S t i : y_remove_password_inline m debug S t i = remove_password_inline debug S t i.
Proof.
  rewrite <- (o_remove_password_eq m Hm). unfold y_remove_password_inline, o_remove_password_inline. destruct (o_password_range_to_hide m i) as [[[st e]|]|[]|]; try reflexivity. cbn [bind].
  destruct st; [reflexivity|]. cbn [bind]. destruct (o_drain i st e) as [s|[]|]; try reflexivity. cbn [bind]. now rewrite y_debug_eq.
Qed.
Lemma y_remove_nonempty_eq S t i : y_remove_nonempty_password_inline m debug S t i = remove_nonempty_password_inline debug S t i.
Proof.
  rewrite <- (o_remove_nonempty_eq m Hm). unfold y_remove_nonempty_password_inline, o_remove_nonempty_password_inline. destruct (o_password_range_to_hide m i) as [[[st e]|]|[]|]; try reflexivity. cbn [bind].
  destruct (negb (Nat.ltb st e)); [reflexivity|]. destruct (debug && _); [reflexivity|]. cbn [bind]. destruct (o_drain i st e) as [s|[]|]; try reflexivity. cbn [bind]. now rewrite y_debug_eq.
Qed.
Lemma y_replace_host_eq S t i h only : y_replace_host m debug S t i h only = replace_host debug true S t i h only.
Proof.
  unfold replace_host. rewrite <- (o_replace_host_eq m Hm). unfold y_replace_host, o_try_replace_host_impl, y_replace_domain_impl, o_replace_domain_impl.
  destruct (o_from_iri_get_offset m i) as [[[a off]|]|[]|]; try reflexivity; cbn [bind].
  2: { rewrite y_debug_eq. now destruct (debug_valid debug S (replace_host_asserts t) i) as [|[]|]. }
  destruct (o_ac_host a) as [old|[]|]; try reflexivity; cbn [bind]. cbv zeta. rewrite (host_eq m Hm S h).
  destruct (is_err (validate_host S h)); cbn [bind].
  { rewrite y_debug_eq. now destruct (debug_valid debug S (replace_host_asserts t) i) as [|[]|]. }
  assert (E : (if only then b_is_host_reg_name m old else Ok true) = Ok (negb (only && negb (is_host_reg_name old)))).
  { destruct only; [|reflexivity]. rewrite (is_reg_name_eq m Hm). cbn [andb]. now rewrite negb_involutive. }
  rewrite E. cbn [bind]. rewrite negb_involutive. destruct (only && negb (is_host_reg_name old)); cbn [bind].
  { rewrite y_debug_eq. now destruct (debug_valid debug S (replace_host_asserts t) i) as [|[]|]. }
  rewrite andb_false_r. destruct (o_replace_range _ _ _ _) as [s|[]|]; try reflexivity; cbn [bind]. rewrite y_debug_eq. destruct (debug_valid debug S (replace_host_asserts t) s) as [|[]|]; try reflexivity; cbn [bind].
  now destruct (bslice s _ _) as [|[]|].
Qed.
Lemma y_set_fragment_eq S t i f : y_set_fragment m debug S t i f = set_fragment debug S t i f.
Proof. unfold y_set_fragment, set_fragment. rewrite o_set_fragment_eq. cbn [bind]. cbv zeta. now rewrite y_debug_eq. Qed.
Lemma ascii_eq s : forallb is_ascii (utf8s s) = all_ascii s.
Proof. unfold all_ascii. apply all_on_bytes. intros c H. now apply N.ltb_lt in H. Qed.
Lemma y_as_uri_eq t s : y_as_uri m debug t s = as_uri debug t s.
Proof. unfold y_as_uri, as_uri. now rewrite ascii_eq, y_unchecked_eq. Qed.
Lemma y_as_iri_eq t s : y_as_iri m debug t s = as_iri debug t s.
Proof. apply y_unchecked_eq. Qed.
Lemma y_mapped_eq t s : y_mapped_to_dedicated_string m debug t s = mapped_to_dedicated_string debug t s.
Proof. unfold y_mapped_to_dedicated_string, mapped_to_dedicated_string. rewrite mapped_eq. destruct (text (MappedToUri s)) as [u|[]|]; try reflexivity. cbn [bind]. apply y_unchecked_eq. Qed.
Lemma y_inline_eq t s : y_encode_to_uri_inline m debug t s = let (r, x) := try_encode_to_uri_inline true debug t s in do _ <- may_of r ; Ok x.
Proof.
  unfold y_encode_to_uri_inline, try_encode_to_uri_inline. destruct (try_percent_encode_iri_inline true s) as [[u|e|] x]; try reflexivity. rewrite y_debug_eq. unfold debug_valid. now destruct (debug && _).
Qed.
Lemma y_into_uri_eq t s : y_encode_into_uri m debug t s = may_of (try_encode_into_uri true debug t s).
Proof.
  unfold y_encode_into_uri, try_encode_into_uri. rewrite y_inline_eq. destruct (try_encode_to_uri_inline true debug t s) as [[u|e|] x]; try reflexivity. cbn [may_of bind]. rewrite y_unchecked_eq.
  now destruct (new_unchecked_justified debug UriSpec t x) as [|[]|].
Qed.
Lemma y_try_into_eq t s : y_try_into_uri m debug t s = try_into_uri debug t s.
Proof. unfold y_try_into_uri, try_into_uri. now rewrite ascii_eq, y_unchecked_eq. Qed.
Lemma y_into_string_eq b : y_into_string m b = into_string b.
Proof. unfold y_into_string, into_string. now rewrite (into_bytes_eq m Hm). Qed.
Lemma resolver_eq S i C : reads S i C -> y_resolver_scheme_str m i = resolver_scheme_str i /\ y_resolver_authority_str m i = resolver_authority_str i /\
  y_resolver_path_str m i = resolver_path_str i /\ y_resolver_query_str m i = resolver_query_str i.
Proof.
  intros R. destruct (splitters m Hm i (reads_scheme S i C R)) as (s & a & p & q & f & E & E1 & E2 & Ns).
  unfold y_resolver_scheme_str, y_resolver_authority_str, y_resolver_path_str, y_resolver_query_str, resolver_scheme_str, resolver_authority_str, resolver_path_str, resolver_query_str. rewrite E1, E2. cbn [bind].
  subst i. destruct (piece_scheme s a p q f) as (-> & ->). destruct (piece_authority s a p q f) as (-> & ->). destruct (piece_path s a p q f) as (-> & ->). destruct (piece_query s a p q f) as (-> & ->). auto.
Qed.
Lemma y_display_ok S n t : display S n = Ok t -> y_display m S n = Ok t.
Proof. intros H. unfold y_display. rewrite (text_sim _ _ _ (fmt_normalized_sim m Hm S n) H). exact H. Qed.
Lemma y_dedicated_ok S t n x : to_dedicated_string debug S t n = Ok x -> y_to_dedicated_string m debug S t n = Ok x.
Proof.
  unfold to_dedicated_string, y_to_dedicated_string. destruct (display S n) as [s|[]|] eqn:E; try discriminate. cbn [bind]. rewrite (y_display_ok _ _ _ E). cbn [bind]. now rewrite y_unchecked_eq.
Qed.
End M.
Section Calls.
Context (m : option memchr_crate) (Hm : sound m) (debug : bool).
Lemma may_ok {A} (r : may A) : is_panic r = false -> exists x, r = Ok x.
Proof. destruct r as [x|[]|]; [eauto|discriminate]. Qed.
Lemma is_panic_may {E A} (r : res E A) : is_panic (may_of r) = match r with Ok _ => false | _ => true end.
Proof. now destruct r. Qed.
Lemma norm_eq S keep i C : reads S i C -> o_normalize m keep i = if keep : bool then normalize_preserve i else normalize i.
Proof. intros R. apply (o_normalize_eq m Hm). eauto using reads_scheme. Qed.
Lemma res_eq S base i C : reads S i C -> IRI S base -> o_resolve m base i = resolve base i.
Proof. intros R H. destruct (iri_reads S base H) as (B & RB & _). apply (o_resolve_eq m Hm); eauto using reads_scheme. Qed.
Lemma norm_pwf S keep i n C : reads S i C -> (if keep : bool then normalize_preserve i else normalize i) = Ok n -> pwf_input n.
Proof.
  intros R E. assert (E' : (do n <- input_from i ; Ok (set_mode n (if keep then MPreserve else MDefault))) = Ok n) by (destruct keep; exact E).
  apply bind_ok in E'. destruct E' as (n0 & E0 & E'). injection E' as <-. unfold input_from in E0. apply bind_ok in E0. destruct E0 as ([[[[s a] p] q] f] & _ & E0). destruct s; [|discriminate]. injection E0 as <-. apply PNorm6.pwf_single.
Qed.
Lemma resolve_pwf base i n : resolve base i = Ok n -> pwf_input n.
Proof. unfold resolve. intros E. apply bind_ok in E. destruct E as (b & _ & E). apply bind_ok in E. destruct E as (r & _ & E). eapply create_pwf. exact E. Qed.
Lemma y_panics_eq S t i C c : new S (of_kind t) i = Ok i -> reads S i C -> has_call S t c -> y_call_panics m debug S t i c = call_panics debug S t i c.
Proof.
  intros V R H. assert (P := panics_exact debug S t i C c V R H).
  assert (NP : ~ panicking debug S t C c -> call_panics debug S t i c = false) by (intros K; destruct (call_panics debug S t i c); [exfalso; apply K, P; reflexivity|reflexivity]).
  destruct (resolver_eq m Hm S i C R) as (Q1 & Q2 & Q3 & Q4). clear P.
  destruct c; cbn [y_call_panics]; cbn [has_call] in H;
    rewrite ?(y_scheme_eq m Hm), ?(y_authority_eq m Hm), ?(y_path_str_eq m Hm), ?(y_query_str_eq m Hm), ?(y_fragment_str_eq m Hm), ?(y_query_ri_eq m Hm), ?(y_fragment_ri_eq m Hm),
      ?(y_to_iri_eq m Hm), ?(y_to_relative_eq m Hm), ?(y_into_iri_eq m Hm), ?(y_into_relative_eq m Hm), ?(y_to_absolute_eq m Hm), ?(y_to_af_eq m Hm), ?(y_into_absolute_eq m Hm), ?(y_into_af_eq m Hm),
      ?(y_unchecked_eq m Hm), ?(y_remove_eq m Hm), ?(y_remove_nonempty_eq m Hm), ?(y_replace_host_eq m Hm), ?(y_set_fragment_eq m Hm), ?(y_as_uri_eq m Hm), ?(y_as_iri_eq m Hm), ?mapped_eq, ?(y_mapped_eq m Hm),
      ?(y_try_into_eq m Hm), ?(y_into_string_eq m Hm), ?(to_bytes_eq m Hm), ?(into_bytes_eq m Hm), ?(fragments_eq m Hm), ?Q1, ?Q2, ?Q3, ?Q4, ?(norm_eq S keep i C R), ?(res_eq S base i C R H); try reflexivity.
  - rewrite NP by (intros K; inversion K). specialize (NP ltac:(intros K; inversion K)). cbn [call_panics] in NP. rewrite (o_components_eq m Hm). unfold authority_components in NP.
    destruct (extract_authority i) as [a|]; [|reflexivity]. destruct (auth_accessors m Hm a) as (b & Eb & _ & Eu & Eh & Er & Ep). rewrite Eb. cbn [bind]. rewrite (y_reg_name_eq m Hm), Eu, Eh, Er, Ep. exact NP.
  - specialize (NP ltac:(intros K; inversion K)). rewrite NP. cbn [call_panics] in NP. apply may_ok in NP. destruct NP as (x & E). apply bind_ok in E. destruct E as (n & -> & E). cbn [bind]. now rewrite (y_display_ok m Hm _ _ _ E).
  - specialize (NP ltac:(intros K; inversion K)). rewrite NP. cbn [call_panics] in NP. apply may_ok in NP. destruct NP as (x & E). apply bind_ok in E. destruct E as (n & -> & E). cbn [bind]. now rewrite (y_dedicated_ok m Hm _ _ _ _ _ E).
  - specialize (NP ltac:(intros K; inversion K)). rewrite NP. cbn [call_panics] in NP. apply may_ok in NP. destruct NP as (x & E). apply bind_ok in E. destruct E as (n & En & E). rewrite En. cbn [bind]. rewrite (o_ensure_eq m Hm), E; [reflexivity|]. eapply norm_pwf; eauto.
  - cbn [call_panics]. rewrite (offset_is_normalized m Hm); [reflexivity|]. eapply kind_iri; eauto.
  - specialize (NP ltac:(intros K; inversion K)). rewrite NP. cbn [call_panics] in NP. apply may_ok in NP. destruct NP as (x & E). apply bind_ok in E. destruct E as (n & -> & E). cbn [bind]. now rewrite (y_display_ok m Hm _ _ _ E).
  - specialize (NP ltac:(intros K; inversion K)). rewrite NP. cbn [call_panics] in NP. apply may_ok in NP. destruct NP as (x & E). apply bind_ok in E. destruct E as (n & -> & E). cbn [bind]. now rewrite (y_dedicated_ok m Hm _ _ _ _ _ E).
  - specialize (NP ltac:(intros K; inversion K)). rewrite NP. cbn [call_panics] in NP. apply may_ok in NP. destruct NP as (x & E). apply bind_ok in E. destruct E as (n & En & E). rewrite En. cbn [bind]. rewrite (o_ensure_eq m Hm), E; [reflexivity|].
    apply resolve_pwf in En. exact En.
  - rewrite (proj1 (offset_password m Hm debug true S (of_kind t) i)). reflexivity.
  - rewrite (y_mask_eq m Hm). cbn [call_panics]. specialize (NP ltac:(intros K; inversion K)). cbn [call_panics] in NP. rewrite NP, is_panic_may.
    unfold mask_to_dedicated_string in *. destruct (password_range_to_hide i) as [[[st e]|]|[]|]; try reflexivity; try discriminate. cbn [negb] in *. destruct (slice i 0 st), (slice i e (length i)); try discriminate.
    destruct (new_unchecked_justified debug S (of_kind t) _) as [|[]|]; [reflexivity|discriminate].
  - rewrite (proj1 (proj2 (proj2 (offset_password m Hm debug true S (of_kind t) i)))). reflexivity.
  - rewrite (y_inline_eq m Hm). specialize (NP ltac:(intros K; inversion K)). rewrite NP. subst S. rewrite (inline_typed debug _ i V). reflexivity.
  - rewrite (y_into_uri_eq m Hm). specialize (NP ltac:(intros K; inversion K)). rewrite NP. subst S. rewrite (encode_into debug _ i V). reflexivity.
Qed.
Lemma bind_may {A B} (x y : may A) (f : A -> may B) : x = y -> (do a <- x ; f a) = (do a <- y ; f a).
Proof. now intros ->. Qed.
Lemma y_conv_eq S t i c : c = CAsUri \/ c = CMapToUriOwned \/ c = CEncodeInline \/ c = CEncodeIntoUri \/ c = CIntoUri \/ c = CAsIri -> y_results m debug S t i c = results debug S t i c.
Proof.
  intros [-> |[-> |[-> |[-> |[-> | ->]]]]]; cbn [y_results results]; rewrite ?(y_as_uri_eq m Hm), ?(y_as_iri_eq m Hm), ?(y_mapped_eq m Hm), ?(y_try_into_eq m Hm), ?(y_into_uri_eq m Hm), ?(y_inline_eq m Hm); try reflexivity.
  destruct (try_encode_to_uri_inline true debug t i) as [[u|e|] x]; reflexivity.
Qed.
Lemma y_results_eq S k i C c : new S (of_kind k) i = Ok i -> reads S i C -> has_call S k c -> y_results m debug S (of_kind k) i c = results debug S (of_kind k) i c.
Proof.
  intros V R H. assert (P := panics_exact debug S k i C c V R H).
  assert (NP : ~ panicking debug S k C c -> call_panics debug S k i c = false) by (intros K; destruct (call_panics debug S k i c); [exfalso; apply K, P; reflexivity|reflexivity]). clear P.
  destruct c; try (apply y_conv_eq; solve [auto 7]); cbn [y_results results]; cbn [has_call] in H;
    rewrite ?(y_query_ri_eq m Hm), ?(y_fragment_ri_eq m Hm),
      ?(y_to_iri_eq m Hm), ?(y_to_relative_eq m Hm), ?(y_into_iri_eq m Hm), ?(y_into_relative_eq m Hm), ?(y_to_absolute_eq m Hm), ?(y_to_af_eq m Hm), ?(y_into_absolute_eq m Hm), ?(y_into_af_eq m Hm),
      ?(y_unchecked_eq m Hm), ?(y_remove_eq m Hm), ?(y_remove_nonempty_eq m Hm), ?(y_replace_host_eq m Hm), ?(y_set_fragment_eq m Hm), ?(y_mask_eq m Hm), ?(norm_eq S keep i C R), ?(res_eq S base i C R H); try reflexivity.
  - specialize (NP ltac:(intros K; inversion K)). cbn [call_panics] in NP. apply may_ok in NP. destruct NP as (x & E). apply bind_ok in E. destruct E as (n & -> & E). cbn [bind]. now rewrite (y_dedicated_ok m Hm _ _ _ _ _ E), E.
  - specialize (NP ltac:(intros K; inversion K)). cbn [call_panics] in NP. apply may_ok in NP. destruct NP as (x & E). apply bind_ok in E. destruct E as (n & -> & E). cbn [bind]. now rewrite (y_dedicated_ok m Hm _ _ _ _ _ E), E.
Qed.
(** ** The statements *)
Lemma y_panics_exact S t i C c : y_new m S (of_kind t) i = Ok i -> reads S i C -> has_call S t c -> (y_call_panics m debug S t i c = true <-> panicking debug S t C c).
Proof. rewrite (y_new_eq m Hm). intros V R H. rewrite (y_panics_eq S t i C c V R H). exact (panics_exact debug S t i C c V R H). Qed.
Lemma y_call_valid S t i C c vs : y_new m S (of_kind t) i = Ok i -> reads S i C -> has_call S t c -> debug = true \/ ~ damaging S t C c -> y_results m debug S (of_kind t) i c = Ok vs ->
  Forall (fun v => y_new m (v_spec v) (v_ty v) (v_str v) = Ok (v_str v)) vs.
Proof.
  rewrite (y_new_eq m Hm). intros V R H D E. rewrite (y_results_eq S t i C c V R H) in E. assert (X := call_valid debug S t i C c vs V R H D E).
  eapply Forall_impl; [|exact X]. intros v. rewrite (y_new_eq m Hm). auto.
Qed.
Lemma y_build_valid S t b x s : editable t = true -> y_build m S t b = Ok x -> debug = true \/ careful_build S t b -> y_built_to_dedicated_string m S debug t x = Ok s -> new S t s = Ok s.
Proof.
  intros Ht B A E. assert (X : debug = true \/ (debug = false /\ careful_build S t b)) by (destruct A; [now left|destruct debug; auto]). clear A. destruct X as [X|(X & A)].
  - unfold y_built_to_dedicated_string in E. destruct (text (y_built_display m S x)) as [y|[]|]; cbn [bind] in E; try discriminate. rewrite (validate_eq m Hm) in E. rewrite X in E. now apply justified_true in E.
  - assert (W : b_normalize b = false \/ pct_wf (b_path b)) by (right; apply (PNorm3.class_wf S); apply PScan.path_scan; apply A). rewrite (y_build_eq m Hm S t b W) in B. destruct A as (V & P & N).
    destruct (b_normalize b) eqn:Nb.
    + destruct (build_norm_only S t b x Ht V Nb P B) as (No & F). destruct (build_norm_accepts debug S t b Ht V Nb No F (N eq_refl)) as (x' & T & B' & _ & Tx & _ & Vt & Y). rewrite B in B'. injection B' as <-.
      rewrite (y_dedicated_eq m Hm S debug t x _ Tx), Y in E. injection E as <-. exact Vt.
    + destruct (PBuild2.build_only S t b x Ht V Nb P B) as (Rp & F). destruct (PBuild2.build_accepts debug S t b Ht V Nb Rp F) as (x' & i & B' & Tx & _ & Vt & Y). rewrite B in B'. injection B' as <-.
      rewrite (y_dedicated_eq m Hm S debug t x _ Tx), Y in E. injection E as <-. exact Vt.
Qed.
Lemma y_program_valid (allowed : Spec -> ty -> str -> call -> Prop) (allowed_build : Spec -> ty -> Builder -> Prop) pool :
  (debug = true \/ (forall S t i c, allowed S t i c -> careful S t i c) /\ (forall S t b, allowed_build S t b -> careful_build S t b)) ->
  y_reach m debug allowed allowed_build pool -> Forall valid pool.
Proof.
  intros A H. induction H as [|pool S t s x H IH Nw|pool S t i c vs H IH Hin Hh Ha Al E|pool S t b x s H IH Ht B Al E].
  - constructor.
  - constructor; [|exact IH]. unfold valid. cbn [v_spec v_ty v_str]. rewrite (y_new_eq m Hm) in Nw. assert (X : x = s) by (unfold new in Nw; destruct (validate S t s); congruence). subst x. exact Nw.
  - apply Forall_app. split; [|exact IH]. assert (V := proj1 (Forall_forall _ _) IH _ Hin). unfold valid in V. cbn [v_spec v_ty v_str] in V.
    unfold has in Hh. destruct (kind_of t) as [k|] eqn:Ek.
    + assert (Hk := kind_some _ _ Ek). subst t. destruct (editable_reads S _ i (kind_editable k) V) as (C & R).
      assert (HC : has_call S k c).
      { destruct c; try exact Hh.
        - assert (W := proj1 (Forall_forall _ _) IH _ (Ha _ (or_introl eq_refl))). cbn [has_call]. apply (kind_iri S KAbsolute); [now left|exact W].
        - split; [exact Hh|]. destruct f as [f|]; [|exact I]. assert (W := proj1 (Forall_forall _ _) IH _ (Ha _ (or_introl eq_refl))). unfold valid in W. cbn [v_spec v_ty v_str] in W. now apply PTypes.new_ok in W. }
      rewrite (y_results_eq S k i C c V R HC) in E. eapply call_valid; [exact V|exact R|exact HC| |exact E]. destruct A as [-> | (A & _)]; [now left|right]. exact (A _ _ _ _ Al k C Ek R).
    + assert (Ec : y_results m debug S t i c = results debug S t i c) by (apply y_conv_eq; destruct c; try contradiction; auto 7). rewrite Ec in E.
      destruct c; try contradiction; subst S; first [eapply as_iri_valid; eassumption | eapply conv_valid; [exact V| |exact E]; auto 6].
  - constructor; [|exact IH]. unfold valid. cbn [v_spec v_ty v_str]. eapply y_build_valid; [exact Ht|exact B| |exact E]. destruct A as [-> | (_ & A)]; [now left|right]. exact (A _ _ _ Al).
Qed.
Lemma y_valid pool : Forall valid pool -> Forall (fun v => y_new m (v_spec v) (v_ty v) (v_str v) = Ok (v_str v)) pool.
Proof. apply Forall_impl. intros v. rewrite (y_new_eq m Hm). auto. Qed.
End Calls.
Lemma y_panics_release m : sound m -> forall S t i C c, y_new m S (of_kind t) i = Ok i -> reads S i C -> has_call S t c ->
  (y_call_panics m false S t i c = true <->
   c = CRemovePassword /\ exists u x h o, parts S C (Some (u ++ [x])) h o /\ ~ In 58 (u ++ [x]) /\ 128 <= x).
Proof. intros Hm S t i C c. rewrite (y_new_eq m Hm). intros V R H. rewrite (y_panics_eq m Hm false S t i C c V R H). exact (panics_release S t i C c V R H). Qed.
Lemma y_damage m : sound m -> forall S t i C c, y_new m S (of_kind t) i = Ok i -> reads S i C -> damaging S t C c ->
  exists vs, y_results m false S (of_kind t) i c = Ok vs /\ ~ Forall (fun v => y_new m (v_spec v) (v_ty v) (v_str v) = Ok (v_str v)) vs.
Proof.
  intros Hm S t i C c. rewrite (y_new_eq m Hm). intros V R D. destruct (damage S t i C c V R D) as (vs & E & K). exists vs.
  assert (H : has_call S t c) by (destruct D; cbn [has_call]; auto). rewrite (y_results_eq m Hm false S t i C c V R H). split; [exact E|].
  intros X. apply K. eapply Forall_impl; [|exact X]. intros v Hv. cbv beta in Hv. rewrite (y_new_eq m Hm) in Hv. exact Hv.
Qed.
Lemma y_same m : sound m -> forall debug S t i C c, y_new m S (of_kind t) i = Ok i -> reads S i C -> has_call S t c ->
  y_results m debug S (of_kind t) i c = y_results None debug S (of_kind t) i c /\ y_call_panics m debug S t i c = y_call_panics None debug S t i c.
Proof.
  intros Hm debug S t i C c. rewrite (y_new_eq m Hm). intros V R H.
  rewrite (y_results_eq m Hm debug S t i C c V R H), (y_results_eq None I debug S t i C c V R H), (y_panics_eq m Hm debug S t i C c V R H), (y_panics_eq None I debug S t i C c V R H). auto.
Qed.
