(** * Properties C10-C14 and C35: reference resolution.
    Specification: RfcResolve.v, NormSpec.v.  Model: MPath.v, MNormalize.v. *)
From Verif Require Import Base Chars Rfc3986 CompSpec RfcResolve PctSpec NormSpec MValidate MTrusted MFormat MPct MPath MNormalize
  PTypes PPath PPath2 PPath5 PResolve PRds PNorm3 PNorm6 PNorm7 PNorm8 PInst.

(** ** C10: the displayed result of resolution is the RFC 3986 section 5.2.2 target, and that target
    exists and is unique. *)
Theorem C10_resolution : forall S base ref B R,
  reads S base B -> defined (c_s B) = true -> reads S ref R ->
  exists n T, resolve base ref = Ok n /\ transform B R T /\ (forall T', transform B R T' -> T' = T) /\
    display S n = Ok (unparse T).
Proof. exact c10_resolution. Qed.
Print Assumptions C10_resolution.
(** Every IRI and every reference has such components (and only these). *)
Theorem C10_applies : forall S base ref, IRI S base -> IRI_reference S ref ->
  exists B R, reads S base B /\ defined (c_s B) = true /\ reads S ref R /\
    (forall B', reads S base B' -> B' = B) /\ (forall R', reads S ref R' -> R' = R).
Proof. exact c10_applies. Qed.
Print Assumptions C10_applies.
(** To the letter of the RFC (dot segments are "." and ".." only) when no dot is percent-encoded. *)
Theorem C10_resolution_letter : forall S base ref B R,
  reads S base B -> defined (c_s B) = true -> reads S ref R -> no_2e (c_p B) -> no_2e (c_p R) ->
  exists n T, resolve base ref = Ok n /\ transform_with rds_literal B R T /\ display S n = Ok (unparse T).
Proof. exact c10_letter. Qed.
Print Assumptions C10_resolution_letter.
Definition shown (S : Spec) (n : may NormalizationInput) : may str := do n <- n ; display S n.
Example C10_ex1 : shown UriSpec (resolve (lit "http://a/b/c/d;p?q") (lit "../../../g;x=1/../y?z#w")) = Ok (lit "http://a/y?z#w").
Proof. vm_compute. reflexivity. Qed.
Example C10_ex2 : shown UriSpec (resolve (lit "mid:content@x/y") (lit "%2E%2e/./a//b")) = Ok (lit "mid:/a//b").
Proof. vm_compute. reflexivity. Qed.
Example C10_ex3 : reads UriSpec (lit "http://a/b?q") (mkC (Some (lit "http")) (Some (lit "a")) (lit "/b") (Some (lit "q")) None).
Proof. apply reads_of_major; vm_compute; reflexivity. Qed.

(** ** C11: the output is a valid IRI in every normalization mode, and [to_dedicated_string] hands it
    out without hitting its debug assertion. *)
Theorem C11_output_valid : forall S base ref mode debug, IRI S base -> IRI_reference S ref ->
  exists n out, resolve base ref = Ok n /\ display S (set_mode n mode) = Ok out /\ IRI S out /\
    to_dedicated_string debug S TIri (set_mode n mode) = Ok out.
Proof. exact resolve_valid. Qed.
Print Assumptions C11_output_valid.
(** What resolution with normalization computes: the normal form of the section 5.2.2 target (default
    mode), and of the target before the removal of dot segments in the preserving mode. *)
Theorem C11_and_normalize : forall S base ref B R,
  reads S base B -> defined (c_s B) = true -> reads S ref R ->
  exists n T0 T, resolve base ref = Ok n /\ transform B R T0 /\ comps_normal S false T0 T /\
    display S (set_mode n MDefault) = Ok (unparse T).
Proof. exact c11_and_normalize. Qed.
Print Assumptions C11_and_normalize.
Theorem C11_and_normalize_preserving : forall S base ref B R,
  reads S base B -> defined (c_s B) = true -> reads S ref R ->
  exists n M T, resolve base ref = Ok n /\ pre_transform B R M /\ comps_normal S true M T /\
    display S (set_mode n MPreserve) = Ok (unparse T).
Proof. exact c11_and_normalize_preserving. Qed.
Print Assumptions C11_and_normalize_preserving.
Example C11_ex : IRI UriSpec (lit "foo:/a") /\ IRI_reference UriSpec (lit "..//b") /\
  shown UriSpec (do n <- resolve (lit "foo:/a") (lit "..//%41") ; Ok (set_mode n MDefault)) = Ok (lit "foo:/.//A").
Proof. split; [|split]; [apply (new_ok UriSpec TIri)|apply (new_ok UriSpec TReference)|]; vm_compute; reflexivity. Qed.

(** ** C12: the path writer (segment queue of size 8) is remove_dot_segments. *)
Theorem C12_exists_unique : forall p, exists t, rds p t /\ forall t', rds p t' -> t' = t.
Proof. exact c12_unique. Qed.
Print Assumptions C12_exists_unique.
Theorem C12_single_path : forall S p, exists t, rds p t /\
  text (fmt_write_normalize S MNone false (from_single_path p)) = Ok (safe_path None t).
Proof. exact c12_single. Qed.
Print Assumptions C12_single_path.
Theorem C12_single_path_authority : forall S p a, p = [] \/ (exists r, p = lit "/" ++ r) ->
  exists t, rds p t /\ text (fmt_write_normalize S MNone true (from_single_path p)) = Ok (safe_path (Some a) t).
Proof. exact c12_single_auth. Qed.
Print Assumptions C12_single_path_authority.
(** A path given in two pieces (base directory and reference path). *)
Theorem C12_two_paths : forall S b r, r <> [] -> (forall x, r <> lit "/" ++ x) ->
  exists m t, merge false b r m /\ rds m t /\
    text (fmt_write_normalize S MNone false (from_paths_to_be_resolved b r)) = Ok (safe_path None t).
Proof. exact c12_two. Qed.
Print Assumptions C12_two_paths.
(** The result has no dot segments. *)
Theorem C12_no_dot_segments : forall p t a seg b, rds p t -> t = a ++ seg ++ b ->
  a = [] \/ (exists a', a = a' ++ lit "/") -> b = [] \/ (exists b', b = lit "/" ++ b') -> no_slash seg ->
  ~ single_dot seg /\ ~ double_dot seg.
Proof. exact c12_no_dots. Qed.
Print Assumptions C12_no_dot_segments.
Theorem C12_idempotent : forall p t, rds p t -> rds t t.
Proof. exact rds_idem. Qed.
Print Assumptions C12_idempotent.
Theorem C12_literal : forall p t, no_2e p -> rds p t -> rds_literal p t.
Proof. exact rds_is_literal. Qed.
Print Assumptions C12_literal.
Example C12_ex : text (fmt_write_normalize UriSpec MNone true
    (from_single_path (lit "/1/2/3/4/5/6/7/8/9/10/../../../../../../../../../11/./12/..")))
  = Ok (lit "/1/11/").
Proof. vm_compute. reflexivity. Qed.

(** ** C13: the output reads back as the target: same authority (none stays none), same query and
    fragment, and the path differs only by "/." before "//". *)
Theorem C13_unambiguous : forall S base ref, IRI S base -> IRI_reference S ref ->
  exists n T out, resolve base ref = Ok n /\ display S n = Ok out /\
    to_major out = Ok (c_s T, c_a T, safe_path (c_a T) (c_p T), c_q T, c_f T) /\
    (forall B R, reads S base B -> reads S ref R -> transform B R T).
Proof. exact c13_resolve. Qed.
Print Assumptions C13_unambiguous.
Theorem C13_unambiguous_normalize : forall S (keep : bool) i C, reads S i C -> defined (c_s C) = true ->
  exists n T out, (if keep then normalize_preserve i else normalize i) = Ok n /\ display S n = Ok out /\
    comps_normal S keep C T /\
    to_major out = Ok (c_s T, c_a T, safe_path (c_a T) (c_p T), c_q T, c_f T).
Proof. exact c13_normalize. Qed.
Print Assumptions C13_unambiguous_normalize.
Example C13_ex : shown UriSpec (resolve (lit "foo:") (lit ".///bar")) = Ok (lit "foo:/.//bar") /\
  extract_authority (lit "foo:/.//bar") = None.
Proof. vm_compute. split; reflexivity. Qed.

(** ** C14: [ensure_rfc3986_normalizable]: [true] is [Ok(())]. *)
Theorem C14_resolve : forall S base ref B R,
  reads S base B -> defined (c_s B) = true -> reads S ref R ->
  exists n T b, resolve base ref = Ok n /\ transform B R T /\ display S n = Ok (unparse T) /\
    ensure_rfc3986_normalizable n = Ok b /\ (b = true <-> ~ fell_back T).
Proof. exact c14_resolve. Qed.
Print Assumptions C14_resolve.
(** For [normalize] and (independently of the mode) [normalize_but_preserve...]: whether the RFC
    normal form falls back. *)
Theorem C14_normalize : forall S (keep : bool) i C, reads S i C -> defined (c_s C) = true ->
  exists n T b, (if keep then normalize_preserve i else normalize i) = Ok n /\ comps_normal S false C T /\
    ensure_rfc3986_normalizable n = Ok b /\ (b = true <-> ~ fell_back T).
Proof. exact c14_normalize. Qed.
Print Assumptions C14_normalize.
(** With [and_normalize] after resolution, the check still looks at resolution only: it can succeed
    although the displayed text has the "/." prefix (DESIGN.md, finding F3).  The full statement
    "[ensure] fails iff the displayed result fell back" is false. *)
Theorem C14_and_normalize_refuted : exists base ref n, IRI UriSpec base /\ IRI_reference UriSpec ref /\
  resolve base ref = Ok n /\ ensure_rfc3986_normalizable (set_mode n MDefault) = Ok true /\
  display UriSpec (set_mode n MDefault) = Ok (lit "foo:/.//bar").
Proof. exact c14_refuted. Qed.
Print Assumptions C14_and_normalize_refuted.
(** It is exact with [and_normalize] unless the reference has neither scheme, authority nor path. *)
Theorem C14_and_normalize_partial : forall S base ref B R,
  reads S base B -> defined (c_s B) = true -> reads S ref R ->
  defined (c_s R) = true \/ defined (c_a R) = true \/ c_p R <> [] ->
  exists n T0 T b, resolve base ref = Ok n /\ transform B R T0 /\ comps_normal S false T0 T /\
    display S (set_mode n MDefault) = Ok (unparse T) /\
    ensure_rfc3986_normalizable (set_mode n MDefault) = Ok b /\ (b = true <-> ~ fell_back T).
Proof. exact c14_and_normalize. Qed.
Print Assumptions C14_and_normalize_partial.
(** normalize.rs:21-27: "this kind of failure can happen only when the base IRI has no authority and
    empty path.  [...] no cases are known to fail when at least one of the base IRI or the relative
    IRI contains authorities".  Both statements are false. *)
Theorem C14_doc_refuted :
  (exists n, resolve (lit "foo:/a") (lit "..//bar") = Ok n /\ ensure_rfc3986_normalizable n = Ok false) /\
  (exists n, resolve (lit "foo://host/a") (lit "bar:.///baz") = Ok n /\ ensure_rfc3986_normalizable n = Ok false).
Proof. exact c14_doc. Qed.
Print Assumptions C14_doc_refuted.

(** ** C35: laws of resolution. *)
Theorem C35_scheme_ignores_base : forall S base base' ref, IRI S base -> IRI S base' -> IRI S ref ->
  exists n n' out, resolve base ref = Ok n /\ resolve base' ref = Ok n' /\
    display S n = Ok out /\ display S n' = Ok out.
Proof. exact resolve_scheme. Qed.
Print Assumptions C35_scheme_ignores_base.
(** "" and "#f": the base with that fragment (none for ""). *)
Theorem C35_fragment_only : forall S base B (f : option str),
  reads S base B -> defined (c_s B) = true -> opt_in (fragment S) f ->
  exists n, resolve base (recompose None None [] None f) = Ok n /\
    display S n = Ok (recompose (c_s B) (c_a B) (c_p B) (c_q B) f).
Proof. exact resolve_frag_only. Qed.
Print Assumptions C35_fragment_only.
(** "?q" and "?q#f" *)
Theorem C35_query_only : forall S base B q (f : option str),
  reads S base B -> defined (c_s B) = true -> query S q -> opt_in (fragment S) f ->
  exists n, resolve base (recompose None None [] (Some q) f) = Ok n /\
    display S n = Ok (recompose (c_s B) (c_a B) (c_p B) (Some q) f).
Proof. exact resolve_query_only. Qed.
Print Assumptions C35_query_only.
Theorem C35_base_fragment_irrelevant : forall S s a p q f f' ref,
  components_ok S (Some s) a p q f -> components_ok S (Some s) a p q f' -> IRI_reference S ref ->
  exists n n' out, resolve (recompose (Some s) a p q f) ref = Ok n /\
    resolve (recompose (Some s) a p q f') ref = Ok n' /\ display S n = Ok out /\ display S n' = Ok out.
Proof. exact resolve_base_fragment. Qed.
Print Assumptions C35_base_fragment_irrelevant.
(** Resolving a result again: it is stable when the reference had a scheme, an authority or a path... *)
Theorem C35_again_partial : forall S base base' ref R, IRI S base -> IRI S base' -> reads S ref R ->
  defined (c_s R) = true \/ defined (c_a R) = true \/ c_p R <> [] ->
  exists n out n', resolve base ref = Ok n /\ display S n = Ok out /\
    resolve base' out = Ok n' /\ display S n' = Ok out.
Proof. exact resolve_again. Qed.
Print Assumptions C35_again_partial.
(** ... but not otherwise, as in the RFC, because the path of the base is then taken over as it is. *)
Theorem C35_again_refuted : exists base ref n out n' out', IRI UriSpec base /\ IRI_reference UriSpec ref /\
  resolve base ref = Ok n /\ display UriSpec n = Ok out /\
  resolve base out = Ok n' /\ display UriSpec n' = Ok out' /\ out' <> out.
Proof. exact c35_refuted. Qed.
Print Assumptions C35_again_refuted.
(** The hypotheses of C14 and C35 are met, by a pair whose resolution needs "/.//" and by one that does not. *)
Example C14_hypotheses : reads UriSpec (lit "foo:/a") (mkC (Some (lit "foo")) None (lit "/a") None None) /\
  reads UriSpec (lit "..//bar") (mkC None None (lit "..//bar") None None) /\
  match resolve (lit "foo:/a") (lit "..//bar") with Ok n => (display UriSpec n, ensure_rfc3986_normalizable n) | _ => (Panic, Panic) end = (Ok (lit "foo:/.//bar"), Ok false) /\
  match resolve (lit "foo:/a") (lit "../bar") with Ok n => (display UriSpec n, ensure_rfc3986_normalizable n) | _ => (Panic, Panic) end = (Ok (lit "foo:/bar"), Ok true).
Proof. split; [|split; [|split; vm_compute; reflexivity]]; apply (PNorm8.reads_of_major UriSpec); vm_compute; reflexivity. Qed.
Example C35_ex : IRI UriSpec (lit "http://h/a/b?q#x") /\ IRI UriSpec (lit "mid:z") /\ IRI UriSpec (lit "s:t/../u") /\
  shown UriSpec (resolve (lit "http://h/a/b?q#x") (lit "s:t/../u")) = Ok (lit "s:/u") /\ shown UriSpec (resolve (lit "mid:z") (lit "s:t/../u")) = Ok (lit "s:/u") /\
  shown UriSpec (resolve (lit "http://h/a/b?q#x") (lit "")) = Ok (lit "http://h/a/b?q") /\
  shown UriSpec (resolve (lit "http://h/a/b?q#x") (lit "?r#f")) = Ok (lit "http://h/a/b?r#f") /\
  shown UriSpec (resolve (lit "http://h/a/b?q#x") (lit "../c")) = Ok (lit "http://h/c") /\ shown UriSpec (resolve (lit "mid:z") (lit "http://h/c")) = Ok (lit "http://h/c").
Proof. do 3 (split; [apply (proj1 (PTypes.new_ok UriSpec TIri _)); vm_compute; reflexivity|]). repeat split; vm_compute; reflexivity. Qed.

(** The theorems applied to concrete cases, so that their hypotheses are seen to be met. *)
Example C10_letter_instance := C10_resolution_letter UriSpec (lit "http://a/b/c/d;p?q") (lit "../g;x=1/../y?z#w")
  (mkC (Some (lit "http")) (Some (lit "a")) (lit "/b/c/d;p") (Some (lit "q")) None) (mkC None None (lit "../g;x=1/../y") (Some (lit "z")) (Some (lit "w")))
  ltac:(rd) eq_refl ltac:(rd) ltac:(apply no_2e_of; out) ltac:(apply no_2e_of; out).
Example C12_hypotheses : rds (lit "/a/%2E/b/..") (lit "/a/") /\ rds (lit "/a/./b") (lit "/a/b") /\ no_2e (lit "/a/./b").
Proof.
  split; [|split; [|apply no_2e_of; out]].
  - eapply rds_next; [apply (rds_E single_dot double_dot (lit "/") (lit "a") (lit "/%2E/b/..") []); [now right|out|discriminate|out|intros (x & y & E & [A|[A|A]] & _); rewrite A in E; discriminate|right; now eexists]|].
    eapply rds_next; [apply (rds_B single_dot double_dot (lit "%2E") (lit "b/..") (lit "/a")); right; left; reflexivity|].
    eapply rds_next; [apply (rds_E single_dot double_dot (lit "/") (lit "b") (lit "/..") (lit "/a")); [now right|out|discriminate|out|intros (x & y & E & [A|[A|A]] & _); rewrite A in E; discriminate|right; now eexists]|].
    eapply rds_next; [apply (rds_C' single_dot double_dot (lit "..") (lit "/a/b") (lit "/a")); [exists (lit "."), (lit "."); split; [reflexivity|split; left; reflexivity]|apply (rl_slash (lit "/a") (lit "b")); out]|].
    eapply rds_next; [apply (rds_E single_dot double_dot (lit "/") [] [] (lit "/a")); [now right|out|discriminate|out|intros (x & y & E & [A|[A|A]] & _); rewrite A in E; discriminate|now left]|]. apply rds_refl.
  - eapply rds_next; [apply (rds_E single_dot double_dot (lit "/") (lit "a") (lit "/./b") []); [now right|out|discriminate|out|intros (x & y & E & [A|[A|A]] & _); rewrite A in E; discriminate|right; now eexists]|].
    eapply rds_next; [apply (rds_B single_dot double_dot (lit ".") (lit "b") (lit "/a")); left; reflexivity|].
    eapply rds_next; [apply (rds_E single_dot double_dot (lit "/") (lit "b") [] (lit "/a")); [now right|out|discriminate|out|intros (x & y & E & [A|[A|A]] & _); rewrite A in E; discriminate|now left]|]. apply rds_refl.
Qed.
Example C12_two_paths_instance := C12_two_paths UriSpec (lit "a/b/c") (lit "../d") ltac:(discriminate) ltac:(discriminate).
Example C12_no_dot_segments_instance := C12_no_dot_segments (lit "/a/./b") (lit "/a/b") (lit "/") (lit "a") (lit "/b") (proj1 (proj2 C12_hypotheses)) eq_refl
  ltac:(right; now exists []) ltac:(right; now exists (lit "b")) ltac:(out).
Example C13_instance := C13_unambiguous UriSpec (lit "foo:") (lit ".///bar") ltac:(apply iri_of; ev) ltac:(apply reference_of; ev).
Example C14_partial_instance := C14_and_normalize_partial UriSpec (lit "foo:/a") (lit "..//bar") (mkC (Some (lit "foo")) None (lit "/a") None None) (mkC None None (lit "..//bar") None None)
  ltac:(rd) eq_refl ltac:(rd) ltac:(right; right; discriminate).
Example C35_query_instance := C35_query_only UriSpec (lit "http://h/a/b?q#x") (mkC (Some (lit "http")) (Some (lit "h")) (lit "/a/b") (Some (lit "q")) (Some (lit "x"))) (lit "r?") (Some (lit "f"))
  ltac:(rd) eq_refl ltac:(apply query_of; ev) ltac:(apply fragment_of; ev).
Example C35_again_instance := C35_again_partial UriSpec (lit "http://h/a/b") (lit "mid:z") (lit "../c") (mkC None None (lit "../c") None None)
  ltac:(apply iri_of; ev) ltac:(apply iri_of; ev) ltac:(rd) ltac:(right; right; discriminate).
