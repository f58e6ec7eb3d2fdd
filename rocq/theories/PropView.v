(** * Property C76: what a program reads out of an IRI survives normalization, resolution and the mapping to a URI.
    Specification: ViewSpec.v.  Model: MNormalize.v, MEncode.v, MPath.v. *)
From Verif Require Import Base Chars Rfc3986 Utf8 CompSpec RfcResolve PctSpec NormSpec EncodeSpec EditSpec
  MValidate MTrusted MFormat MPct MPath MNormalize MEncode PScan PValidate PHost PAuth PErr PView PView2 PView3 PInst ViewSpec.

(** Every IRI with an authority has a view ... *)
Theorem C76_exists : forall S i C, reads S i C -> defined (c_s C) = true -> defined (c_a C) = true -> exists V, views S i V.
Proof. exact view_exists. Qed.
Print Assumptions C76_exists.
(** ... and only one. *)
Theorem C76_unique : forall S i V W, views S i V -> views S i W -> V = W.
Proof. exact view_unique. Qed.
Print Assumptions C76_unique.
(** Normalization changes nothing but the path, and the path becomes what is reached by walking along its
    decoded segments. *)
Theorem C76_normalize : forall S (keep : bool) i V, views S i V ->
  exists n out, (if keep then normalize_preserve i else normalize i) = Ok n /\
    display S n = Ok out /\ views S out (moved_to V (walked (v_path V))).
Proof. exact normalize_view. Qed.
Print Assumptions C76_normalize.
(** Mapping an IRI to a URI changes nothing. *)
Theorem C76_to_uri : forall i V, views IriSpec i V -> exists out, text (MappedToUri i) = Ok out /\ views UriSpec out V.
Proof. exact uri_view. Qed.
Print Assumptions C76_to_uri.
(** A reference with a path: walk from the directory of the base, or from the root. *)
Theorem C76_resolve : forall S base ref V R (rooted : bool) l,
  views S base V -> reads S ref R -> c_s R = None -> c_a R = None -> c_p R <> [] ->
  path_segments (if rooted then c_p R else lit "/" ++ c_p R) l -> (rooted = false -> forall r, c_p R <> lit "/" ++ r) ->
  exists n out, resolve base ref = Ok n /\ display S n = Ok out /\
    views S out (step_to V rooted (map decoded l) (option_map decoded (c_q R)) (option_map decoded (c_f R))).
Proof. exact resolve_view. Qed.
Print Assumptions C76_resolve.
(** A reference without one: the path stays as it is, and so does the query unless there is a new one. *)
Theorem C76_resolve_empty : forall S base ref V R,
  views S base V -> reads S ref R -> c_s R = None -> c_a R = None -> c_p R = [] ->
  exists n out, resolve base ref = Ok n /\ display S n = Ok out /\
    views S out (same_place V (option_map decoded (c_q R)) (option_map decoded (c_f R))).
Proof. exact resolve_empty_view. Qed.
Print Assumptions C76_resolve_empty.
(** "//authority/path": only the scheme of the base remains. *)
Theorem C76_resolve_authority : forall S base ref V R a u h o l,
  views S base V -> reads S ref R -> c_s R = None -> c_a R = Some a ->
  a = authority_string u h o -> opt_in (userinfo S) u -> host S h -> opt_in port o -> path_segments (c_p R) l ->
  exists n out, resolve base ref = Ok n /\ display S n = Ok out /\
    views S out (mkV (v_scheme V) (option_map decoded u) (map lower (decoded h)) (match o with Some x => x | None => [] end)
                     (walked (map decoded l)) (option_map decoded (c_q R)) (option_map decoded (c_f R))).
Proof. exact resolve_authority_view. Qed.
Print Assumptions C76_resolve_authority.
(** A full IRI: nothing of the base remains (which need not have an authority). *)
Theorem C76_resolve_full : forall S base ref B V, reads S base B -> defined (c_s B) = true -> views S ref V ->
  exists n out, resolve base ref = Ok n /\ display S n = Ok out /\ views S out (moved_to V (walked (v_path V))).
Proof. exact resolve_full_view. Qed.
Print Assumptions C76_resolve_full.

(** ** Instances *)
Definition ex_i := lit "HTTP://u%41@EX%2fam:/a/%2E%2e/b%2Fc/..%2E?q%3D#f".
Definition ex_V := mkV (lit "http") (Some (lit "uA")) (lit "ex/am") [] [lit "a"; lit ".."; lit "b/c"; lit "..."] (Some (lit "q=")) (Some (lit "f")).
Example C76_ex_views : views UriSpec ex_i ex_V.
Proof.
  apply (views_intro UriSpec ex_i (mkC (Some (lit "HTTP")) (Some (lit "u%41@EX%2fam:")) (lit "/a/%2E%2e/b%2Fc/..%2E") (Some (lit "q%3D")) (Some (lit "f")))
    (lit "HTTP") (Some (lit "u%41")) (lit "EX%2fam") (Some []) [lit "a"; lit "%2E%2e"; lit "b%2Fc"; lit "..%2E"]); [ds|reflexivity|].
  split; [reflexivity|]. repeat constructor; out.
Qed.
Example C76_ex_walked : walked (v_path ex_V) = [lit "b/c"; lit "..."].
Proof. reflexivity. Qed.
Example C76_ex_normalize := C76_normalize UriSpec false ex_i ex_V C76_ex_views.
Example C76_ex_ref := C76_resolve UriSpec ex_i (lit "../x/%2e?y") ex_V (mkC None None (lit "../x/%2e") (Some (lit "y")) None) false [lit ".."; lit "x"; lit "%2e"]
  C76_ex_views ltac:(rd) eq_refl eq_refl ltac:(discriminate) ltac:(split; [reflexivity|repeat constructor; out]) ltac:(intros _ r; discriminate).
Example C76_ex_ref_walk : v_path (step_to ex_V false (map decoded [lit ".."; lit "x"; lit "%2e"]) None None) = [lit "x"; []].
Proof. reflexivity. Qed.
Example C76_ex_rooted := C76_resolve UriSpec ex_i (lit "/y") ex_V (mkC None None (lit "/y") None None) true [lit "y"]
  C76_ex_views ltac:(rd) eq_refl eq_refl ltac:(discriminate) ltac:(split; [reflexivity|repeat constructor; out]) ltac:(discriminate).
Example C76_ex_empty := C76_resolve_empty UriSpec ex_i (lit "#g") ex_V (mkC None None [] None (Some (lit "g"))) C76_ex_views ltac:(rd) eq_refl eq_refl eq_refl.
Example C76_ex_exists := C76_exists UriSpec ex_i (mkC (Some (lit "HTTP")) (Some (lit "u%41@EX%2fam:")) (lit "/a/%2E%2e/b%2Fc/..%2E") (Some (lit "q%3D")) (Some (lit "f"))) ltac:(rd) eq_refl eq_refl.
Example C76_ex_authority := C76_resolve_authority UriSpec ex_i (lit "//h:8/a/..") ex_V (mkC None (Some (lit "h:8")) (lit "/a/..") None None) (lit "h:8") None (lit "h") (Some (lit "8")) [lit "a"; lit ".."]
  C76_ex_views ltac:(rd) eq_refl eq_refl eq_refl I ltac:(apply validate_host_iff; ev) ltac:(apply validate_port_iff; ev) ltac:(split; [reflexivity|repeat constructor; out]).
Example C76_ex_full := C76_resolve_full UriSpec (lit "mailto:a") ex_i (mkC (Some (lit "mailto")) None (lit "a") None None) ex_V ltac:(rd) eq_refl C76_ex_views.
Definition ex_iri := [104; 58; 47; 47; 233; 47; 8364; 37; 50; 69].
Example C76_ex_iri : views IriSpec ex_iri (mkV (lit "h") None (utf8 233) [] [utf8 8364 ++ lit "."] None None).
Proof.
  apply (views_intro IriSpec ex_iri (mkC (Some (lit "h")) (Some [233]) [47; 8364; 37; 50; 69] None None) (lit "h") None [233] None [[8364; 37; 50; 69]]); [ds|reflexivity|].
  split; [reflexivity|]. repeat constructor; out.
Qed.
Example C76_ex_to_uri := C76_to_uri ex_iri _ C76_ex_iri.
