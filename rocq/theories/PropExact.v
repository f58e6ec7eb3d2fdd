(** * Exact behaviour in the cases in which the code violates one of the properties C08, C14, C17, C22,
    C23, C25, C34, C35: together with the [_partial] theorems these describe every input.
    Specification: CompSpec.v, EditSpec.v, BuildSpec.v, NormSpec.v, RfcResolve.v, Rfc3986.v.
    Model: MTrusted.v, MEdit.v, MBuild.v, MNormalize.v. *)
From Verif Require Import Base Chars Rfc3986 CompSpec RfcResolve PctSpec NormSpec EditSpec
  MValidate MTrusted MFormat MPct MPath MWriters MEdit MNormalize MBuild BuildSpec PExact PExact2 PInst.

(** ** C08 (F1): the strings [i#] that [RiAbsoluteStr] accepts although they have a fragment.  Scheme,
    authority and path are those of [i]; "#" is taken for part of the query, or for the delimiter of an
    empty one (an assertion fails in debug builds). *)
Theorem C08_absolute_exact : forall debug S i, absolute_IRI S i -> exists s a p q,
  to_major i = Ok (Some s, a, p, q, None) /\ components_ok S (Some s) a p q None /\
  new S TAbsolute (i ++ lit "#") = Ok (i ++ lit "#") /\
  scheme_str TAbsolute (i ++ lit "#") = Ok (Some s) /\ authority_str TAbsolute (i ++ lit "#") = Ok a /\
  path_str TAbsolute (i ++ lit "#") = Ok p /\
  query_str debug TAbsolute (i ++ lit "#") =
    match q with Some q => Ok (Some (q ++ lit "#")) | None => if debug then Panic else Ok (Some []) end /\
  query_ri debug S TAbsolute (i ++ lit "#") =
    if debug then Panic else match q with Some q => Ok (Some (q ++ lit "#")) | None => Ok (Some []) end.
Proof. exact absolute_odd. Qed.
Print Assumptions C08_absolute_exact.
Example C08_exact_ex : query_str true TAbsolute (lit "s://h/p?q#") = Ok (Some (lit "q#")) /\ query_str false TAbsolute (lit "s:#") = Ok (Some []).
Proof. vm_compute. auto. Qed.

(** ** C17 (F2): an IRI with an empty port is judged like the IRI without it: it is reported as
    normalized iff the IRI without the ":" is its own normal form (which is also that of [i]). *)
Theorem C17_empty_port_exact : forall S i C u h mode, dissects S i C u h (Some []) -> defined (c_s C) = true ->
  let j := recompose (c_s C) (Some (authority_string u h None)) (c_p C) (c_q C) (c_f C) in
  exists n n' out b,
    match mode with CkPreserve => normalize_preserve i | _ => normalize i end = Ok n /\
    match mode with CkPreserve => normalize_preserve j | _ => normalize j end = Ok n' /\
    display S n = Ok out /\ display S n' = Ok out /\ is_normalized S i mode = Ok b /\
    (b = true <-> out = j /\ (mode = CkRfc3986 -> ensure_rfc3986_normalizable n' = Ok true)).
Proof. exact c17_empty_port. Qed.
Print Assumptions C17_empty_port_exact.
Example C17_exact_ex : is_normalized UriSpec (lit "x://h:/") CkDefault = Ok true /\ is_normalized UriSpec (lit "x://H:/") CkDefault = Ok false.
Proof. vm_compute. auto. Qed.

(** ** C14 (F3): with [and_normalize] the check answers for the target [T0] of the resolution, not for
    its normal form [T] that is displayed; for a reference without scheme, authority and path it
    therefore always succeeds. *)
Theorem C14_and_normalize_exact : forall S base ref B R, reads S base B -> defined (c_s B) = true -> reads S ref R ->
  exists n T0 T b, resolve base ref = Ok n /\ transform B R T0 /\ comps_normal S false T0 T /\
    display S (set_mode n MDefault) = Ok (unparse T) /\ ensure_rfc3986_normalizable (set_mode n MDefault) = Ok b /\
    (b = true <-> ~ fell_back T0) /\
    (defined (c_s R) = false -> defined (c_a R) = false -> c_p R = [] -> b = true).
Proof. exact c14_exact. Qed.
Print Assumptions C14_and_normalize_exact.

(** ** C35: a reference without scheme, authority and path.  Resolving the result again removes the dot
    segments of the path of the base. *)
Theorem C35_again_exact : forall S base base' ref B R, reads S base B -> defined (c_s B) = true -> IRI S base' -> reads S ref R ->
  defined (c_s R) = false -> defined (c_a R) = false -> c_p R = [] ->
  let q := if defined (c_q R) then c_q R else c_q B in
  exists n n' p, resolve base ref = Ok n /\ display S n = Ok (recompose (c_s B) (c_a B) (c_p B) q (c_f R)) /\
    resolve base' (recompose (c_s B) (c_a B) (c_p B) q (c_f R)) = Ok n' /\
    rds (c_p B) p /\ display S n' = Ok (unparse (mkC (c_s B) (c_a B) p q (c_f R))).
Proof. exact c35_exact. Qed.
Print Assumptions C35_again_exact.

(** ** C22: without memory, masking a reference with a userinfo (with or without ":") reports the failure. *)
Theorem C22_mask_alloc_failure : forall debug S t i C u h o, dissects S i C (Some u) h o ->
  mask_to_dedicated_string debug false S t i = Err AllocFailed.
Proof. exact mask_alloc. Qed.
Print Assumptions C22_mask_alloc_failure.
(** ** C22 (F5): userinfo without ":".  The replacement is inserted after the user name, without ":". *)
Theorem C22_replace_nothing_exact : forall A S i C user h o (f : str -> W A) a,
  dissects S i C (Some user) h o -> ~ In 58 user -> snd (f []) = Ret a ->
  text (replaced_display i f) =
    Ok (recompose (c_s C) (Some (authority_string (Some (user ++ concat (fst (f [])))) h o)) (c_p C) (c_q C) (c_f C)).
Proof. exact replaced_nocolon. Qed.
Print Assumptions C22_replace_nothing_exact.
Example C22_exact_ex : text (replaced_display (lit "//user@h/p") (fun pw => write (lit "<" ++ pw ++ lit ">"))) = Ok (lit "//user<>@h/p").
Proof. vm_compute. reflexivity. Qed.

(** ** C23 (F5): userinfo without ":".  The last character of the user name is removed if it is ASCII;
    the result is checked in debug builds only, and is wrong exactly if a percent-encoded triplet was cut.
    If it is not ASCII the operation panics, in all builds. *)
Theorem C23_remove_exact : forall debug S t i C user c h o, editable t = true -> new S t i = Ok i ->
  dissects S i C (Some (user ++ [c])) h o -> ~ In 58 (user ++ [c]) ->
  let j := recompose (c_s C) (Some (authority_string (Some user) h o)) (c_p C) (c_q C) (c_f C) in
  ((c < 128)%N ->
    (userinfo S user -> remove_password_inline debug S t i = Ok j /\ new S t j = Ok j /\
       dissects S j (with_authority C (Some user) h o) (Some user) h o) /\
    (~ userinfo S user -> remove_password_inline debug S t i = (if debug then Panic else Ok j) /\ new S t j <> Ok j)) /\
  ((128 <= c)%N -> remove_password_inline debug S t i = Panic).
Proof. exact remove_exact. Qed.
Print Assumptions C23_remove_exact.
(** An empty userinfo: the second "/" before the authority is removed, and the authority becomes part of
    the path (unless the host is in brackets, which no path may contain). *)
Theorem C23_remove_empty_exact : forall debug S t i C h o, editable t = true -> new S t i = Ok i ->
  dissects S i C (Some []) h o ->
  let p := lit "/" ++ authority_string (Some []) h o ++ c_p C in
  let j := recompose (c_s C) None p (c_q C) (c_f C) in
  (~ IP_literal h -> remove_password_inline debug S t i = Ok j /\ new S t j = Ok j /\
     reads S j (mkC (c_s C) None p (c_q C) (c_f C))) /\
  (IP_literal h -> remove_password_inline debug S t i = (if debug then Panic else Ok j) /\ new S t j <> Ok j).
Proof. exact remove_empty. Qed.
Print Assumptions C23_remove_empty_exact.
Example C23_exact_ex : remove_password_inline true UriSpec TIri (lit "x://u%41@h/p") = Panic /\
  remove_password_inline false UriSpec TIri (lit "x://u%41@h/p") = Ok (lit "x://u%4@h/p") /\
  remove_password_inline true UriSpec TIri (lit "x://u%41x@h/p") = Ok (lit "x://u%41@h/p") /\
  remove_password_inline true UriSpec TIri (lit "x://@h:8/p") = Ok (lit "x:/@h:8/p").
Proof. vm_compute. auto. Qed.

(** ** C34 (F6): in debug builds [replace_host] of [RiString] panics on every IRI with a non-empty
    fragment, whatever the new host. *)
Theorem C34_panics_exact : forall alloc S i C h' only, new S TIri i = Ok i -> reads S i C ->
  c_f C <> None -> c_f C <> Some [] ->
  replace_host true alloc S TIri i h' only = Panic /\ try_replace_host_impl true alloc S TIri i h' only = Panic.
Proof. exact replace_host_panics. Qed.
Print Assumptions C34_panics_exact.

(** ** C25 (F8): the builder for paths of any characters at all.  It accepts exactly the requests with
    well-formed parts other than the path and a path of the right form; the text consists of the requested
    parts, put together as in section 5.3; if the text is not valid this is noticed in debug builds only. *)
Theorem C25_exact : forall debug S t b, editable t = true -> values_ok b -> b_normalize b = false ->
  let C := requested b in let i := recompose (c_s C) (c_a C) (c_p C) (c_q C) (c_f C) in
  ((exists x, build S t b = Ok x) <-> parts_ok S b /\ path_shape b /\ fits t C) /\
  (forall x, build S t b = Ok x -> text (built_display S x) = Ok i /\
     (new S t i = Ok i -> built_to_dedicated_string S debug t x = Ok i) /\
     (new S t i <> Ok i -> built_to_dedicated_string S debug t x = if debug then Panic else Ok i)).
Proof. exact build_exact. Qed.
Print Assumptions C25_exact.
(** With normalization, for every path whose percent-encoding is well formed. *)
Theorem C25_normalize_exact : forall S t b, editable t = true -> values_ok b -> b_normalize b = true -> pct_wf (b_path b) ->
  ((exists x, build S t b = Ok x) <-> parts_ok S b /\ norm_shape b /\ fits t (requested b)) /\
  (forall x, build S t b = Ok x -> exists T, comps_normal S (negb (defined (b_scheme b))) (requested b) T /\
    (~ collapses S b -> text (built_display S x) = Ok (unparse T)) /\
    (collapses S b -> exists w, pct_normal S (b_path b) w /\ text (built_display S x) = Ok (recompose None None w (c_q T) (c_f T)))).
Proof. exact build_norm_exact. Qed.
Print Assumptions C25_normalize_exact.
Example C25_exact_ex : let b := b_steps [OpScheme (lit "x"); OpPath (lit "<?#%>")] in
  parts_ok UriSpec b /\ path_shape b /\ fits TAbsolute (requested b) /\
  match build UriSpec TAbsolute b with Ok x => text (built_display UriSpec x) | _ => Panic end = Ok (lit "x:<?#%>").
Proof.
  split; [apply (PBuild2.validate_builder_iff _ _ false); [exact I|vm_compute; reflexivity]|].
  split; [|split; [split; reflexivity|vm_compute; reflexivity]]. split; [intros (r & H); discriminate|discriminate].
Qed.

(** Cases that meet the hypotheses. *)
Example C08_absolute_exact_instance := C08_absolute_exact true UriSpec (lit "s://h/p?q") ltac:(apply absolute_of; [ev|out]).
Example C17_empty_port_exact_instance := C17_empty_port_exact UriSpec (lit "x://u@H:/a/../b")
  (mkC (Some (lit "x")) (Some (lit "u@H:")) (lit "/a/../b") None None) (Some (lit "u")) (lit "H") CkDefault ltac:(ds) ltac:(ev).
Example C14_and_normalize_exact_instance := C14_and_normalize_exact UriSpec (lit "x:/a/b") (lit "../..//c")
  (mkC (Some (lit "x")) None (lit "/a/b") None None) (mkC None None (lit "../..//c") None None) ltac:(rd) ltac:(ev) ltac:(rd).
Example C35_again_exact_instance := C35_again_exact UriSpec (lit "x:/a/../b?q") (lit "y:") (lit "#f")
  (mkC (Some (lit "x")) None (lit "/a/../b") (Some (lit "q")) None) (mkC None None [] None (Some (lit "f")))
  ltac:(rd) ltac:(ev) ltac:(apply iri_of; ev) ltac:(rd) ltac:(ev) ltac:(ev) ltac:(ev).
Example C22_mask_alloc_failure_instance := C22_mask_alloc_failure true UriSpec TIri (lit "x://u@h/p")
  (mkC (Some (lit "x")) (Some (lit "u@h")) (lit "/p") None None) (lit "u") (lit "h") None ltac:(ds).
Example C22_replace_nothing_exact_instance := C22_replace_nothing_exact unit UriSpec (lit "x://u@h/p")
  (mkC (Some (lit "x")) (Some (lit "u@h")) (lit "/p") None None) (lit "u") (lit "h") None (fun pw => write pw) tt ltac:(ds) ltac:(out) ltac:(ev).
Example C23_remove_exact_instance := C23_remove_exact true UriSpec TIri (lit "x://u%41@h/p")
  (mkC (Some (lit "x")) (Some (lit "u%41@h")) (lit "/p") None None) (lit "u%4") 49 (lit "h") None ltac:(ev) ltac:(ev) ltac:(ds) ltac:(out).
Example C23_remove_empty_exact_instance := C23_remove_empty_exact true UriSpec TIri (lit "x://@h:8/p")
  (mkC (Some (lit "x")) (Some (lit "@h:8")) (lit "/p") None None) (lit "h") (Some (lit "8")) ltac:(ev) ltac:(ev) ltac:(ds).
Example C34_panics_exact_instance := C34_panics_exact true UriSpec (lit "x://h/p#f")
  (mkC (Some (lit "x")) (Some (lit "h")) (lit "/p") None (Some (lit "f"))) (lit "g") false ltac:(ev) ltac:(rd) ltac:(discriminate) ltac:(discriminate).
Example C25_exact_instance := C25_exact true UriSpec TAbsolute (b_steps [OpScheme (lit "x"); OpPath (lit "<?#%>")]) ltac:(ev) ltac:(exact I) ltac:(ev).
Example C25_normalize_exact_instance := C25_normalize_exact UriSpec TAbsolute (b_steps [OpScheme (lit "x"); OpPath (lit "/a/..//<"); OpNormalize])
  ltac:(ev) ltac:(exact I) ltac:(ev) ltac:(apply wf_of; out).
