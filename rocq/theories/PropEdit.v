(** * Properties C22, C23, C24, C34, C36 (and C06 for owned strings): editing.
    Specification: EditSpec.v, CompSpec.v, Rfc3986.v.  Model: MEdit.v, MTrusted.v. *)
From Verif Require Import Base Chars Rfc3986 CompSpec RfcResolve NormSpec EditSpec
  MValidate MTrusted MFormat MWriters MEdit PEdit PInst.

(** ** C22: [mask_password].  [editable t]: [t] is one of the four types that have these methods. *)
(** Every valid reference either has a password or has none. *)
Theorem C22_cases : forall S i C, reads S i C -> no_password S i C \/
  exists user pw h o, dissects S i C (Some (user_password user pw)) h o /\ ~ In 58 user.
Proof. exact password_cases. Qed.
Print Assumptions C22_cases.
(** With a password: [Display], [Debug] and [to_dedicated_string] show the reference with the empty
    password, valid for the same type, all other parts unchanged. *)
Theorem C22_mask : forall debug S t i C user pw h o, editable t = true -> new S t i = Ok i ->
  dissects S i C (Some (user_password user pw)) h o -> ~ In 58 user -> exists j,
  text (mask_display i) = Ok j /\ text (angle_debug (mask_display i)) = Ok (lit "<" ++ j ++ lit ">") /\
  mask_to_dedicated_string debug true S t i = Ok j /\
  new S t j = Ok j /\ dissects S j (with_authority C (Some (user_password user [])) h o) (Some (user_password user [])) h o.
Proof. exact mask_ok. Qed.
Print Assumptions C22_mask.
(** Without a password nothing changes (an allocation failure may be reported). *)
Theorem C22_mask_nothing : forall debug alloc S t i C, new S t i = Ok i -> no_password S i C ->
  text (mask_display i) = Ok i /\ (mask_to_dedicated_string debug alloc S t i = Ok i \/
    alloc = false /\ mask_to_dedicated_string debug alloc S t i = Err AllocFailed).
Proof. exact mask_none. Qed.
Print Assumptions C22_mask_nothing.
(** Two references that differ only in the password are masked to the same text. *)
Theorem C22_reveals_nothing : forall S i i' C C' user pw pw' h o, ~ In 58 user ->
  dissects S i C (Some (user_password user pw)) h o -> dissects S i' C' (Some (user_password user pw')) h o ->
  c_s C = c_s C' -> c_p C = c_p C' -> c_q C = c_q C' -> c_f C = c_f C' ->
  text (mask_display i) = text (mask_display i').
Proof. exact mask_same. Qed.
Print Assumptions C22_reveals_nothing.
(** [replace_password_with(f)]: [f] receives the password and its output takes the place of the
    password (the output may be any text, so the result need not be a valid reference). *)
Theorem C22_replace : forall A S i C user pw h o (f : str -> W A) a,
  dissects S i C (Some (user_password user pw)) h o -> ~ In 58 user -> snd (f pw) = Ret a ->
  let C' := with_authority C (Some (user_password user (concat (fst (f pw))))) h o in
  text (replaced_display i f) = Ok (recompose (c_s C') (c_a C') (c_p C') (c_q C') (c_f C')).
Proof. exact replaced_ok. Qed.
Print Assumptions C22_replace.
(** No authority or no userinfo: unchanged ... *)
Theorem C22_replace_nothing_partial : forall A S i C (f : str -> W A), reads S i C ->
  (c_a C = None \/ exists h o, dissects S i C None h o) -> text (replaced_display i f) = Ok i.
Proof. exact replaced_none. Qed.
Print Assumptions C22_replace_nothing_partial.
(** ... but with userinfo that has no ":" the replacement text is appended to the user name (F5). *)
Theorem C22_replace_nothing_refuted : exists i C (f : str -> W unit),
  new UriSpec TIri i = Ok i /\ no_password UriSpec i C /\ text (replaced_display i f) <> Ok i.
Proof. exact replace_no_password_refuted. Qed.
Print Assumptions C22_replace_nothing_refuted.
Example C22_applies : dissects UriSpec (lit "http://u:p@h:8/x?q")
  (mkC (Some (lit "http")) (Some (lit "u:p@h:8")) (lit "/x") (Some (lit "q")) None)
  (Some (user_password (lit "u") (lit "p"))) (lit "h") (Some (lit "8")).
Proof. exact dissects_example. Qed.
Example C22_ex : text (mask_display (lit "http://u:p:w@h:80/p?q#f")) = Ok (lit "http://u:@h:80/p?q#f") /\
  text (replaced_display (lit "//u:pw@[::1]//x") (fun pw => write (lit "<" ++ pw ++ lit ">"))) = Ok (lit "//u:<pw>@[::1]//x") /\
  text (mask_display (lit "http://user@h/a//b:c@d")) = Ok (lit "http://user@h/a//b:c@d").
Proof. vm_compute. auto. Qed.

(** ** C23: in-place removal. *)
Theorem C23_remove_partial : forall debug S t i C user pw h o, editable t = true -> new S t i = Ok i ->
  dissects S i C (Some (user_password user pw)) h o -> ~ In 58 user -> exists j,
  remove_password_inline debug S t i = Ok j /\ new S t j = Ok j /\
  dissects S j (with_authority C (Some user) h o) (Some user) h o.
Proof. exact remove_pw_ok. Qed.
Print Assumptions C23_remove_partial.
Theorem C23_remove_nothing_partial : forall debug S t i C, reads S i C ->
  (c_a C = None \/ exists h o, dissects S i C None h o) ->
  remove_password_inline debug S t i = Ok i /\ remove_nonempty_password_inline debug S t i = Ok i.
Proof. exact remove_pw_none. Qed.
Print Assumptions C23_remove_nothing_partial.
(** With userinfo that has no ":" (no password) [remove_password_inline] damages the string (F5): it
    deletes the last byte of the user name; deletes a "/" so that the authority becomes a path;
    leaves an invalid string in a validated type (panics in debug builds); panics inside a character. *)
Theorem C23_remove_refuted :
  (forall debug, exists i j, new UriSpec TIri i = Ok i /\ remove_password_inline debug UriSpec TIri i = Ok j /\
     i = lit "http://user@host/" /\ j = lit "http://use@host/") /\
  (forall debug, exists i j, new UriSpec TIri i = Ok i /\ remove_password_inline debug UriSpec TIri i = Ok j /\
     authority_str TIri i = Ok (Some (lit "@host")) /\ authority_str TIri j = Ok None) /\
  (exists i j, new UriSpec TIri i = Ok i /\ remove_password_inline false UriSpec TIri i = Ok j /\ ~ IRI UriSpec j /\
     remove_password_inline true UriSpec TIri i = Panic) /\
  (forall debug, exists i, new IriSpec TIri i = Ok i /\ remove_password_inline debug IriSpec TIri i = Panic).
Proof. exact remove_password_refuted. Qed.
Print Assumptions C23_remove_refuted.
Theorem C23_remove_nonempty : forall debug S t i C user pw h o, editable t = true -> new S t i = Ok i ->
  dissects S i C (Some (user_password user pw)) h o -> ~ In 58 user -> exists j,
  remove_nonempty_password_inline debug S t i = Ok j /\ new S t j = Ok j /\
  dissects S j (with_authority C (Some (user_password user [])) h o) (Some (user_password user [])) h o.
Proof. exact remove_nonempty_ok. Qed.
Print Assumptions C23_remove_nonempty.
Theorem C23_remove_nonempty_nothing : forall debug S t i C, no_password S i C ->
  remove_nonempty_password_inline debug S t i = Ok i.
Proof. exact remove_nonempty_nocolon. Qed.
Print Assumptions C23_remove_nonempty_nothing.
Example C23_ex : remove_password_inline true UriSpec TRelative (lit "//u:p@h/p") = Ok (lit "//u@h/p") /\
  remove_nonempty_password_inline true UriSpec TAbsolute (lit "x://u:p@h/p") = Ok (lit "x://u:@h/p") /\
  remove_password_inline true UriSpec TReference (lit "x://u:@h/p") = Ok (lit "x://u@h/p").
Proof. vm_compute. auto. Qed.

(** ** C24: fragments.  [fragmentable]: the three types that have [set_fragment]. *)
Theorem C24_set_fragment : forall debug S t i C f, fragmentable t = true -> new S t i = Ok i -> reads S i C ->
  match f with Some x => new S TFragment x = Ok x | None => True end -> exists j,
  set_fragment debug S t i f = Ok j /\ new S t j = Ok j /\ reads S j (with_fragment C f).
Proof. exact set_fragment_ok. Qed.
Print Assumptions C24_set_fragment.
(** The four ways to split off the fragment agree, are lossless and give an absolute IRI of the RFC. *)
Theorem C24_absolute : forall debug S i C, new S TIri i = Ok i -> reads S i C -> exists a,
  absolute_IRI S a /\ new S TAbsolute a = Ok a /\ reads S a (with_fragment C None) /\
  i = a ++ match c_f C with Some f => lit "#" ++ f | None => [] end /\
  to_absolute_and_fragment debug S i = Ok (a, c_f C) /\ into_absolute_and_fragment debug S i = Ok (a, c_f C) /\
  to_absolute debug S i = Ok a /\ into_absolute debug S i = Ok a.
Proof. exact absolute_ops. Qed.
Print Assumptions C24_absolute.
(** [RiFragmentStr::from_prefixed] and [RiQueryStr::from_prefixed]. *)
Theorem C24_from_prefixed : forall S s,
  (forall f, s = lit "#" ++ f -> fragment S f -> fragment_from_prefixed S s = Ok f) /\
  ((forall f, s = lit "#" ++ f -> ~ fragment S f) -> exists e, fragment_from_prefixed S s = Err e) /\
  (forall q, s = lit "?" ++ q -> query S q -> query_from_prefixed S s = Ok q) /\
  ((forall q, s = lit "?" ++ q -> ~ query S q) -> exists e, query_from_prefixed S s = Err e).
Proof. exact from_prefixed_ok. Qed.
Print Assumptions C24_from_prefixed.
Example C24_ex : set_fragment true IriSpec TRelative (lit "/p?q#old") (Some (lit "n?/")) = Ok (lit "/p?q#n?/") /\
  set_fragment true IriSpec TIri (lit "x:y#") None = Ok (lit "x:y") /\
  into_absolute_and_fragment true UriSpec (lit "x:y?q#f") = Ok (lit "x:y?q", Some (lit "f")).
Proof. vm_compute. auto. Qed.
(** C06 for owned strings. *)
Theorem C06_into_iri : forall debug S s, IRI_reference S s ->
  (IRI S s -> into_iri debug S s = Ok (inl s) /\ into_relative_iri debug S s = Ok (inr s)) /\
  (relative_ref S s -> into_iri debug S s = Ok (inr s) /\ into_relative_iri debug S s = Ok (inl s)).
Proof. exact into_iri_ok. Qed.
Print Assumptions C06_into_iri.

(** ** C34: host replacement.  [only]: [replace_host_reg_name]; [alloc]: memory is available, asked for
    only if the new host is not shorter (without it the string is unchanged).  The hypothesis before the last excludes the wrong debug assertion of [RiString] (F6). *)
Theorem C34_replace_partial : forall debug alloc S t i C u h o h' only, editable t = true -> new S t i = Ok i ->
  dissects S i C u h o -> host S h' -> (only = true -> ~ IP_literal h /\ ~ IPv4address h) ->
  (debug = false \/ t <> TIri \/ c_f C = None \/ c_f C = Some []) ->
  exists j, new S t j = Ok j /\ dissects S j (with_authority C u h' o) u h' o /\
  (alloc = true \/ (blen h' < blen h)%nat -> replace_host debug alloc S t i h' only = Ok (Some h', j) /\
     try_replace_host_impl debug alloc S t i h' only = Ok (Ok (Some h'), j)) /\
  (alloc = false -> (blen h <= blen h')%nat -> replace_host debug alloc S t i h' only = Panic /\
     try_replace_host_impl debug alloc S t i h' only = Ok (Err AllocFailed, i)).
Proof. exact replace_host_ok. Qed.
Print Assumptions C34_replace_partial.
Theorem C34_unchanged_partial : forall debug alloc S t i C h' only, editable t = true -> new S t i = Ok i -> reads S i C ->
  (c_a C = None \/ ~ host S h' \/ only = true /\ exists u h o, dissects S i C u h o /\ (IP_literal h \/ IPv4address h)) ->
  (debug = false \/ t <> TIri \/ c_f C = None \/ c_f C = Some []) ->
  try_replace_host_impl debug alloc S t i h' only = Ok (Ok None, i) /\ replace_host debug alloc S t i h' only = Ok (None, i).
Proof. exact replace_host_none. Qed.
Print Assumptions C34_unchanged_partial.
(** In debug builds [RiString::replace_host] panics on an IRI with a (non-empty) fragment, even if
    there is nothing to replace (F6). *)
Theorem C34_refuted :
  (exists i h, new UriSpec TIri i = Ok i /\ host UriSpec h /\ replace_host true true UriSpec TIri i h false = Panic) /\
  (exists i h, new UriSpec TIri i = Ok i /\ authority_str TIri i = Ok None /\ replace_host true true UriSpec TIri i h false = Panic).
Proof. exact replace_host_refuted. Qed.
Print Assumptions C34_refuted.
Example C34_ex : replace_host true true UriSpec TReference (lit "//u@127.0.0.1:8/p#f") (lit "[::1]") false = Ok (Some (lit "[::1]"), lit "//u@[::1]:8/p#f") /\
  replace_host true true UriSpec TReference (lit "//u@127.0.0.1:8/p#f") (lit "[::1]") true = Ok (None, lit "//u@127.0.0.1:8/p#f") /\
  replace_host true true UriSpec TReference (lit "//u@x:8/p#f") (lit "a/b") false = Ok (None, lit "//u@x:8/p#f").
Proof. vm_compute. auto. Qed.

(** ** C36: one component can be replaced by any other string of its rule. *)
Theorem C36_replace : forall debug S t i C C', editable t = true -> new S t i = Ok i -> reads S i C ->
  replace_one S C C' -> (t = TAbsolute -> c_f C' = c_f C) ->
  let j := recompose (c_s C') (c_a C') (c_p C') (c_q C') (c_f C') in
  new S t j = Ok j /\ reads S j C' /\ to_major j = Ok (c_s C', c_a C', c_p C', c_q C', c_f C') /\
  (t <> TAbsolute \/ c_f C' = None ->
   scheme_str t j = Ok (c_s C') /\ authority_str t j = Ok (c_a C') /\ path_str t j = Ok (c_p C') /\
   query_str debug t j = Ok (c_q C') /\ fragment_str t j = Ok (c_f C')).
Proof. exact replace_valid. Qed.
Print Assumptions C36_replace.
Example C36_ex : replace_one UriSpec (mkC None None (lit "a/b") None None) (mkC None None (lit "a/b") (Some (lit "q")) None).
Proof. apply (ro_query UriSpec (mkC None None (lit "a/b") None None) (Some (lit "q"))). apply PValidate.validate_query_iff. reflexivity. Qed.

(** The theorems applied to concrete cases. *)
Definition C22_C (pw : str) : comps := mkC (Some (lit "http")) (Some (authority_string (Some (user_password (lit "u") pw)) (lit "h") (Some (lit "8")))) (lit "/x") (Some (lit "q")) None.
Example C22_mask_instance := C22_mask true UriSpec TIri (lit "http://u:p:w@h:8/x?q") (C22_C (lit "p:w")) (lit "u") (lit "p:w") (lit "h") (Some (lit "8")) eq_refl ltac:(ev) ltac:(ds) ltac:(out).
Example C22_nothing_instance := C22_mask_nothing true true UriSpec TIri (lit "http://u@h/x") (mkC (Some (lit "http")) (Some (lit "u@h")) (lit "/x") None None) ltac:(ev)
  ltac:(right; right; exists (lit "u"), (lit "h"), None; split; [ds|out]).
Example C22_reveals_instance := C22_reveals_nothing UriSpec (lit "http://u:p:w@h:8/x?q") (lit "http://u:@h:8/x?q") (C22_C (lit "p:w")) (C22_C []) (lit "u") (lit "p:w") [] (lit "h") (Some (lit "8"))
  ltac:(out) ltac:(ds) ltac:(ds) eq_refl eq_refl eq_refl eq_refl.
Example C22_replace_instance := C22_replace unit UriSpec (lit "http://u:p:w@h:8/x?q") (C22_C (lit "p:w")) (lit "u") (lit "p:w") (lit "h") (Some (lit "8")) (fun pw => write (lit "<" ++ pw ++ lit ">")) tt ltac:(ds) ltac:(out) eq_refl.
Example C22_replace_nothing_instance := C22_replace_nothing_partial unit UriSpec (lit "//h:8/x") (mkC None (Some (lit "h:8")) (lit "/x") None None) (fun pw => write pw) ltac:(rd)
  ltac:(right; exists (lit "h"), (Some (lit "8")); ds).
Example C23_remove_instance := C23_remove_partial true UriSpec TIri (lit "http://u:p:w@h:8/x?q") (C22_C (lit "p:w")) (lit "u") (lit "p:w") (lit "h") (Some (lit "8")) eq_refl ltac:(ev) ltac:(ds) ltac:(out).
Example C23_remove_nonempty_instance := C23_remove_nonempty true UriSpec TIri (lit "http://u:p:w@h:8/x?q") (C22_C (lit "p:w")) (lit "u") (lit "p:w") (lit "h") (Some (lit "8")) eq_refl ltac:(ev) ltac:(ds) ltac:(out).
Example C23_nothing_instance := C23_remove_nothing_partial true UriSpec TReference (lit "//h:8/x") (mkC None (Some (lit "h:8")) (lit "/x") None None) ltac:(rd)
  ltac:(right; exists (lit "h"), (Some (lit "8")); ds).
Example C24_set_instance := C24_set_fragment true IriSpec TRelative (lit "/p?q#old") (mkC None None (lit "/p") (Some (lit "q")) (Some (lit "old"))) (Some (lit "n?/")) eq_refl ltac:(ev) ltac:(rd) ltac:(ev).
Example C24_absolute_instance := C24_absolute true UriSpec (lit "x:y?q#f") (mkC (Some (lit "x")) None (lit "y") (Some (lit "q")) (Some (lit "f"))) ltac:(ev) ltac:(rd).
Example C34_replace_instance := C34_replace_partial true true UriSpec TReference (lit "//u@x.y:8/p#f") (mkC None (Some (lit "u@x.y:8")) (lit "/p") None (Some (lit "f"))) (Some (lit "u")) (lit "x.y") (Some (lit "8")) (lit "[::1]") false
  eq_refl ltac:(ev) ltac:(ds) ltac:(apply host_of; ev) ltac:(discriminate) ltac:(right; left; discriminate).
Example C34_unchanged_instance := C34_unchanged_partial true true UriSpec TReference (lit "/p#f") (mkC None None (lit "/p") None (Some (lit "f"))) (lit "[::1]") true
  eq_refl ltac:(ev) ltac:(rd) (or_introl eq_refl) ltac:(right; left; discriminate).
Example C36_instance := C36_replace true UriSpec TReference (lit "a/b") (mkC None None (lit "a/b") None None) (mkC None None (lit "a/b") (Some (lit "q")) None) eq_refl ltac:(ev) ltac:(rd) C36_ex ltac:(discriminate).
