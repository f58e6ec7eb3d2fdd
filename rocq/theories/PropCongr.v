(** * C55: resolution respects equivalence.  Specification: EquivSpec.v, NormSpec.v, RfcResolve.v.
    Model: MNormalize.v. *)
From Verif Require Import Base Chars Rfc3986 Utf8 CompSpec PctSpec RfcResolve NormSpec EquivSpec MValidate MTrusted MFormat MPct MPath MNormalize PCongr PInst.
Open Scope string_scope. Open Scope N_scope. Open Scope list_scope.

(** Equivalent references, resolved against the same base and normalized, give the same IRI.  The dot segments of
    a reference that has neither a scheme nor an authority are significant, unless its path begins with "/":
    hence [equivalent S true] for a reference without a scheme.  With [keep], for the normalization
    that preserves opaque paths. *)
Theorem C55_reference : forall S (keep : bool) base ref ref' B R R', reads S base B -> defined (c_s B) = true -> reads S ref R -> reads S ref' R' ->
  equivalent S (keep || negb (defined (c_s R))) R R' -> exists n n' out,
    resolve base ref = Ok n /\ display S (set_mode n (if keep then MPreserve else MDefault)) = Ok out /\
    resolve base ref' = Ok n' /\ display S (set_mode n' (if keep then MPreserve else MDefault)) = Ok out.
Proof. exact same_ref. Qed.
Print Assumptions C55_reference.
(** And with equivalent bases, if the last segment of neither base path is ".." (C50_needed). *)
Theorem C55_both : forall S (keep : bool) base base' ref ref' B B' R R',
  reads S base B -> defined (c_s B) = true -> reads S base' B' -> defined (c_s B') = true -> reads S ref R -> reads S ref' R' ->
  equivalent S keep B B' -> equivalent S (keep || negb (defined (c_s R))) R R' ->
  (forall dir last, c_p B = dir ++ lit "/" ++ last -> ~ double_dot last) -> (forall dir last, c_p B' = dir ++ lit "/" ++ last -> ~ double_dot last) ->
  exists n n' out, resolve base ref = Ok n /\ display S (set_mode n (if keep then MPreserve else MDefault)) = Ok out /\
    resolve base' ref' = Ok n' /\ display S (set_mode n' (if keep then MPreserve else MDefault)) = Ok out.
Proof. exact congruence. Qed.
Print Assumptions C55_both.
Example C55_applies :
  let R := mkC None None (lit "%2e./%7eb") (Some (lit "%c3%A9")) None in let R' := mkC None None (lit "../~b") (Some [233]) None in
  reads IriSpec (unparse R) R /\ reads IriSpec (unparse R') R' /\ equivalent IriSpec true R R'.
Proof. exact congr_applies. Qed.
Example C55_ex :
  let go b r := do n <- resolve b r ; display IriSpec (set_mode n MDefault) in
  go (lit "HTTP://H/x/../a/b/c") (lit "%2e./%7eb?%c3%A9") = Ok (lit "http://h/a/~b?" ++ [233]) /\
  go (lit "http://h:/a/b/d") (lit "../~b?" ++ [233]) = Ok (lit "http://h/a/~b?" ++ [233]) /\
  go (lit "http://h/a/b") (lit "c/..") = Ok (lit "http://h/a/") /\ go (lit "http://h/a/b") (lit "") = Ok (lit "http://h/a/b").
Proof. vm_compute. auto. Qed.

(** The theorem applied to a concrete case. *)
Example C55_reference_instance := C55_reference IriSpec false (lit "http://h/x/y") (lit "%2e./%7eb?%c3%A9") (lit "../~b?" ++ [233])
  (mkC (Some (lit "http")) (Some (lit "h")) (lit "/x/y") None None) (mkC None None (lit "%2e./%7eb") (Some (lit "%c3%A9")) None) (mkC None None (lit "../~b") (Some [233]) None)
  ltac:(rd) eq_refl (proj1 C55_applies) (proj1 (proj2 C55_applies)) (proj2 (proj2 C55_applies)).
