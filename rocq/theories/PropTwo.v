(** * Property C58: a template expanded as a URI is the URI of the template expanded as an IRI.
    Specification: EncodeSpec.v ([to_uri], RFC 3987 section 3.1), SafeSpec.v ([scalar_val]).  Model: MExpand.v. *)
From Verif Require Import Base Chars Rfc3986 Utf8 EncodeSpec MFormat MTemplate MExpand SafeSpec PTwo.
Open Scope string_scope. Open Scope N_scope. Open Scope list_scope.

(** For every accepted template and every context of Unicode values.  The type errors and panics are the same too. *)
Theorem C58_expand : forall debug ctx t, (forall name, scalar_val (ctx name)) -> template_new t = Ok t ->
  match expand_to_string IriSpec debug ctx t with
  | Ok z => expand_to_string UriSpec debug ctx t = Ok (to_uri z)
  | x => expand_to_string UriSpec debug ctx t = x
  end.
Proof. exact two_expansions. Qed.
Print Assumptions C58_expand.
Example C58_ex :
  let ctx := fun n : str => if seqb n (lit "x") then VString (display ([233] ++ lit "%/" ++ [57344; 8364])) else VUndefined in
  template_new (lit "a{x:2}/{+x}{?x,y}") = Ok (lit "a{x:2}/{+x}{?x,y}") /\ (forall n, scalar_val (ctx n)) /\
  expand_to_string IriSpec false ctx (lit "{x}{?x:1}") = Ok ([233] ++ lit "%25%2F%EE%80%80" ++ [8364] ++ lit "?x=" ++ [233]) /\
  expand_to_string UriSpec false ctx (lit "{x}{?x:1}") = Ok (lit "%C3%A9%25%2F%EE%80%80%E2%82%AC?x=%C3%A9").
Proof. split; [vm_compute; reflexivity|]. split; [|split; vm_compute; reflexivity]. intros n. cbv beta. destruct (seqb n (lit "x")); [vm_compute; reflexivity|exact I]. Qed.
