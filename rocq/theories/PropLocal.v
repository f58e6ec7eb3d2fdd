(** * Property C53: an expansion depends only on the variables that the template names.
    Model: MTemplate.v, MExpand.v. *)
From Verif Require Import Base Chars MValidate MTrusted MFormat MTemplate MExpand PLocal.
Open Scope string_scope. Open Scope N_scope. Open Scope list_scope.

(** Two contexts that agree on the variables that [variables()] yields give the same expansion: the same
    text in the same chunks, the same errors and the same panics. *)
Theorem C53_local : forall S debug (ctx ctx' : Ctx) t names, template_new t = Ok t -> template_variables debug t = Ok names ->
  (forall name, In name names -> ctx name = ctx' name) ->
  expanded_fmt S debug ctx t = expanded_fmt S debug ctx' t /\ expand_to_string S debug ctx t = expand_to_string S debug ctx' t /\
  forall ty, try_from_expanded S debug ty ctx t = try_from_expanded S debug ty ctx' t.
Proof. exact local. Qed.
Print Assumptions C53_local.
(** So inserting another variable into a [SimpleContext] has no effect. *)
Theorem C53_insert : forall S debug m k v t names, template_new t = Ok t -> template_variables debug t = Ok names -> ~ In k names ->
  expand_to_string S debug (sc_visit (fst (sc_insert m k v))) t = expand_to_string S debug (sc_visit m) t.
Proof. exact insert_other. Qed.
Print Assumptions C53_insert.
Example C53_ex :
  let t := lit "a{x,y*}{+x:3}b" in let m := fst (sc_insert sc_new (lit "x") (SString (lit "123 45"))) in
  template_new t = Ok t /\ template_variables true t = Ok [lit "x"; lit "y"; lit "x"] /\
  expand_to_string UriSpec true (sc_visit m) t = Ok (lit "a123%2045123b") /\
  expand_to_string UriSpec true (sc_visit (fst (sc_insert m (lit "z") (SString (lit "z"))))) t = Ok (lit "a123%2045123b") /\
  expand_to_string UriSpec true (sc_visit (fst (sc_insert m (lit "y") (SList [lit "z"])))) t = Ok (lit "a123%2045,z123b").
Proof. vm_compute. auto 6. Qed.
