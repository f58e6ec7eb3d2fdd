(** * Property C52: the values can be read back from the expansion of an expression.
    Specification: ReadSpec.v, TemplateSpec.v.  Model: MTemplate.v, MExpand.v. *)
From Verif Require Import Base Chars Rfc3986 Utf8 EncodeSpec MFormat MTemplate MExpand TemplateSpec ExpandSpec ReadSpec PRead.
Open Scope string_scope. Open Scope N_scope. Open Scope list_scope.

(** An expression without "+", "#" and prefix modifiers, with any values (strings, lists, associative arrays,
    undefined): splitting the expansion at the separator of the operator, at "=" and at ",", and
    percent-decoding, gives exactly the names and values.  For "." the values must not contain ".", and with a
    named operator the names must not contain triplets (they are names of variables, F11). *)
Theorem C52_read_back : forall S debug ctx env o rs, supplies_env ctx env -> rs <> [] -> Forall crate_spec rs -> w_reserved (op_row o) = false ->
  (forall r, In r rs -> (forall ds, r_mod r <> Prefix ds) /\ (w_named (op_row o) = true -> ~ In 37 (r_name r)) /\
     (o = Dot -> Forall (fun x => ~ In 46 x) (texts (env (r_name r))))) ->
  let fs := flat_map (fun r => fields o r (env (r_name r))) rs in
  exists out, expand_to_string S debug ctx (template_text [Expr o rs]) = Ok out /\
    (fs = [] -> out = []) /\
    (fs <> [] -> exists body, out = w_first (op_row o) ++ body /\ read_fields o body = map field_bytes fs).
Proof. exact read_back. Qed.
Print Assumptions C52_read_back.
(** So with an operator, equal expansions come from equal names and values.  (Without one, an empty string and an
    undefined variable are both expanded to nothing.) *)
Theorem C52_injective : forall S debug ctx env ctx' env' o rs out, supplies_env ctx env -> supplies_env ctx' env' -> rs <> [] -> Forall crate_spec rs ->
  w_reserved (op_row o) = false -> o <> Simple ->
  (forall r, In r rs -> (forall ds, r_mod r <> Prefix ds) /\ (w_named (op_row o) = true -> ~ In 37 (r_name r)) /\
     (o = Dot -> Forall (fun x => ~ In 46 x) (texts (env (r_name r)) ++ texts (env' (r_name r))))) ->
  expand_to_string S debug ctx (template_text [Expr o rs]) = Ok out -> expand_to_string S debug ctx' (template_text [Expr o rs]) = Ok out ->
  flat_map (fun r => fields o r (env (r_name r))) rs = flat_map (fun r => fields o r (env' (r_name r))) rs.
Proof. exact read_inj. Qed.
Print Assumptions C52_injective.

Definition read_history : list sc_op :=
  [Insert (lit "s") (SString (lit "a&b=" ++ [233])); Insert (lit "e") (SString []); Insert (lit "l") (SList [lit "x,y"; []]);
   Insert (lit "m") (SAssoc [(lit "k&", lit "v;"); (lit "k2", lit "=")])].
Example C52_ex :
  let rs := [mkR (lit "s") NoMod; mkR (lit "e") NoMod; mkR (lit "u") NoMod; mkR (lit "l") NoMod; mkR (lit "l") Explode; mkR (lit "m") Explode; mkR (lit "m") NoMod] in
  let env n := sval_of (sc_get (sc_run read_history) n) in let out := lit "s=a%26b%3D%C3%A9&e=&l=x%2Cy,&l=x%2Cy&l=&k%26=v%3B&k2=%3D&m=k%26,v%3B,k2,%3D" in
  expand_to_string UriSpec true (sc_visit (sc_run read_history)) (template_text [Expr Ques rs]) = Ok (lit "?" ++ out) /\
  read_fields Ques out = map field_bytes (flat_map (fun r => fields Ques r (env (r_name r))) rs) /\
  flat_map (fun r => fields Ques r (env (r_name r))) rs =
    [(Some (lit "s"), [lit "a&b=" ++ [233]]); (Some (lit "e"), [[]]); (Some (lit "l"), [lit "x,y"; []]); (Some (lit "l"), [lit "x,y"]); (Some (lit "l"), [[]]);
     (Some (lit "k&"), [lit "v;"]); (Some (lit "k2"), [lit "="]); (Some (lit "m"), [lit "k&"; lit "v;"; lit "k2"; lit "="])].
Proof. vm_compute. auto. Qed.
(** "." in a value of "{.x}" is taken for a separator. *)
Example C52_dot :
  let h v := [Insert (lit "x") v] in let T := [Expr Dot [mkR (lit "x") Explode]] in
  expand_to_string UriSpec true (sc_visit (sc_run (h (SString (lit "a.b"))))) (template_text T) = Ok (lit ".a.b") /\
  expand_to_string UriSpec true (sc_visit (sc_run (h (SList [lit "a"; lit "b"])))) (template_text T) = Ok (lit ".a.b").
Proof. vm_compute. auto. Qed.
