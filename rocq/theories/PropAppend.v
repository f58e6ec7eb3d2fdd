(** * Property C41: appending a template to a template.  Model: MTypes.v, MTemplate.v, MExpand.v. *)
From Verif Require Import Base Chars MFormat MTemplate MExpand MTypes PTmpl5.

(** Appending one accepted template to another concatenates them; the result is an accepted template, and
    the debug assertion does not fail. *)
Theorem C41_append : forall debug s t, template_new s = Ok s -> template_new t = Ok t ->
  template_append debug s t = Ok (s ++ t) /\ template_new (s ++ t) = Ok (s ++ t).
Proof. exact append_ok. Qed.
Print Assumptions C41_append.
(** Its variables are those of the first followed by those of the second (if neither panics). *)
Theorem C41_variables : forall debug s t, template_new s = Ok s -> template_new t = Ok t ->
  template_variables debug (s ++ t) =
  (do x <- template_variables debug s ; do y <- template_variables debug t ; Ok (x ++ y)).
Proof. exact append_variables. Qed.
Print Assumptions C41_variables.
(** For every context: it expands exactly if both do, to the concatenation ... *)
Theorem C41_expand : forall S debug ctx s t z, template_new s = Ok s -> template_new t = Ok t ->
  (expand_to_string S debug ctx (s ++ t) = Ok z <->
   exists x y, expand_to_string S debug ctx s = Ok x /\ expand_to_string S debug ctx t = Ok y /\ z = x ++ y).
Proof. exact append_expand. Qed.
Print Assumptions C41_expand.
(** ... and its type errors are those of the first, or else those of the second, located after the first. *)
Theorem C41_type_error : forall debug ctx s t, template_new s = Ok s -> template_new t = Ok t ->
  expand_new debug ctx (s ++ t) = (expand_new debug ctx s ;;
    match expand_new debug ctx t with
    | Err e => Err (mkTE (te_kind e) (blen s + te_location e))
    | x => x
    end).
Proof. exact append_typecheck. Qed.
Print Assumptions C41_type_error.
Example C41_ex : let s := lit "a{x}%20" in let t := lit "b{+x,y*}" in
  template_new s = Ok s /\ template_new t = Ok t /\ template_append true s t = Ok (lit "a{x}%20b{+x,y*}") /\
  template_variables true (s ++ t) = Ok [lit "x"; lit "x"; lit "y"].
Proof. vm_compute. repeat split. Qed.
(** Concatenation of other strings need not be acceptable, so the hypotheses matter. *)
Example C41_ex2 : template_append true (lit "{a") (lit "}") = Ok (lit "{a}") /\
  template_append true (lit "%4") (lit "g") = Panic.
Proof. vm_compute. repeat split. Qed.
