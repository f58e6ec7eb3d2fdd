(** * Independent specification: strings that begin with a given string.  Does not mention the code. *)
From Verif Require Import Base Chars Rfc3986 CompSpec RfcResolve NormSpec.

(** Nothing that follows can change the scheme or the authority of a string with these components: there is
    a query or a fragment, or the path has begun and can be taken neither for the beginning of "//" nor
    for a scheme. *)
Definition settled (C : comps) : Prop :=
  c_f C <> None \/ c_q C <> None \/
  match c_a C, c_s C with
  | Some _, _ => c_p C <> []
  | None, Some _ => c_p C <> [] /\ c_p C <> lit "/"
  | None, None => c_p C <> [] /\ c_p C <> lit "/" /\ ~ scheme (c_p C)
  end.
(** The string with the components [C], followed by [r], has the components [D]: what follows prolongs the
    last component, and may start further ones. *)
Inductive prolonged (C : comps) (r : str) : comps -> Prop :=
| pr_fragment : forall f, c_f C = Some f -> prolonged C r (mkC (c_s C) (c_a C) (c_p C) (c_q C) (Some (f ++ r)))
| pr_query : forall q x f, c_f C = None -> c_q C = Some q -> r = recompose None None x None f -> ~ In 35 x ->
    prolonged C r (mkC (c_s C) (c_a C) (c_p C) (Some (q ++ x)) f)
| pr_path : forall x q f, c_f C = None -> c_q C = None -> r = recompose None None x q f -> ~ In 35 x -> ~ In 63 x -> opt_in (fun y => ~ In 35 y) q ->
    prolonged C r (mkC (c_s C) (c_a C) (c_p C ++ x) q f).
