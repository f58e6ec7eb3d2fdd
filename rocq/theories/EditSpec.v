(** * Independent specification: editing one part of a reference.  Does not mention the code. *)
From Verif Require Import Base Chars Rfc3986 CompSpec RfcResolve NormSpec.

(** [i] consists of the components [C], and its authority of userinfo [u], host [h] and port [o]. *)
Definition dissects (S : Spec) (i : str) (C : comps) (u : option str) (h : str) (o : option str) : Prop :=
  reads S i C /\ c_a C = Some (authority_string u h o) /\
  opt_in (userinfo S) u /\ host S h /\ opt_in port o.

(** The components with another authority / fragment. *)
Definition with_authority (C : comps) (u : option str) (h : str) (o : option str) : comps :=
  mkC (c_s C) (Some (authority_string u h o)) (c_p C) (c_q C) (c_f C).
Definition with_fragment (C : comps) (f : option str) : comps :=
  mkC (c_s C) (c_a C) (c_p C) (c_q C) f.

(** Userinfo that consists of a user name and a password: the first ":" separates them. *)
Definition user_password (user pw : str) : str := user ++ lit ":" ++ pw.

(** There is no password: no authority, no userinfo, or userinfo without ":". *)
Definition no_password (S : Spec) (i : str) (C : comps) : Prop :=
  (reads S i C /\ c_a C = None) \/ (exists h o, dissects S i C None h o) \/
  (exists u h o, dissects S i C (Some u) h o /\ ~ In 58 u).

(** [C'] is [C] with one component replaced by another string of the same rule.  The rule of the path
    depends on the presence of authority and scheme, exactly as in the grammar. *)
Definition path_rule (S : Spec) (C : comps) : lang :=
  match c_a C, c_s C with
  | Some _, _ => path_abempty S
  | None, Some _ => path_absolute S <|> path_rootless S <|> path_empty
  | None, None => path_absolute S <|> path_noscheme S <|> path_empty
  end.
Inductive replace_one (S : Spec) (C : comps) : comps -> Prop :=
| ro_scheme : forall x y, c_s C = Some x -> scheme y -> replace_one S C (mkC (Some y) (c_a C) (c_p C) (c_q C) (c_f C))
| ro_userinfo : forall u u' h o, c_a C = Some (authority_string u h o) ->
    opt_in (userinfo S) u -> host S h -> opt_in port o -> opt_in (userinfo S) u' ->
    replace_one S C (with_authority C u' h o)
| ro_host : forall u h h' o, c_a C = Some (authority_string u h o) ->
    opt_in (userinfo S) u -> host S h -> opt_in port o -> host S h' ->
    replace_one S C (with_authority C u h' o)
| ro_port : forall u h o o', c_a C = Some (authority_string u h o) ->
    opt_in (userinfo S) u -> host S h -> opt_in port o -> opt_in port o' ->
    replace_one S C (with_authority C u h o')
| ro_path : forall p', path_rule S C p' -> replace_one S C (mkC (c_s C) (c_a C) p' (c_q C) (c_f C))
| ro_query : forall q', opt_in (query S) q' -> replace_one S C (mkC (c_s C) (c_a C) (c_p C) q' (c_f C))
| ro_fragment : forall f', opt_in (fragment S) f' -> replace_one S C (with_fragment C f').
