(** * Independent specification: histories of edits of one string, in terms of its components.  Does not
    mention the code. *)
From Verif Require Import Base Chars Rfc3986 CompSpec RfcResolve NormSpec EditSpec.

(** The edits offered by the owned types (and two that replace a string by one derived from it). *)
Inductive edit :=
| ESetFragment (f : option str)
| EClearPassword                       (* remove_nonempty_password_inline *)
| EMask                                (* mask_password().to_dedicated_string() *)
| ERemovePassword                      (* remove_password_inline *)
| EReplaceHost (h : str) (only_reg_name : bool)
| ENormalize (keep : bool).            (* normalize().to_dedicated_string(), or the variant that keeps relative paths *)

(** The authority consists of userinfo [u], host [h] and port [o]. *)
Definition parts (S : Spec) (C : comps) (u : option str) (h : str) (o : option str) : Prop :=
  c_a C = Some (authority_string u h o) /\ opt_in (userinfo S) u /\ host S h /\ opt_in port o.

(** What an edit does to the components. *)
Inductive edited (S : Spec) (C : comps) : edit -> comps -> Prop :=
| ed_fragment : forall f, opt_in (fragment S) f -> edited S C (ESetFragment f) (with_fragment C f)
| ed_clear : forall e user pw h o, e = EClearPassword \/ e = EMask ->
    parts S C (Some (user_password user pw)) h o -> ~ In 58 user ->
    edited S C e (with_authority C (Some (user_password user [])) h o)
| ed_clear_none : forall e, e = EClearPassword \/ e = EMask ->
    c_a C = None \/ (exists h o, parts S C None h o) \/ (exists u h o, parts S C (Some u) h o /\ ~ In 58 u) ->
    edited S C e C
| ed_remove : forall user pw h o, parts S C (Some (user_password user pw)) h o -> ~ In 58 user ->
    edited S C ERemovePassword (with_authority C (Some user) h o)
| ed_remove_none : c_a C = None \/ (exists h o, parts S C None h o) -> edited S C ERemovePassword C
| ed_host : forall u h o g (only : bool), parts S C u h o -> host S g ->
    (only = true -> ~ IP_literal h /\ ~ IPv4address h) ->
    edited S C (EReplaceHost g only) (with_authority C u g o)
| ed_host_none : forall g (only : bool),
    c_a C = None \/ ~ host S g \/ (only = true /\ exists u h o, parts S C u h o /\ (IP_literal h \/ IPv4address h)) ->
    edited S C (EReplaceHost g only) C
| ed_normalize : forall keep T, defined (c_s C) = true -> comps_normal S keep C T ->
    edited S C (ENormalize keep) (reread T).
