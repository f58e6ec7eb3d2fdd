(** * Independent specification: syntax-based normalization (RFC 3986 section 6.2.2), component by
    component.  Does not mention the code. *)
From Verif Require Import Base Chars Rfc3986 Utf8 CompSpec PctSpec RfcResolve.

Definition opt_rel (R : str -> str -> Prop) (x y : option str) : Prop :=
  match x, y with Some a, Some b => R a b | None, None => True | _, _ => False end.

(** RFC 3986 6.2.3: an empty port and its ":" are removed. *)
Definition drop_empty_port (p : option str) : option str :=
  match p with Some [] => None | _ => p end.
Definition authority_normal (S : Spec) (a a' : str) : Prop :=
  exists u h p u' h',
    a = authority_string u h p /\ opt_in (userinfo S) u /\ host S h /\ opt_in port p /\
    opt_rel (pct_normal S) u u' /\ host_normal S h h' /\ a' = authority_string u' h' (drop_empty_port p).

(** Percent-encoding normalization first (so that "%2E" is "."), then removal of dot segments.  With
    [keep], the relative path of an IRI without authority keeps its dot segments. *)
Definition path_normal (S : Spec) (keep has_authority : bool) (p t : str) : Prop :=
  if keep && negb has_authority && negb (starts_with (lit "/") p) then pct_normal S p t
  else exists p', pct_normal S p p' /\ rds_literal p' t.

(** [T] is the normal form of [C]; it is to be written with [unparse]. *)
Definition comps_normal (S : Spec) (keep : bool) (C T : comps) : Prop :=
  opt_rel (fun x y => y = map lower x) (c_s C) (c_s T) /\
  opt_rel (authority_normal S) (c_a C) (c_a T) /\
  path_normal S keep (defined (c_a C)) (c_p C) (c_p T) /\
  opt_rel (pct_normal S) (c_q C) (c_q T) /\
  opt_rel (pct_normal S) (c_f C) (c_f T).

(** What [unparse T] reads back as. *)
Definition reread (T : comps) : comps :=
  mkC (c_s T) (c_a T) (safe_path (c_a T) (c_p T)) (c_q T) (c_f T).
Definition comps_ok (S : Spec) (C : comps) : Prop :=
  components_ok S (c_s C) (c_a C) (c_p C) (c_q C) (c_f C).

(** Section 5.2.2 without the removal of dot segments: the components that resolution puts together,
    used to describe resolution followed by normalization. *)
Inductive pre_transform (B R : comps) : comps -> Prop :=
| pt_scheme : defined (c_s R) = true -> pre_transform B R R
| pt_authority : defined (c_s R) = false -> defined (c_a R) = true ->
    pre_transform B R (mkC (c_s B) (c_a R) (c_p R) (c_q R) (c_f R))
| pt_empty_path : defined (c_s R) = false -> defined (c_a R) = false -> c_p R = [] ->
    pre_transform B R (mkC (c_s B) (c_a B) (c_p B) (if defined (c_q R) then c_q R else c_q B) (c_f R))
| pt_abs_path : forall r, defined (c_s R) = false -> defined (c_a R) = false -> c_p R = lit "/" ++ r ->
    pre_transform B R (mkC (c_s B) (c_a B) (c_p R) (c_q R) (c_f R))
| pt_rel_path : forall m, defined (c_s R) = false -> defined (c_a R) = false ->
    c_p R <> [] -> (forall r, c_p R <> lit "/" ++ r) -> merge (defined (c_a B)) (c_p B) (c_p R) m ->
    pre_transform B R (mkC (c_s B) (c_a B) m (c_q R) (c_f R)).

(** [i] consists of the components [C] (the decomposition is unique, see C07). *)
Definition reads (S : Spec) (i : str) (C : comps) : Prop :=
  comps_ok S C /\ i = recompose (c_s C) (c_a C) (c_p C) (c_q C) (c_f C).
(** The target cannot be written by section 5.3 of the RFC: its path would be read as an authority. *)
Definition fell_back (T : comps) : Prop := c_a T = None /\ starts_with (lit "//") (c_p T) = true.
(** [p] contains no percent-encoded dot. *)
Definition no_2e (p : str) : Prop := forall a b, p <> a ++ lit "%2E" ++ b /\ p <> a ++ lit "%2e" ++ b.
