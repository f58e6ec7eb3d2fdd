(** * Independent specification: the composition of two references.  Does not mention the code. *)
From Verif Require Import Base Chars Rfc3986 CompSpec RfcResolve NormSpec.

(** [p] ends with the segment [seg]. *)
Definition last_segment (p seg : str) : Prop := exists dir, p = dir ++ seg /\ no_slash seg /\ (dir = [] \/ exists d, dir = d ++ lit "/").
(** A last segment ".." (in any spelling) denotes a directory like "../". *)
Inductive as_directory (p : str) : str -> Prop :=
| ad_parent : forall seg, last_segment p seg -> double_dot seg -> as_directory p (p ++ lit "/")
| ad_same : (forall seg, last_segment p seg -> ~ double_dot seg) -> as_directory p p.
(** First [R1], then [R2]: RFC 3986 section 5.2.2 with [R1] in the place of the base, without removing
    dot segments.  [R1] need not have a scheme, and then the result has none. *)
Definition composition (R1 R2 R : comps) : Prop :=
  exists p, as_directory (c_p R1) p /\ pre_transform (mkC (c_s R1) (c_a R1) p (c_q R1) (c_f R1)) R2 R.
