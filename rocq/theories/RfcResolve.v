(** * Independent specification: RFC 3986 section 5.2, reference resolution.
    Does not mention the code. *)
From Verif Require Import Base Chars Rfc3986 CompSpec.

(** ** Section 5.2.4, Remove Dot Segments.
    [dot] and [dotdot] are the spellings of the segments "." and ".."; the RFC text has [tok "."] and
    [tok ".."]; see below for percent-encoded spellings. *)
Section Rds.
Variables dot dotdot : lang.

Definition no_slash (s : str) : Prop := ~ In 47 s.

(** "removing the last segment and its preceding "/" (if any) from the output buffer" *)
Inductive remove_last : str -> str -> Prop :=
| rl_slash : forall o seg, no_slash seg -> remove_last (o ++ lit "/" ++ seg) o
| rl_none : forall seg, no_slash seg -> remove_last seg [].

(** One step of the loop of 5.2.4 on (input buffer, output buffer). *)
Inductive rds_step : str * str -> str * str -> Prop :=
(* A. input begins with "../" or "./": remove that prefix *)
| rds_A : forall d i o, dot d \/ dotdot d -> rds_step (d ++ lit "/" ++ i, o) (i, o)
(* B. input begins with "/./", or is "/.": replace by "/" *)
| rds_B : forall d i o, dot d -> rds_step (lit "/" ++ d ++ lit "/" ++ i, o) (lit "/" ++ i, o)
| rds_B' : forall d o, dot d -> rds_step (lit "/" ++ d, o) (lit "/", o)
(* C. input begins with "/../", or is "/..": replace by "/" and remove the last output segment *)
| rds_C : forall d i o o', dotdot d -> remove_last o o' ->
    rds_step (lit "/" ++ d ++ lit "/" ++ i, o) (lit "/" ++ i, o')
| rds_C' : forall d o o', dotdot d -> remove_last o o' -> rds_step (lit "/" ++ d, o) (lit "/", o')
(* D. input is only "." or "..": remove it *)
| rds_D : forall d o, dot d \/ dotdot d -> rds_step (d, o) ([], o)
(* E. otherwise move the first segment, including the initial "/" (if any) *)
| rds_E : forall lead seg i o,
    lead = [] \/ lead = lit "/" -> no_slash seg -> lead ++ seg <> [] ->
    ~ dot seg -> ~ dotdot seg -> i = [] \/ (exists r, i = lit "/" ++ r) ->
    rds_step (lead ++ seg ++ i, o) (i, o ++ lead ++ seg).

Inductive rds_steps : str * str -> str * str -> Prop :=
| rds_refl : forall x, rds_steps x x
| rds_next : forall x y z, rds_step x y -> rds_steps y z -> rds_steps x z.

(** "While the input buffer is not empty, loop"; the result is the output buffer. *)
Definition remove_dot_segments (input output : str) : Prop := rds_steps (input, []) ([], output).
End Rds.

(** RFC 3986 section 6.2.2.2: "%2E" and "." are equivalent; the crate treats the segments that spell
    "." or ".." with percent-encoded dots as dot segments. *)
Definition a_dot : lang := tok "." <|> tok "%2E" <|> tok "%2e".
Definition single_dot : lang := a_dot.
Definition double_dot : lang := a_dot +++ a_dot.
Definition rds : str -> str -> Prop := remove_dot_segments single_dot double_dot.
Definition rds_literal : str -> str -> Prop := remove_dot_segments (tok ".") (tok "..").

(** ** Section 5.2.3, Merge Paths. *)
Inductive merge (base_has_authority : bool) (base_path ref_path : str) : str -> Prop :=
| merge_empty : base_has_authority = true -> base_path = [] ->
    merge base_has_authority base_path ref_path (lit "/" ++ ref_path)
| merge_last : forall dir last, ~ (base_has_authority = true /\ base_path = []) ->
    base_path = dir ++ lit "/" ++ last -> no_slash last ->
    merge base_has_authority base_path ref_path (dir ++ lit "/" ++ ref_path)
| merge_noslash : ~ (base_has_authority = true /\ base_path = []) -> no_slash base_path ->
    merge base_has_authority base_path ref_path ref_path.

(** ** Section 5.2.2, Transform References (strict).  The components of base and reference, and those
    of the target. *)
Record comps := mkC { c_s : option str; c_a : option str; c_p : str; c_q : option str; c_f : option str }.
Definition defined (o : option str) : bool := match o with Some _ => true | None => false end.

(** [rm] is the removal of dot segments. *)
Inductive transform_with (rm : str -> str -> Prop) (B R : comps) : comps -> Prop :=
| tr_scheme : forall p, defined (c_s R) = true -> rm (c_p R) p ->
    transform_with rm B R (mkC (c_s R) (c_a R) p (c_q R) (c_f R))
| tr_authority : forall p, defined (c_s R) = false -> defined (c_a R) = true -> rm (c_p R) p ->
    transform_with rm B R (mkC (c_s B) (c_a R) p (c_q R) (c_f R))
| tr_empty_path : defined (c_s R) = false -> defined (c_a R) = false -> c_p R = [] ->
    transform_with rm B R (mkC (c_s B) (c_a B) (c_p B)
                     (if defined (c_q R) then c_q R else c_q B) (c_f R))
| tr_abs_path : forall r p, defined (c_s R) = false -> defined (c_a R) = false ->
    c_p R = lit "/" ++ r -> rm (c_p R) p ->
    transform_with rm B R (mkC (c_s B) (c_a B) p (c_q R) (c_f R))
| tr_rel_path : forall m p, defined (c_s R) = false -> defined (c_a R) = false ->
    c_p R <> [] -> (forall r, c_p R <> lit "/" ++ r) ->
    merge (defined (c_a B)) (c_p B) (c_p R) m -> rm m p ->
    transform_with rm B R (mkC (c_s B) (c_a B) p (c_q R) (c_f R)).
(** With percent-encoded dots counting as dots. *)
Definition transform : comps -> comps -> comps -> Prop := transform_with rds.

(** ** Section 5.3 with the serialization of the WHATWG URL Standard: a path beginning with "//" would
    be mistaken for an authority when there is none, so it is preceded by "/.". *)
Definition safe_path (a : option str) (p : str) : str :=
  match a with
  | Some _ => p
  | None => if starts_with (lit "//") p then lit "/." ++ p else p
  end.
Definition unparse (t : comps) : str :=
  recompose (c_s t) (c_a t) (safe_path (c_a t) (c_p t)) (c_q t) (c_f t).
