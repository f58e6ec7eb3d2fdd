(** * Independent specification: equivalence of IRIs (RFC 3986 section 6.2.2, RFC 3987 section 5.3.2).
    Does not mention the code. *)
From Verif Require Import Base Chars Rfc3986 Utf8 CompSpec PctSpec RfcResolve NormSpec.
From Coq Require Export Relation_Operators.

(** One change of spelling (6.2.2.1 and 6.2.2.2): the case of the digits of one triplet, or one
    percent-encoded unreserved character written as itself.  What comes before and after is a sequence
    of characters and whole triplets. *)
Inductive respell (S : Spec) : str -> str -> Prop :=
| rs_case : forall a u l u' l' b, pct_wf a -> pct_wf b ->
    HEXDIG u = true -> HEXDIG l = true -> HEXDIG u' = true -> HEXDIG l' = true ->
    hex_value u = hex_value u' -> hex_value l = hex_value l' ->
    respell S (a ++ [37; u; l] ++ b) (a ++ [37; u'; l'] ++ b)
| rs_decode : forall a x c b, pct_wf a -> pct_wf b ->
    unreserved S c = true -> spelled (utf8 c) x ->
    respell S (a ++ x ++ b) (a ++ [c] ++ b).
(** Any number of such changes, in both directions. *)
Definition same_spelling (S : Spec) : str -> str -> Prop := clos_refl_sym_trans str (respell S).

(** Hosts: also the case of letters, if the host is ASCII only. *)
Inductive host_step (S : Spec) : str -> str -> Prop :=
| hs_respell : forall h h', respell S h h' -> host_step S h h'
| hs_letters : forall h h', pct_wf h -> pct_wf h' -> ascii_only h -> lower_raw h = lower_raw h' -> host_step S h h'.
Definition same_host (S : Spec) : str -> str -> Prop := clos_refl_sym_trans str (host_step S).

(** Authorities: an empty port is no port. *)
Definition same_authority (S : Spec) (a a' : str) : Prop :=
  exists u h p u' h' p',
    a = authority_string u h p /\ opt_in (userinfo S) u /\ host S h /\ opt_in port p /\
    a' = authority_string u' h' p' /\ opt_in (userinfo S) u' /\ host S h' /\ opt_in port p' /\
    opt_rel (same_spelling S) u u' /\ same_host S h h' /\ drop_empty_port p = drop_empty_port p'.

(** Paths: removal of dot segments (6.2.2.3).  With [opaque], dot segments matter in paths that do not
    begin with "/". *)
Inductive path_step (S : Spec) (opaque : bool) : str -> str -> Prop :=
| ps_respell : forall p p', respell S p p' -> path_step S opaque p p'
| ps_dots : forall p p', pct_wf p -> opaque = false \/ starts_with (lit "/") p = true -> rds p p' -> path_step S opaque p p'.
Definition same_path (S : Spec) (opaque : bool) : str -> str -> Prop := clos_refl_sym_trans str (path_step S opaque).

Definition equivalent (S : Spec) (keep : bool) (C D : comps) : Prop :=
  opt_rel (fun x y => map lower x = map lower y) (c_s C) (c_s D) /\
  opt_rel (same_authority S) (c_a C) (c_a D) /\
  same_path S (keep && negb (defined (c_a C))) (c_p C) (c_p D) /\
  opt_rel (same_spelling S) (c_q C) (c_q D) /\
  opt_rel (same_spelling S) (c_f C) (c_f D).
