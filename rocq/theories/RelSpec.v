(** * Independent specification: which relative references denote a given IRI, seen from a given base.
    Does not mention the code. *)
From Verif Require Import Base Chars Rfc3986 CompSpec RfcResolve ConfineSpec.

(** "../../.../" *)
Fixpoint ups (k : nat) : str := match k with O => [] | S k => lit "../" ++ ups k end.
(** [tidy T p]: [p] has no dot segments, and is the path of [T] (after "/." where that is needed
    to keep "//" from being read as an authority). *)
Definition tidy (T : comps) (p : str) : Prop := rds p p /\ c_p T = safe_path (c_a T) p.

(** [relative B T R]: the reference [R] is a short form of the IRI [T] for the base [B]. *)
Inductive relative (B T : comps) : comps -> Prop :=
(* "#f", or "" *)
| rel_fragment : c_s T = c_s B -> c_a T = c_a B -> c_p T = c_p B -> c_q T = c_q B ->
    relative B T (mkC None None [] None (c_f T))
(* "?q#f" *)
| rel_query : c_s T = c_s B -> c_a T = c_a B -> c_p T = c_p B -> defined (c_q T) = true ->
    relative B T (mkC None None [] (c_q T) (c_f T))
(* "/p?q#f" *)
| rel_root : forall p r, c_s T = c_s B -> c_a T = c_a B -> tidy T p -> c_p T = lit "/" ++ r ->
    relative B T (mkC None None (c_p T) (c_q T) (c_f T))
(* "//a/p?q#f" *)
| rel_network : forall p, c_s T = c_s B -> defined (c_a T) = true -> tidy T p ->
    relative B T (mkC None (c_a T) (c_p T) (c_q T) (c_f T))
(* "../../r?q#f": [r] below the [k]-th ancestor of the directory of the base; "./" may come first *)
| rel_path : forall p d D k A pre r, c_s T = c_s B -> c_a T = c_a B -> tidy T p ->
    directory B d -> rds d D -> ancestor k A D -> k = O \/ A <> [] -> p = A ++ r -> pre = [] \/ pre = lit "./" ->
    pre ++ ups k ++ r <> [] -> (forall w, pre ++ ups k ++ r <> lit "/" ++ w) ->
    relative B T (mkC None None (pre ++ ups k ++ r) (c_q T) (c_f T)).

(** The IRIs that have a relative form at all. *)
Definition relativizable (B T : comps) : Prop :=
  c_s T = c_s B /\
  ((* the same but for the query and the fragment *)
   (c_a T = c_a B /\ c_p T = c_p B /\ (c_q T = c_q B \/ defined (c_q T) = true)) \/
   (exists p, tidy T p /\
     ((* with an authority *)
      defined (c_a T) = true \/
      (defined (c_a T) = false /\ defined (c_a B) = false /\
       ((* with a path from the root *)
        (exists r, p = lit "/" ++ r) \/
        (* below the first directory of the base *)
        (exists d D, directory B d /\ rds d D /\
          (D = [] \/ exists x u v, no_slash x /\ D = x ++ lit "/" ++ u /\ p = x ++ lit "/" ++ v))))))).
