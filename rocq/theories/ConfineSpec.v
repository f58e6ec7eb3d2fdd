(** * Independent specification: references that do not leave a directory.  Does not mention the code. *)
From Verif Require Import Base Chars Rfc3986 CompSpec RfcResolve.

(** The segments of a path. *)
Inductive in_segments : str -> list str -> Prop :=
| is_last : forall seg, no_slash seg -> in_segments seg [seg]
| is_next : forall seg p l, no_slash seg -> in_segments p l -> in_segments (seg ++ lit "/" ++ p) (seg :: l).
(** Walking along the segments (".." goes up, "." stays, all others go down) from [k] levels above
    the ground never goes below the ground. *)
Inductive walks : nat -> list str -> Prop :=
| w_end : forall k, walks k []
| w_stay : forall k seg l, single_dot seg -> walks k l -> walks k (seg :: l)
| w_up : forall k seg l, double_dot seg -> walks k l -> walks (S k) (seg :: l)
| w_down : forall k seg l, ~ single_dot seg -> ~ double_dot seg -> walks (S k) l -> walks k (seg :: l).
(** The directory of a base: its path up to the last "/". *)
Inductive directory (B : comps) : str -> Prop :=
| dir_path : forall dir last, c_p B = dir ++ lit "/" ++ last -> no_slash last -> directory B (dir ++ lit "/")
| dir_root : defined (c_a B) = true -> c_p B = [] -> directory B (lit "/")
| dir_none : defined (c_a B) = false -> no_slash (c_p B) -> directory B [].
(** [ancestor k A D]: the directory [A] is [k] levels above [D]. *)
Inductive ancestor : nat -> str -> str -> Prop :=
| anc_self : forall A, A = [] \/ (exists a, A = a ++ lit "/") -> ancestor 0 A A
| anc_up : forall k A D seg, ancestor k A D -> no_slash seg -> ancestor (S k) A (D ++ seg ++ lit "/").
(** None of the segments of [p] is a dot segment. *)
Definition without_dots (p : str) : Prop :=
  forall l seg, in_segments p l -> In seg l -> ~ single_dot seg /\ ~ double_dot seg.
