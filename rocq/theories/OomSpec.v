(** * Independent specification: memory that may run out.  Does not mention the code. *)
From Verif Require Import Base Chars Rfc3986 CompSpec CallSpec.

(** The answers of the allocator during one call: to the [k]-th request, which is for a string of [len] bytes
    that is to grow by [additional] bytes.  Any answers: they may depend on everything, also on the history. *)
Definition memory := nat -> nat -> nat -> bool.
(** Strings may have at most [n] bytes. *)
Definition limit (n : nat) : memory := fun _ len additional => Nat.leb (len + additional) n.
(** The calls with a [try_] version, which is said to report the lack of memory instead of panicking. *)
Definition fallible (c : call) : Prop :=
  match c with
  | CNormalizeOwned _ | CResolveOwned _ _ | CMaskOwned | CReplaceHost _ _ | CMapToUriOwned | CEncodeInline | CEncodeIntoUri => True
  | _ => False
  end.
(** Those that edit a string in place. *)
Definition in_place (c : call) : bool := match c with CReplaceHost _ _ | CEncodeInline => true | _ => false end.
