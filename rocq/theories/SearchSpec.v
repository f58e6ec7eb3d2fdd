(** * Independent specification: what the search functions of the memchr crate promise
    ("Search for the first/last occurrence of ... Returns the index ... or None"). *)
From Verif Require Import Base MSearch.

(** [i] is the first / last index of [h] whose byte satisfies [P]. *)
Definition first_at (P : N -> Prop) (h : list N) (i : nat) : Prop :=
  (exists x, nth_error h i = Some x /\ P x) /\
  (forall j y, (j < i)%nat -> nth_error h j = Some y -> ~ P y).
Definition last_at (P : N -> Prop) (h : list N) (i : nat) : Prop :=
  (exists x, nth_error h i = Some x /\ P x) /\
  (forall j y, (i < j)%nat -> nth_error h j = Some y -> ~ P y).
Definition searches (at_ : (N -> Prop) -> list N -> nat -> Prop) (P : N -> Prop) (h : list N)
  (r : option nat) : Prop :=
  match r with Some i => at_ P h i | None => Forall (fun x => ~ P x) h end.
Definition memchr_contract (m : memchr_crate) : Prop :=
  (forall a h, searches first_at (fun x => x = a) h (memchr m a h)) /\
  (forall a b h, searches first_at (fun x => x = a \/ x = b) h (memchr2 m a b h)) /\
  (forall a b c h, searches first_at (fun x => x = a \/ x = b \/ x = c) h (memchr3 m a b c h)) /\
  (forall a h, searches last_at (fun x => x = a) h (memrchr m a h)) /\
  (forall a b h, searches last_at (fun x => x = a \/ x = b) h (memrchr2 m a b h)).
