(** * Specification for C73: what a writer has been given when the output is interrupted. *)
From Verif Require Import Base MFormat.

(** The writer [w], with a record of all the text that it has accepted so far. *)
Definition recorded {Wr} (w : Wr -> str -> wstep Wr) (st : Wr * str) (c : str) : wstep (Wr * str) :=
  match w (fst st) c with
  | Cont st' => Cont (st', snd st ++ c)
  | Stop st' => Stop (st', snd st)
  end.
(** A writer that never returns an error. *)
Definition tireless {Wr} (w : Wr -> str -> wstep Wr) : Prop := forall st c, exists st', w st c = Cont st'.
(** A writer that accepts [n] pieces. *)
Definition patient (n : nat) (c : str) : wstep nat := match n with O => Stop O | S m => Cont m end.
