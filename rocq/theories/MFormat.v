(** * Model of [core::fmt] writing and of src/format.rs.

    A [Display::fmt] implementation is modelled by the sequence of [write_str] chunks it produces and
    how it ends: [Ret] (returns Ok), [Fail] (returns [fmt::Error] by itself) or [Pan] (panics).  The
    control flow of the crate's [Display] implementations never depends on the writer except that the
    first [Err] of the writer aborts them, which [run] models. *)
From Verif Require Import Base Utf8.

Inductive ending (A : Type) := Ret (a : A) | Fail | Pan.
Arguments Ret {A} a. Arguments Fail {A}. Arguments Pan {A}.
Definition W (A : Type) : Type := (list str * ending A)%type.
Definition wret {A} (a : A) : W A := ([], Ret a).
Definition wpanic {A} : W A := ([], Pan).
Definition wfail {A} : W A := ([], Fail).
Definition write (s : str) : W unit := ([s], Ret tt).
Definition wbind {A B} (x : W A) (f : A -> W B) : W B :=
  match x with
  | (o, Ret a) => let '(o', r) := f a in (o ++ o', r)
  | (o, Fail) => (o, Fail)
  | (o, Pan) => (o, Pan)
  end.
Notation "'wdo' p <- x ; y" := (wbind x (fun p => y))
  (at level 200, p pattern, x at level 100, y at level 200).
Notation "x >> y" := (wbind x (fun _ => y)) (at level 199, right associativity).
(** A pure computation that may panic, used inside a [fmt]. *)
Definition lift {A} (x : res Empty_set A) : W A :=
  match x with Ok a => wret a | Err e => match e with end | Panic => wpanic end.

(** A writer: new state, or the state in which it returned [Err]. *)
Inductive wstep (St : Type) := Cont (s : St) | Stop (s : St).
Arguments Cont {St} s. Arguments Stop {St} s.
Inductive outcome := OOk | OErr | OPanic.
Definition end_of {A} (e : ending A) : outcome :=
  match e with Ret _ => OOk | Fail => OErr | Pan => OPanic end.
Fixpoint run {St} (w : St -> str -> wstep St) (st : St) (chunks : list str) (e : outcome)
  : St * outcome :=
  match chunks with
  | [] => (st, e)
  | c :: r => match w st c with Cont st' => run w st' r e | Stop st' => (st', OErr) end
  end.
(** [write!(writer, "{}", value)] *)
Definition run_display {St A} (w : St -> str -> wstep St) (st : St) (d : W A) : St * outcome :=
  run w st (fst d) (end_of (snd d)).

(** The complete displayed text ([to_string]); a [Display] that fails by itself panics there. *)
Definition text {A} (d : W A) : res Empty_set str :=
  match snd d with Ret _ => Ok (concat (fst d)) | _ => Panic end.

(** ** src/format.rs *)
(** The writers of [write_to_slice] and [try_append_to_string] are in MWriters.v. *)
(** format.rs:116-137 [eq_str_display]. *)
Definition cmp_write (st : str) (s : str) : wstep str :=
  match strip_prefix s st with Some rest => Cont rest | None => Stop st end.
Definition eq_str_display {A} (s : str) (d : W A) : res Empty_set bool :=
  match run_display cmp_write s d with
  | (rest, OOk) => Ok (is_empty rest)
  | (_, OErr) => Ok false
  | (_, OPanic) => Panic
  end.
