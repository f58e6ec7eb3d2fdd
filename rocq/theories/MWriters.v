(** * Model of the writers of src/format.rs. *)
From Verif Require Import Base Utf8 MFormat.

(** format.rs:25-48 [ByteBufWriter]; state: the bytes before [buffer] (whose number is
    [len_written]) and [buffer] itself. *)
Definition bytebuf_write (st : list N * list N) (s : str) : wstep (list N * list N) :=
  let '(before, buffer) := st in
  let b := utf8s s in
  let len := length b in
  if Nat.ltb (length buffer) len then Stop st
  else Cont (before ++ b, skipn len buffer).
(** format.rs:51-66 [write_to_slice]: the result and the buffer afterwards; [Ok None] is
    [CapacityOverflowError].  The result is given as the bytes [&buf[..len]]; that they are valid
    UTF-8 is part of C32. *)
Definition write_to_slice {A} (buf : list N) (d : W A) : res Empty_set (option (list N)) * list N :=
  match run_display bytebuf_write ([], buf) d with
  | ((before, buffer), OOk) => (Ok (Some (firstn (length before) (before ++ buffer))), before ++ buffer)
  | ((before, buffer), OErr) => (Ok None, before ++ buffer)
  | ((before, buffer), OPanic) => (Panic, before ++ buffer)
  end.

(** format.rs:70-93 [StringWriter].  [alloc n] tells whether the [n]-th [try_reserve] of the call
    succeeds: the environment is arbitrary. *)
Record string_writer := mkSW { sw_buffer : str; sw_error : bool; sw_calls : nat }.
Definition string_write (alloc : nat -> bool) (w : string_writer) (s : str) : wstep string_writer :=
  if sw_error w then Stop w
  else if alloc (sw_calls w) then Cont (mkSW (sw_buffer w ++ s) false (S (sw_calls w)))
  else Stop (mkSW (sw_buffer w) true (S (sw_calls w))).
Inductive TryReserveError := AllocFailed.
(** format.rs:98-113 [try_append_to_string]: the result and [dest] afterwards.  A [Display] that
    returns an error by itself hits the [expect]. *)
Definition try_append_to_string {A} (alloc : nat -> bool) (dest : str) (d : W A)
  : res TryReserveError unit * str :=
  match run_display (string_write alloc) (mkSW dest false 0) d with
  | (w, OOk) => (Ok tt, sw_buffer w)
  | (w, OErr) => (if sw_error w then Err AllocFailed else Panic, sw_buffer w)
  | (w, OPanic) => (Panic, sw_buffer w)
  end.
(** format.rs:158-163 [ToStringFallible::try_to_string]. *)
Definition try_to_string {A} (alloc : nat -> bool) (d : W A) : res TryReserveError str :=
  match try_append_to_string alloc [] d with
  | (Ok _, s) => Ok s
  | (Err e, _) => Err e
  | (Panic, _) => Panic
  end.
