(** * Property C47: serialization with serde; C27: the texts of template errors.
    Specification: SerdeSpec.v (with ErrSpec.v, TmplErrSpec.v).  Model: MSerde.v. *)
From Verif Require Import Base Chars Rfc3986 CompSpec TemplateSpec TmplErrSpec MValidate MTrusted MFormat MTemplate MSerde SerdeSpec PSerde.
Open Scope string_scope. Open Scope N_scope. Open Scope list_scope.

(** ** C27: the message of a rejected template. *)
Theorem C27_message : forall s m, (exists e, template_new s = Err e /\ template_error_display e = m) <->
  exists k n, template_fault s k n /\ template_message k n m.
Proof. exact template_messages. Qed.
Print Assumptions C27_message.
Example C27_message_ex : exists e, template_new (lit "0123456789{x") = Err e /\
  template_error_display e = lit "invalid URI template: expression not closed (at 10-th byte)".
Proof. eexists. split; vm_compute; reflexivity. Qed.

(** ** C47 *)
(** Owned strings: deserialized exactly from text that the type admits, to this text ... *)
Theorem C47_owned : forall S t d v, deserialize_ri_string S t d = Ok v <->
  exists x, d HintStr = Some x /\ carries x v /\ admits S t v.
Proof. exact c47_owned. Qed.
Print Assumptions C47_owned.
(** ... and otherwise an error that tells what is wrong (C40). *)
Theorem C47_owned_error : forall S t d e, deserialize_ri_string S t d = Err e <->
  (d HintStr = None /\ e = FormatError) \/
  (exists x, d HintStr = Some x /\ (forall s, ~ carries x s) /\ e = InvalidType) \/
  (exists x s m, d HintStr = Some x /\ carries x s /\ blamed S t s m /\ e = Custom (iri_message m)).
Proof. exact c47_owned_err. Qed.
Print Assumptions C47_owned_error.
(** Borrowed strings: the same, but only from text that the input lends. *)
Theorem C47_borrowed : forall S t d v, deserialize_ri_str S t d = Ok v <->
  d HintString = Some (DBorrowedStr v) /\ admits S t v.
Proof. exact c47_borrowed. Qed.
Print Assumptions C47_borrowed.
Theorem C47_borrowed_error : forall S t d e, deserialize_ri_str S t d = Err e <->
  (d HintString = None /\ e = FormatError) \/
  (exists x, d HintString = Some x /\ (forall s, x <> DBorrowedStr s) /\ e = InvalidType) \/
  (exists s m, d HintString = Some (DBorrowedStr s) /\ blamed S t s m /\ e = Custom (iri_message m)).
Proof. exact c47_borrowed_err. Qed.
Print Assumptions C47_borrowed_error.
Theorem C47_no_panic : forall S t d, deserialize_ri_string S t d <> Panic /\ deserialize_ri_str S t d <> Panic.
Proof. exact c47_np. Qed.
Print Assumptions C47_no_panic.

(** Templates: as the constructor (C27), whose panic is here reached by deserializing (finding F9). *)
Theorem C47_template : forall d v, deserialize_template_string d = Ok v <->
  exists x, d HintStr = Some x /\ carries x v /\ crate_template v.
Proof. exact c47_template. Qed.
Print Assumptions C47_template.
Theorem C47_template_error : forall d e, deserialize_template_string d = Err e <->
  (d HintStr = None /\ e = FormatError) \/
  (exists x, d HintStr = Some x /\ (forall s, ~ carries x s) /\ e = InvalidType) \/
  (exists x s k n m, d HintStr = Some x /\ carries x s /\ template_fault s k n /\ template_message k n m /\ e = Custom m).
Proof. exact c47_template_err. Qed.
Print Assumptions C47_template_error.
Theorem C47_template_panics : forall d, deserialize_template_string d = Panic <->
  exists x T r, d HintStr = Some x /\ Forall crate_part T /\ carries x (template_text T ++ 37 :: r) /\ TemplateSpec.cut r.
Proof. exact c47_template_panic. Qed.
Print Assumptions C47_template_panics.
(** The full statement [forall d, deserialize_template_string d <> Panic] is false. *)
Theorem C47_template_refuted : exists d, deserialize_template_string d = Panic.
Proof. exact (ex_intro _ (fun _ => Some (DStr (lit "%a" ++ [233]))) eq_refl). Qed.
Print Assumptions C47_template_refuted.
Theorem C47_template_borrowed : forall d,
  (forall s, d HintString = Some (DBorrowedStr s) -> deserialize_template_str d = deserialize_template_string (fun _ => Some (DStr s))) /\
  (forall x, d HintString = Some x -> (forall s, x <> DBorrowedStr s) -> deserialize_template_str d = Err InvalidType) /\
  (d HintString = None -> deserialize_template_str d = Err FormatError).
Proof. exact c47_template_borrowed. Qed.
Print Assumptions C47_template_borrowed.

(** Whatever the format, as long as it gives back the strings written to it. *)
Theorem C47_roundtrip : forall R (allowed : data -> Prop) (write : str -> R) read, faithful allowed write read ->
  (forall S t s, admits S t s -> deserialize_ri_string S t (read (serialize write s)) = Ok s /\
     ((forall d, allowed d -> exists x, d = DBorrowedStr x) -> deserialize_ri_str S t (read (serialize write s)) = Ok s)) /\
  (forall s, crate_template s -> deserialize_template_string (read (serialize write s)) = Ok s /\
     ((forall d, allowed d -> exists x, d = DBorrowedStr x) -> deserialize_template_str (read (serialize write s)) = Ok s)).
Proof. exact @c47_roundtrip. Qed.
Print Assumptions C47_roundtrip.

(** A format that writes the string with a mark in front and reads it back as a borrowed string. *)
Example C47_ex1 : faithful (fun d => exists x, d = DBorrowedStr x) (fun s => 34 :: s)
  (fun r _ => match r with 34 :: s => Some (DBorrowedStr s) | _ => None end).
Proof. intros s h. exists (DBorrowedStr s). split; [reflexivity|]. split; [constructor|eauto]. Qed.
Example C47_ex2 :
  deserialize_ri_string UriSpec TIri (fun _ => Some (DString (lit "http://h/?q"))) = Ok (lit "http://h/?q") /\
  deserialize_ri_str UriSpec TIri (fun _ => Some (DString (lit "http://h/?q"))) = Err InvalidType /\
  deserialize_ri_string UriSpec TReference (fun _ => Some (DChar 47)) = Ok (lit "/") /\
  deserialize_ri_string UriSpec TIri (fun _ => Some (DStr (lit "h"))) =
    Err (Custom (lit "invalid IRI: expected an absolute IRI but got a relative IRI")) /\
  deserialize_template_string (fun _ => Some (DStr (lit "{x"))) =
    Err (Custom (lit "invalid URI template: expression not closed (at 0-th byte)")).
Proof. vm_compute. repeat split. Qed.
