(** * C62: histories of edits. *)
From Verif Require Import Base Chars Rfc3986 CompSpec RfcResolve NormSpec EditSpec HistSpec MValidate MTrusted MFormat MWriters MPct MPath MNormalize MEdit MHist PNorm8 PHist.
Open Scope string_scope. Open Scope N_scope. Open Scope list_scope.

(** Any list of edits of a valid string: no panic, the string stays valid for its type, and its components
    are those of the specification (HistSpec.v) after the same edits. *)
Theorem C62_history : forall debug S t es i C C', editable t = true -> new S t i = Ok i -> reads S i C -> history debug S t C es C' ->
  exists j, apply_edits debug S t es i = Ok j /\ new S t j = Ok j /\ reads S j C'.
Proof. exact edit_history. Qed.
Print Assumptions C62_history.
(** The specification defines every edit of every reference, apart from removing the password where the
    userinfo has no ":" (F5), with exactly one result. *)
Theorem C62_defined : forall S i C e, reads S i C ->
  match e with
  | ESetFragment f => opt_in (fragment S) f
  | ERemovePassword => forall u h o, parts S C (Some u) h o -> In 58 u
  | ENormalize _ => defined (c_s C) = true
  | _ => True
  end -> exists C', edited S C e C'.
Proof. exact edits_defined. Qed.
Print Assumptions C62_defined.
Theorem C62_unique : forall S i C e C1 C2, reads S i C -> edited S C e C1 -> edited S C e C2 -> C1 = C2.
Proof. exact edited_fun. Qed.
Print Assumptions C62_unique.
Example C62_ex :
  let es := [ESetFragment (Some (lit "%7e")); EReplaceHost (lit "EX%41") true; EClearPassword; ENormalize false; ERemovePassword; EReplaceHost (lit "[::1]") false;
             EReplaceHost (lit "x") true; ESetFragment None; EMask] in
  apply_edits false UriSpec TIri es (lit "HTTP://u:pw@h:80/a/../b") = Ok (lit "http://u@[::1]:80/b").
Proof. vm_compute. reflexivity. Qed.
Example C62_applies : exists C C', reads UriSpec (lit "HTTP://u:p@h/a/../b") C /\
  history true UriSpec TIri C [EClearPassword; ENormalize true; ESetFragment (Some (lit "f"))] C'.
Proof. exact history_applies. Qed.
