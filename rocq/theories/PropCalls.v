(** * Property C63: the complete list of the calls that panic.  Specification: CallSpec.v, HistSpec.v,
    Rfc3986.v, CompSpec.v.  Model: MCalls.v and the models it calls. *)
From Verif Require Import Base Chars Rfc3986 Utf8 CompSpec RfcResolve NormSpec EditSpec HistSpec CallSpec MValidate MTrusted MNormalize MCalls PBase PScan PCalls.
Open Scope string_scope. Open Scope N_scope. Open Scope list_scope.

(** Every call on every string that its type accepts returns, except exactly those that [panicking] lists. *)
Theorem C63_panics_exact : forall debug S t i C c, new S (of_kind t) i = Ok i -> reads S i C -> has_call S t c ->
  (call_panics debug S t i c = true <-> panicking debug S t C c).
Proof. exact panics_exact. Qed.
Print Assumptions C63_panics_exact.
(** Without debug assertions a single call can panic: removing the password from a userinfo without ":" whose
    last character is not ASCII. *)
Theorem C63_release : forall S t i C c, new S (of_kind t) i = Ok i -> reads S i C -> has_call S t c ->
  (call_panics false S t i c = true <->
   c = CRemovePassword /\ exists u x h o, parts S C (Some (u ++ [x])) h o /\ ~ In 58 (u ++ [x]) /\ 128 <= x).
Proof. exact panics_release. Qed.
Print Assumptions C63_release.

(** Each of the six cases happens, and a neighbouring string or build is free of it. *)
Example C63_cases :
  call_panics true UriSpec KAbsolute (lit "x:y#") CQueryStr = true /\ call_panics true UriSpec KAbsolute (lit "x:y?#") CQueryStr = false /\
  call_panics true UriSpec KAbsolute (lit "x:y?#") CQueryTyped = true /\ call_panics false UriSpec KAbsolute (lit "x:y?#") CQueryTyped = false /\
  call_panics true UriSpec KReference (lit "//@[::1]") CRemovePassword = true /\ call_panics true UriSpec KReference (lit "//@h") CRemovePassword = false /\
  call_panics false IriSpec KReference (lit "//" ++ [233] ++ lit "@h") CRemovePassword = true /\ call_panics false IriSpec KReference (lit "//" ++ [233] ++ lit ":@h") CRemovePassword = false /\
  call_panics true UriSpec KIri (lit "x://%41@h") CRemovePassword = true /\ call_panics false UriSpec KIri (lit "x://%41@h") CRemovePassword = false /\
  call_panics true UriSpec KIri (lit "x://h#f") (CReplaceHost (lit "g") false) = true /\ call_panics true UriSpec KReference (lit "x://h#f") (CReplaceHost (lit "g") false) = false.
Proof. vm_compute. repeat split. Qed.
Example C63_hypotheses : new IriSpec (of_kind KReference) (lit "//" ++ [233] ++ lit "@h") = Ok (lit "//" ++ [233] ++ lit "@h") /\
  (let C := mkC None (Some ([233] ++ lit "@h")) [] None None in reads IriSpec (lit "//" ++ [233] ++ lit "@h") C /\
   panicking false IriSpec KReference C CRemovePassword) /\ has_call IriSpec KReference CRemovePassword.
Proof.
  assert (V : new IriSpec TReference (lit "//" ++ [233] ++ lit "@h") = Ok (lit "//" ++ [233] ++ lit "@h")) by (vm_compute; reflexivity).
  split; [exact V|]. split; [|exact I]. split; [apply (PNorm8.reads_of_major IriSpec _ None (Some ([233] ++ lit "@h")) [] None None V); vm_compute; reflexivity|].
  apply (p_remove_nonascii false IriSpec KReference _ [] 233 (lit "h") None); [|intros [K|[]]; discriminate|discriminate].
  split; [reflexivity|]. split; [apply userinfo_scan; reflexivity|]. split; [|exact I]. right. right. apply reg_name_scan. reflexivity.
Qed.
