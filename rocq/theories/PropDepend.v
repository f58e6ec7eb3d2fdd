(** * Property C67: what the result of a resolution depends on.
    Specification: DependSpec.v, ConfineSpec.v, RfcResolve.v.  Model: MPath.v, MNormalize.v. *)
From Verif Require Import Base Chars Rfc3986 CompSpec RfcResolve PctSpec NormSpec ConfineSpec DependSpec MValidate MTrusted MFormat MPct MPath MNormalize
  PNorm8 PDepend PInst.
Open Scope string_scope. Open Scope N_scope. Open Scope list_scope.

(** Bases that agree in what matters for a reference give the same text, in all normalization modes. *)
Theorem C67_depends : forall S base base' ref B B' R,
  reads S base B -> defined (c_s B) = true -> reads S base' B' -> defined (c_s B') = true -> reads S ref R ->
  agree R B B' -> exists n n', resolve base ref = Ok n /\ resolve base' ref = Ok n' /\
    forall mode, exists out, display S (set_mode n mode) = Ok out /\ display S (set_mode n' mode) = Ok out.
Proof. exact c67_depends. Qed.
Print Assumptions C67_depends.
(** And scheme, authority and query do matter wherever [agree] asks for them. *)
Theorem C67_needed : forall S base base' ref B B' R n n' out,
  reads S base B -> defined (c_s B) = true -> reads S base' B' -> defined (c_s B') = true -> reads S ref R ->
  resolve base ref = Ok n -> resolve base' ref = Ok n' -> display S n = Ok out -> display S n' = Ok out ->
  (defined (c_s R) = false -> c_s B = c_s B') /\ (defined (c_s R) = false -> defined (c_a R) = false -> c_a B = c_a B') /\
  (defined (c_s R) = false -> defined (c_a R) = false -> c_p R = [] -> defined (c_q R) = false -> c_q B = c_q B').
Proof. exact c67_needed. Qed.
Print Assumptions C67_needed.

Definition B1 := mkC (Some (lit "s")) None (lit "/a/../b/c") (Some (lit "q")) None.
Definition B2 := mkC (Some (lit "s")) None (lit "/a/../b/d:e") None (Some (lit "f")).
Definition R0 := mkC None None (lit "../%7ex") None None.
Example agree0 : agree R0 B1 B2.
Proof.
  apply (ag_relative R0 B1 B2 (lit "/a/../b/")); try reflexivity; [discriminate| |].
  - apply (dir_path B1 (lit "/a/../b") (lit "c")); [reflexivity|out].
  - apply (dir_path B2 (lit "/a/../b") (lit "d:e")); [reflexivity|out].
Qed.
Example C67_depends_instance := C67_depends UriSpec (lit "s:/a/../b/c?q") (lit "s:/a/../b/d:e#f") (lit "../%7ex") B1 B2 R0
  ltac:(rd) eq_refl ltac:(rd) eq_refl ltac:(rd) agree0.
Definition shown (S : Spec) (n : may NormalizationInput) (mode : NormalizationMode) : may str := do n <- n ; display S (set_mode n mode).
Example C67_ex : shown UriSpec (resolve (lit "s:/a/../b/c?q") (lit "../%7ex")) MDefault = Ok (lit "s:/~x") /\
  shown UriSpec (resolve (lit "s:/a/../b/d:e#f") (lit "../%7ex")) MDefault = Ok (lit "s:/~x") /\
  shown UriSpec (resolve (lit "s:/a/../b/c?q") (lit "#g")) MNone = Ok (lit "s:/a/../b/c?q#g") /\
  shown UriSpec (resolve (lit "s:/a/../b/d:e#f") (lit "#g")) MNone = Ok (lit "s:/a/../b/d:e#g").
Proof. repeat split; ev. Qed.
