(** * Property C82: running out of memory.
    The allocator is arbitrary: it may refuse any request of any call (OomSpec.v).
    Specification: OomSpec.v, CallSpec.v, HistSpec.v.  Model: MOom.v and the models it calls. *)
From Verif Require Import Base Chars Rfc3986 Utf8 CompSpec RfcResolve NormSpec EditSpec HistSpec CallSpec BuildSpec OomSpec MValidate MTrusted MFormat MWriters MNormalize MEdit MEncode MBuild MCalls MProg MOom
  PBase PScan PNorm8 PCalls PProg POom PInst PropCalls PropProg.
Open Scope string_scope. Open Scope N_scope. Open Scope list_scope.

(** A fallible call panics exactly when it does so with enough memory (C63).  Otherwise it returns the
    same string as with enough memory, or, if a request was refused, the error, and then a string edited in
    place is as before.  The exception: masking a string without a userinfo. *)
Theorem C82_call_partial : forall mem debug S t i C c, new S (of_kind t) i = Ok i -> reads S i C -> has_call S t c -> fallible c ->
  (panicking debug S t C c -> m_results mem debug S (of_kind t) i c = Panic) /\
  (~ panicking debug S t C c -> exists v, results debug S (of_kind t) i c = Ok [v] /\
    (m_results mem debug S (of_kind t) i c = Ok (Done [v]) \/
     (exists k len n, mem k len n = false) /\
     (m_results mem debug S (of_kind t) i c = Ok (NoMemory (if in_place c then [mkV S (of_kind t) i] else [])) \/
      c = CMaskOwned /\ (forall u h o, ~ parts S C (Some u) h o) /\ m_results mem debug S (of_kind t) i c = Panic))).
Proof. exact call_mem. Qed.
Print Assumptions C82_call_partial.
(** The exception: every string without a userinfo; [try_to_dedicated_string] does not report the error but
    aborts the process (F15). *)
Theorem C82_mask_refuted : forall mem debug S t i C, reads S i C -> (forall u h o, ~ parts S C (Some u) h o) ->
  mem 0%nat 0%nat (blen i) = false -> m_results mem debug S (of_kind t) i CMaskOwned = Panic.
Proof. exact mask_aborts. Qed.
Print Assumptions C82_mask_refuted.
(** If strings may have [n] bytes, a call succeeds exactly when its result has no more: no intermediate result
    is longer. *)
Theorem C82_limit : forall n debug S t i C c, new S (of_kind t) i = Ok i -> reads S i C -> has_call S t c -> fallible c -> ~ panicking debug S t C c ->
  (c = CMaskOwned -> exists u h o, parts S C (Some u) h o) -> (in_place c = true \/ c = CEncodeIntoUri -> (blen i <= n)%nat) ->
  exists v, results debug S (of_kind t) i c = Ok [v] /\
    ((blen (v_str v) <= n)%nat -> m_results (limit n) debug S (of_kind t) i c = Ok (Done [v])) /\
    ((n < blen (v_str v))%nat -> m_results (limit n) debug S (of_kind t) i c = Ok (NoMemory (if in_place c then [mkV S (of_kind t) i] else []))).
Proof. exact call_limit. Qed.
Print Assumptions C82_limit.
(** The same for built strings. *)
Theorem C82_build : forall debug S t x s, built_to_dedicated_string S debug t x = Ok s ->
  (forall mem, m_built mem debug S t x = Ok s \/ (exists k len n, mem k len n = false) /\ m_built mem debug S t x = Err AllocFailed) /\
  (forall n, ((blen s <= n)%nat -> m_built (limit n) debug S t x = Ok s) /\ ((n < blen s)%nat -> m_built (limit n) debug S t x = Err AllocFailed)).
Proof. exact build_mem. Qed.
Print Assumptions C82_build.
(** [try_append_to_string]: what was there stays, and a part of the text follows. *)
Theorem C82_append : forall A mem dest (d : W A) x, text d = Ok x ->
  m_append mem dest d = (Ok tt, dest ++ x) \/
  exists y z, x = y ++ z /\ m_append mem dest d = (Err AllocFailed, dest ++ y) /\ exists k n, mem k (blen (dest ++ y)) n = false.
Proof. exact @append_mem. Qed.
Print Assumptions C82_append.
Theorem C82_append_limit : forall A n dest (d : W A) x, text d = Ok x -> (blen dest <= n)%nat ->
  ((blen (dest ++ x) <= n)%nat -> m_append (limit n) dest d = (Ok tt, dest ++ x)) /\
  ((n < blen (dest ++ x))%nat -> exists y z, x = y ++ z /\ (blen (dest ++ y) <= n)%nat /\ m_append (limit n) dest d = (Err AllocFailed, dest ++ y)).
Proof. exact @append_limit. Qed.
Print Assumptions C82_append_limit.
(** A program whose calls may run out of memory at any time gets hold of no string that it could not have
    with enough memory; so all of them are of their types (C64). *)
Theorem C82_program : forall debug allowed allowed_build pool, m_reach debug allowed allowed_build pool ->
  exists pool', reach debug allowed allowed_build pool' /\ forall v, In v pool <-> In v pool'.
Proof. exact program_same. Qed.
Print Assumptions C82_program.
Theorem C82_program_valid : forall debug (allowed : Spec -> ty -> str -> call -> Prop) (allowed_build : Spec -> ty -> Builder -> Prop) pool,
  (debug = true \/ (forall S t i c, allowed S t i c -> careful S t i c) /\ (forall S t b, allowed_build S t b -> careful_build S t b)) ->
  m_reach debug allowed allowed_build pool -> Forall (fun v => new (v_spec v) (v_ty v) (v_str v) = Ok (v_str v)) pool.
Proof. exact m_valid. Qed.
Print Assumptions C82_program_valid.

Definition third : memory := fun k _ _ => negb (Nat.eqb k 2).
Example C82_ex : 
  m_results third true UriSpec TIri (lit "HTTP://h/a/../b") (CNormalizeOwned false) = Ok (NoMemory []) /\
  m_results (limit 10) true UriSpec TIri (lit "HTTP://h/a/../b") (CNormalizeOwned false) = Ok (Done [mkV UriSpec TIri (lit "http://h/b")]) /\
  m_results (limit 9) true UriSpec TIri (lit "HTTP://h/a/../b") (CNormalizeOwned false) = Ok (NoMemory []) /\
  m_results (limit 6) true UriSpec TReference (lit "//h/a") (CReplaceHost (lit "g.f") false) = Ok (NoMemory [mkV UriSpec TReference (lit "//h/a")]) /\
  m_results (limit 7) true UriSpec TReference (lit "//h/a") (CReplaceHost (lit "g.f") false) = Ok (Done [mkV UriSpec TReference (lit "//g.f/a")]) /\
  m_results (limit 6) true IriSpec TReference (lit "a" ++ [233]) CEncodeInline = Ok (NoMemory [mkV IriSpec TReference (lit "a" ++ [233])]) /\
  m_results (limit 7) true IriSpec TReference (lit "a" ++ [233]) CEncodeInline = Ok (Done [mkV IriSpec TReference (lit "a%C3%A9")]) /\
  m_results (limit 6) true UriSpec TReference (lit "//u:p@h") CMaskOwned = Ok (Done [mkV UriSpec TReference (lit "//u:@h")]) /\
  m_results (limit 5) true UriSpec TReference (lit "//u:p@h") CMaskOwned = Ok (NoMemory []) /\
  m_results (limit 2) true UriSpec TReference (lit "//h") CMaskOwned = Panic.
Proof. vm_compute. repeat split. Qed.
Example C82_call_instance := C82_call_partial third true UriSpec KReference (lit "//u:p@h") (mkC None (Some (lit "u:p@h")) [] None None) CMaskOwned ltac:(ev) ltac:(rd) I I.
Example C82_mask_applies : reads UriSpec (lit "a") (mkC None None (lit "a") None None) /\ (forall u h o, ~ parts UriSpec (mkC None None (lit "a") None None) (Some u) h o) /\ limit 0%nat 0%nat 0%nat (blen (lit "a")) = false.
Proof. split; [rd|]. split; [|reflexivity]. intros u h o (K & _). discriminate. Qed.
Example C82_mask_instance := let H := C82_mask_applies in C82_mask_refuted (limit 0%nat) true UriSpec KReference (lit "a") _ (proj1 H) (proj1 (proj2 H)) (proj2 (proj2 H)).
Example C82_limit_instance := C82_limit 7 true UriSpec KReference (lit "//h/a") (mkC None (Some (lit "h")) (lit "/a") None None) (CReplaceHost (lit "g.f") false)
  ltac:(ev) ltac:(rd) I I ltac:(intros K; inversion K; discriminate) ltac:(discriminate) ltac:(intros _; vm_compute; repeat constructor).
Example C82_build_applies : match build UriSpec TReference (b_steps [OpHost (lit "h"); OpPath (lit "/a")]) with
  | Ok x => built_to_dedicated_string UriSpec true TReference x = Ok (lit "//h/a") /\ m_built (limit 4) true UriSpec TReference x = Err AllocFailed /\ m_built (limit 5) true UriSpec TReference x = Ok (lit "//h/a")
  | _ => False end.
Proof. vm_compute. auto. Qed.
Example C82_append_ex : m_append (limit 4) (lit "ab") ([lit "c"; lit "de"], Ret tt) = (Err AllocFailed, lit "abc") /\ m_append (limit 5) (lit "ab") ([lit "c"; lit "de"], Ret tt) = (Ok tt, lit "abcde").
Proof. vm_compute. auto. Qed.
(** A program that fails to replace a host twice and then succeeds. *)
Example C82_program_ex : exists pool, m_reach true (fun _ _ _ _ => True) (fun _ _ _ => True) pool /\
  In (mkV UriSpec TReference (lit "//g.f/a")) pool.
Proof.
  eexists. split.
  - eapply (m_call true _ _ (limit 7)) with (S := UriSpec) (t := TReference) (i := lit "//h/a") (c := CReplaceHost (lit "g.f") false); [| | | | |left; vm_compute; reflexivity].
    + eapply (m_call true _ _ (limit 6)) with (S := UriSpec) (t := TReference) (i := lit "//h/a") (c := CReplaceHost (lit "g.f") false); [| | | | |right; vm_compute; reflexivity].
      * eapply (m_new true _ _ [] UriSpec TReference (lit "//h/a")); [apply m_start|vm_compute; reflexivity].
      * left. reflexivity.
      * exact I.
      * intros v [].
      * exact I.
    + left. reflexivity.
    + exact I.
    + intros v [].
    + exact I.
  - left. reflexivity.
Qed.
