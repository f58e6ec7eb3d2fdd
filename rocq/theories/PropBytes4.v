(** * Property C81: the whole interface on bytes: which calls panic, and what programs hold.
    C63 and C64 for the program as it runs: strings are searched and cut bytewise at offsets, with or without
    the memchr crate.  MBytes4.v models every call of the interface that way: [None] is the portable program,
    [Some m] the one with a memchr crate [m] that keeps its contract.
    Specification: CallSpec.v, HistSpec.v, Rfc3986.v, SearchSpec.v.  Model: MBytes4.v and the models it calls. *)
From Verif Require Import Base Chars Rfc3986 Utf8 CompSpec RfcResolve NormSpec EditSpec HistSpec CallSpec BuildSpec SearchSpec MValidate MTrusted MSearch MNormalize MBuild MCalls MProg MBytes MBytes4
  PBase PScan PNorm8 PSearch PCalls PProg PBytes5 PropBytes PropCalls PropProg.
Open Scope string_scope. Open Scope N_scope. Open Scope list_scope.

(** Every call on every string that its type accepts returns, except exactly those that [panicking] lists. *)
Theorem C81_panics_exact : forall m debug S t i C c, match m with Some m => memchr_contract m | None => True end ->
  y_new m S (of_kind t) i = Ok i -> reads S i C -> has_call S t c ->
  (y_call_panics m debug S t i c = true <-> panicking debug S t C c).
Proof. exact (fun m debug S t i C c Hm => y_panics_exact m Hm debug S t i C c). Qed.
Print Assumptions C81_panics_exact.
(** Without debug assertions a single call can panic: removing the password from a userinfo without ":" whose
    last character is not ASCII. *)
Theorem C81_release : forall m S t i C c, match m with Some m => memchr_contract m | None => True end ->
  y_new m S (of_kind t) i = Ok i -> reads S i C -> has_call S t c ->
  (y_call_panics m false S t i c = true <->
   c = CRemovePassword /\ exists u x h o, parts S C (Some (u ++ [x])) h o /\ ~ In 58 (u ++ [x]) /\ 128 <= x).
Proof. exact (fun m S t i C c Hm => y_panics_release m Hm S t i C c). Qed.
Print Assumptions C81_release.
(** With debug assertions, whatever a program does, each string it gets hold of passes the validation of its
    type. *)
Theorem C81_debug : forall m pool, match m with Some m => memchr_contract m | None => True end ->
  y_reach m true (fun _ _ _ _ => True) (fun _ _ _ => True) pool ->
  Forall (fun v => y_new m (v_spec v) (v_ty v) (v_str v) = Ok (v_str v)) pool.
Proof. exact (fun m pool Hm H => y_valid m Hm pool (y_program_valid m Hm true _ _ pool (or_introl eq_refl) H)). Qed.
Print Assumptions C81_debug.
(** Without: the same, if the program makes no damaging call (CallSpec.v) and builds from paths only. *)
Theorem C81_careful_partial : forall m pool, match m with Some m => memchr_contract m | None => True end ->
  y_reach m false careful careful_build pool ->
  Forall (fun v => y_new m (v_spec v) (v_ty v) (v_str v) = Ok (v_str v)) pool.
Proof. exact (fun m pool Hm H => y_valid m Hm pool (y_program_valid m Hm false _ _ pool (or_intror (conj (fun S t i c H => H) (fun S t b H => H))) H)). Qed.
Print Assumptions C81_careful_partial.
Theorem C81_damaging_refuted : forall m S t i C c, match m with Some m => memchr_contract m | None => True end ->
  y_new m S (of_kind t) i = Ok i -> reads S i C -> damaging S t C c ->
  exists vs, y_results m false S (of_kind t) i c = Ok vs /\ ~ Forall (fun v => y_new m (v_spec v) (v_ty v) (v_str v) = Ok (v_str v)) vs.
Proof. exact (fun m S t i C c Hm => y_damage m Hm S t i C c). Qed.
Print Assumptions C81_damaging_refuted.
Theorem C81_call : forall m debug S t i C c vs, match m with Some m => memchr_contract m | None => True end ->
  y_new m S (of_kind t) i = Ok i -> reads S i C -> has_call S t c ->
  debug = true \/ ~ damaging S t C c -> y_results m debug S (of_kind t) i c = Ok vs ->
  Forall (fun v => y_new m (v_spec v) (v_ty v) (v_str v) = Ok (v_str v)) vs.
Proof. exact (fun m debug S t i C c vs Hm => y_call_valid m Hm debug S t i C c vs). Qed.
Print Assumptions C81_call.
(** Both search configurations return the same strings and panic in the same cases. *)
Theorem C81_same : forall m debug S t i C c, memchr_contract m ->
  y_new (Some m) S (of_kind t) i = Ok i -> reads S i C -> has_call S t c ->
  y_results (Some m) debug S (of_kind t) i c = y_results None debug S (of_kind t) i c /\
  y_call_panics (Some m) debug S t i c = y_call_panics None debug S t i c.
Proof. exact (fun m debug S t i C c Hm => y_same (Some m) Hm debug S t i C c). Qed.
Print Assumptions C81_same.

Example C81_cases : forall m, m = None \/ m = Some crate78 ->
  y_call_panics m true UriSpec KAbsolute (lit "x:y#") CQueryStr = true /\ y_call_panics m true UriSpec KAbsolute (lit "x:y?#") CQueryStr = false /\
  y_call_panics m true UriSpec KAbsolute (lit "x:y?#") CQueryTyped = true /\ y_call_panics m false UriSpec KAbsolute (lit "x:y?#") CQueryTyped = false /\
  y_call_panics m true UriSpec KReference (lit "//@[::1]") CRemovePassword = true /\ y_call_panics m true UriSpec KReference (lit "//@h") CRemovePassword = false /\
  y_call_panics m false IriSpec KReference (lit "//" ++ [233] ++ lit "@h") CRemovePassword = true /\ y_call_panics m false IriSpec KReference (lit "//" ++ [233] ++ lit ":@h") CRemovePassword = false /\
  y_call_panics m true UriSpec KIri (lit "x://%41@h") CRemovePassword = true /\ y_call_panics m false UriSpec KIri (lit "x://%41@h") CRemovePassword = false /\
  y_call_panics m true UriSpec KIri (lit "x://h#f") (CReplaceHost (lit "g") false) = true /\ y_call_panics m true UriSpec KReference (lit "x://h#f") (CReplaceHost (lit "g") false) = false.
Proof. intros m [-> | ->]; vm_compute; repeat split. Qed.
Example C81_hypotheses := C81_panics_exact (Some crate78) false IriSpec KReference (lit "//" ++ [233] ++ lit "@h") _ CRemovePassword C78_applies
  ltac:(vm_compute; reflexivity) (proj1 (proj1 (proj2 C63_hypotheses))) I.
(** A program: resolve, split off the fragment, convert it, mask and normalize; the strings are not ASCII. *)
Example C81_program : forall m, m = None \/ m = Some crate78 -> exists pool, y_reach m true (fun _ _ _ _ => True) (fun _ _ _ => True) pool /\
  In (mkV IriSpec TIri (lit "http://u:" ++ [233] ++ lit "@h/%7e" ++ [12354] ++ lit "#f" ++ [233])) pool /\ In (mkV IriSpec TFragment (lit "f" ++ [233])) pool /\
  In (mkV UriSpec TFragment (lit "f%C3%A9")) pool /\
  In (mkV IriSpec TIri (lit "http://u:@h/%7e" ++ [12354] ++ lit "#f" ++ [233])) pool /\ In (mkV IriSpec TIri (lit "http://u:@h/~" ++ [12354] ++ lit "#f" ++ [233])) pool.
Proof.
  intros m Hm. eexists. split.
  - eapply y_invoke with (S := IriSpec) (t := TIri) (i := lit "http://u:@h/%7e" ++ [12354] ++ lit "#f" ++ [233]) (c := CNormalizeOwned false).
    + eapply y_invoke with (S := IriSpec) (t := TIri) (i := lit "http://u:" ++ [233] ++ lit "@h/%7e" ++ [12354] ++ lit "#f" ++ [233]) (c := CMaskOwned).
      * eapply y_invoke with (S := IriSpec) (t := TFragment) (i := lit "f" ++ [233]) (c := CMapToUriOwned).
        -- eapply y_invoke with (S := IriSpec) (t := TIri) (i := lit "http://u:" ++ [233] ++ lit "@h/%7e" ++ [12354] ++ lit "#f" ++ [233]) (c := CToAbsoluteAndFragment).
           ++ eapply y_invoke with (S := IriSpec) (t := TReference) (i := lit "../%7e" ++ [12354] ++ lit "#f" ++ [233]) (c := CResolveOwned (lit "http://u:" ++ [233] ++ lit "@h/a/b") NmNone).
              ** eapply y_make with (S := IriSpec) (t := TReference) (s := lit "../%7e" ++ [12354] ++ lit "#f" ++ [233]); [|destruct Hm as [-> | ->]; vm_compute; reflexivity].
                 eapply y_make with (S := IriSpec) (t := TAbsolute) (s := lit "http://u:" ++ [233] ++ lit "@h/a/b"); [apply y_start|destruct Hm as [-> | ->]; vm_compute; reflexivity].
              ** left. vm_compute. reflexivity.
              ** exact I.
              ** intros v [<-|[]]. right. left. vm_compute. reflexivity.
              ** exact I.
              ** destruct Hm as [-> | ->]; vm_compute; reflexivity.
           ++ left. vm_compute. reflexivity.
           ++ reflexivity.
           ++ intros v [].
           ++ exact I.
           ++ destruct Hm as [-> | ->]; vm_compute; reflexivity.
        -- right. left. vm_compute. reflexivity.
        -- reflexivity.
        -- intros v [].
        -- exact I.
        -- destruct Hm as [-> | ->]; vm_compute; reflexivity.
      * cbn [app]. do 3 right. left. vm_compute. reflexivity.
      * exact I.
      * intros v [].
      * exact I.
      * destruct Hm as [-> | ->]; vm_compute; reflexivity.
    + left. vm_compute. reflexivity.
    + right. reflexivity.
    + intros v [].
    + exact I.
    + destruct Hm as [-> | ->]; vm_compute; reflexivity.
  - cbn [app In]. repeat split; vm_compute; auto 10.
Qed.
Example C81_careful_applies := C64_careful.
Example C81_damage : let C := mkC None (Some (lit "%41@h")) [] None None in
  reads UriSpec (lit "//%41@h") C /\ damaging UriSpec KReference C CRemovePassword /\
  y_results (Some crate78) false UriSpec TReference (lit "//%41@h") CRemovePassword = Ok [mkV UriSpec TReference (lit "//%4@h")].
Proof. destruct C64_damage as (R & D & _). split; [exact R|]. split; [exact D|vm_compute; reflexivity]. Qed.
Example C81_damage_instance := let H := C81_damage in
  C81_damaging_refuted (Some crate78) UriSpec KReference (lit "//%41@h") _ CRemovePassword C78_applies ltac:(vm_compute; reflexivity) (proj1 H) (proj1 (proj2 H)).
Example C81_same_instance := C81_same crate78 true UriSpec KReference (lit "//%41@h") _ CRemovePassword C78_applies ltac:(vm_compute; reflexivity) (proj1 C81_damage) I.
