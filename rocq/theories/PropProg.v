(** * Property C64: programs that use the safe API only ever hold strings that belong to their types.
    Specification: CallSpec.v, HistSpec.v, Rfc3986.v.  Model: MProg.v, MCalls.v and the models they call. *)
From Verif Require Import Base Chars Rfc3986 Utf8 CompSpec RfcResolve NormSpec EditSpec HistSpec CallSpec BuildSpec MValidate MTrusted MNormalize MBuild MCalls MProg PBase PScan PNorm8 PCalls PProg.
Open Scope string_scope. Open Scope N_scope. Open Scope list_scope.

(** With debug assertions: whatever a program does (any number of constructions, conversions, edits,
    resolutions, normalizations and builds, in any order, with any arguments), each string it gets hold of
    passes the validation of its type. *)
Theorem C64_debug : forall pool, reach true (fun _ _ _ _ => True) (fun _ _ _ => True) pool ->
  Forall (fun v => new (v_spec v) (v_ty v) (v_str v) = Ok (v_str v)) pool.
Proof. exact (fun pool => program_valid true _ _ pool (or_introl eq_refl)). Qed.
Print Assumptions C64_debug.
(** Without: the same, if the program makes no damaging call (CallSpec.v) and builds from paths only. *)
Theorem C64_release_partial : forall pool, reach false careful careful_build pool ->
  Forall (fun v => new (v_spec v) (v_ty v) (v_str v) = Ok (v_str v)) pool.
Proof. exact (fun pool => program_valid false _ _ pool (or_intror (conj (fun S t i c H => H) (fun S t b H => H)))). Qed.
Print Assumptions C64_release_partial.
(** Every damaging call on every string of its type returns (or leaves) a string that is not of its type. *)
Theorem C64_damaging_refuted : forall S t i C c, new S (of_kind t) i = Ok i -> reads S i C -> damaging S t C c ->
  exists vs, results false S (of_kind t) i c = Ok vs /\ ~ Forall (fun v => new (v_spec v) (v_ty v) (v_str v) = Ok (v_str v)) vs.
Proof. exact damage. Qed.
Print Assumptions C64_damaging_refuted.
(** One call, to see the scope: which strings it returns. *)
Theorem C64_call : forall debug S t i C c vs, new S (of_kind t) i = Ok i -> reads S i C -> has_call S t c ->
  debug = true \/ ~ damaging S t C c -> results debug S (of_kind t) i c = Ok vs ->
  Forall (fun v => new (v_spec v) (v_ty v) (v_str v) = Ok (v_str v)) vs.
Proof. exact call_valid. Qed.
Print Assumptions C64_call.

(** A program: resolve, split off the fragment, convert it, mask and normalize. *)
Example C64_program : exists pool, reach true (fun _ _ _ _ => True) (fun _ _ _ => True) pool /\
  In (mkV UriSpec TIri (lit "http://u:pw@h/%7ec#f")) pool /\ In (mkV IriSpec TFragment (lit "f")) pool /\
  In (mkV UriSpec TIri (lit "http://u:@h/%7ec#f")) pool /\ In (mkV UriSpec TIri (lit "http://u:@h/~c#f")) pool.
Proof.
  eexists. split.
  - eapply r_call with (S := UriSpec) (t := TIri) (i := lit "http://u:@h/%7ec#f") (c := CNormalizeOwned false).
    + eapply r_call with (S := UriSpec) (t := TIri) (i := lit "http://u:pw@h/%7ec#f") (c := CMaskOwned).
      * eapply r_call with (S := UriSpec) (t := TFragment) (i := lit "f") (c := CAsIri).
        -- eapply r_call with (S := UriSpec) (t := TIri) (i := lit "http://u:pw@h/%7ec#f") (c := CToAbsoluteAndFragment).
           ++ eapply r_call with (S := UriSpec) (t := TReference) (i := lit "../%7ec#f") (c := CResolveOwned (lit "http://u:pw@h/a/b") NmNone).
              ** eapply r_new with (S := UriSpec) (t := TReference) (s := lit "../%7ec#f"); [|vm_compute; reflexivity].
                 eapply r_new with (S := UriSpec) (t := TAbsolute) (s := lit "http://u:pw@h/a/b"); [apply r_start|vm_compute; reflexivity].
              ** left. vm_compute. reflexivity.
              ** exact I.
              ** intros v [<-|[]]. right. left. vm_compute. reflexivity.
              ** exact I.
              ** vm_compute. reflexivity.
           ++ left. vm_compute. reflexivity.
           ++ reflexivity.
           ++ intros v [].
           ++ exact I.
           ++ vm_compute. reflexivity.
        -- right. left. vm_compute. reflexivity.
        -- reflexivity.
        -- intros v [].
        -- exact I.
        -- vm_compute. reflexivity.
      * cbn [app]. do 3 right. left. vm_compute. reflexivity.
      * exact I.
      * intros v [].
      * exact I.
      * vm_compute. reflexivity.
    + left. vm_compute. reflexivity.
    + right. reflexivity.
    + intros v [].
    + exact I.
    + vm_compute. reflexivity.
  - cbn [app In]. repeat split; vm_compute; auto 10.
Qed.
(** The hypotheses of the release theorem are met by an ordinary string: nothing to be careful about. *)
Example C64_careful : forall c, careful UriSpec TReference (lit "//u:p@h/a?b") c.
Proof.
  intros c k C E R D. injection E as <-. assert (V : new UriSpec TReference (lit "//u:p@h/a?b") = Ok (lit "//u:p@h/a?b")) by (vm_compute; reflexivity).
  assert (RC : reads UriSpec (lit "//u:p@h/a?b") (mkC None (Some (lit "u:p@h")) (lit "/a") (Some (lit "b")) None)) by (apply (reads_of_major UriSpec _ _ _ _ _ _ V); vm_compute; reflexivity).
  assert (P : parts UriSpec (mkC None (Some (lit "u:p@h")) (lit "/a") (Some (lit "b")) None) (Some (lit "u:p")) (lit "h") None).
  { split; [reflexivity|]. split; [apply userinfo_scan; reflexivity|]. split; [right; right; apply reg_name_scan; reflexivity|exact I]. }
  rewrite (PNorm7.reads_unique _ _ _ _ R RC) in D. destruct D as [q K|h o Q _|u x h o Q Hc _ _]; [discriminate| |];
    pose proof (parts_unique _ _ _ _ _ _ _ _ Q P) as U; [discriminate|]. injection U as U _ _. apply Hc. rewrite U. vm_compute. auto.
Qed.
Example C64_damage : let C := mkC None (Some (lit "%41@h")) [] None None in
  reads UriSpec (lit "//%41@h") C /\ damaging UriSpec KReference C CRemovePassword /\
  results false UriSpec TReference (lit "//%41@h") CRemovePassword = Ok [mkV UriSpec TReference (lit "//%4@h")].
Proof.
  split; [apply (reads_of_major UriSpec); vm_compute; reflexivity|]. split; [|vm_compute; reflexivity].
  apply (d_remove_triplet UriSpec KReference _ (lit "%4") 49 (lit "h") None).
  - split; [reflexivity|]. split; [apply userinfo_scan; reflexivity|]. split; [right; right; apply reg_name_scan; reflexivity|exact I].
  - vm_compute. intuition discriminate.
  - reflexivity.
  - intros K. apply userinfo_scan in K. discriminate.
Qed.
