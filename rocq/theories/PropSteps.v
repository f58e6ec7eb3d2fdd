(** * C61: resolving step by step. *)
From Verif Require Import Base Chars Rfc3986 Utf8 CompSpec RfcResolve NormSpec StepSpec MValidate MTrusted MFormat MPct MPath MNormalize PNorm8 PSteps PSteps2.
Open Scope string_scope. Open Scope N_scope. Open Scope list_scope.

(** Resolving [ref1], whose path ends with "/", and then the relative path (with query and fragment)
    [ref2] against the result, is resolving the concatenation.  [ref1] may have any components.  If
    [ref2] has neither path nor query it keeps the query of the first result, so [ref1] must have none. *)
Theorem C61_steps : forall S base ref1 ref2 B R1 R2 x, reads S base B -> defined (c_s B) = true -> reads S ref1 R1 -> reads S ref2 R2 ->
  c_p R1 = x ++ lit "/" -> defined (c_s R2) = false -> defined (c_a R2) = false -> (forall w, c_p R2 <> lit "/" ++ w) -> (c_p R2 = [] -> defined (c_q R2) = false -> c_q R1 = None) ->
  let ref := recompose (c_s R1) (c_a R1) (c_p R1 ++ c_p R2) (c_q R2) (c_f R2) in
  IRI_reference S ref /\ exists n1 out1 n2 n out, resolve base ref1 = Ok n1 /\ display S n1 = Ok out1 /\ resolve out1 ref2 = Ok n2 /\ display S n2 = Ok out /\
  resolve base ref = Ok n /\ display S n = Ok out.
Proof. exact two_steps. Qed.
Print Assumptions C61_steps.
Example C61_applies : reads UriSpec (lit "s:/a/b") (mkC (Some (lit "s")) None (lit "/a/b") None None) /\ reads UriSpec (lit "..//") (mkC None None (lit "..//") None None) /\
  reads UriSpec (lit "../%2e/c?q") (mkC None None (lit "../%2e/c") (Some (lit "q")) None) /\ lit "..//" = lit "../" ++ lit "/" /\ forall w, lit "../%2e/c" <> lit "/" ++ w.
Proof. split; [|split; [|split; [|split; [reflexivity|discriminate]]]]; apply reads_of_major; vm_compute; reflexivity. Qed.
Example C61_ex :
  let there b r := do n <- resolve b r ; display UriSpec n in
  there (lit "s:/a/b") (lit "..//") = Ok (lit "s:/.//") /\ there (lit "s:/.//") (lit "../%2e/c?q") = Ok (lit "s:/c?q") /\
  there (lit "s:/a/b") (lit "..//../%2e/c?q") = Ok (lit "s:/c?q").
Proof. vm_compute. auto. Qed.
(** A path that does not end with "/" is a different matter. *)
Example C61_no_slash :
  let there b r := do n <- resolve b r ; display UriSpec n in
  (do x <- there (lit "s:/a/b") (lit "c") ; there x (lit "d")) = Ok (lit "s:/a/d") /\ there (lit "s:/a/b") (lit "cd") = Ok (lit "s:/a/cd").
Proof. vm_compute. auto. Qed.

(** Any two references: resolving one after the other is resolving their composition (StepSpec.v), which
    is a valid reference and exists. *)
Theorem C61_composition : forall S base ref1 ref2 B R1 R2 R, reads S base B -> defined (c_s B) = true -> reads S ref1 R1 -> reads S ref2 R2 -> composition R1 R2 R ->
  exists ref n1 out1 n2 n out, reads S ref R /\ resolve base ref1 = Ok n1 /\ display S n1 = Ok out1 /\ resolve out1 ref2 = Ok n2 /\ display S n2 = Ok out /\
  resolve base ref = Ok n /\ display S n = Ok out.
Proof. exact compose_steps. Qed.
Print Assumptions C61_composition.
Theorem C61_composition_exists : forall R1 R2, exists R, composition R1 R2 R.
Proof. exact composition_total. Qed.
Print Assumptions C61_composition_exists.
Example C61_composition_hypotheses :
  composition (mkC None None (lit "c/%2e.") None None) (mkC None None (lit "d") None (Some (lit "f"))) (mkC None None (lit "c/%2e./d") None (Some (lit "f"))) /\
  composition (mkC None None (lit "../c/e") (Some (lit "q")) None) (mkC None None (lit "d") None None) (mkC None None (lit "../c/d") None None).
Proof.
  split.
  - exists (lit "c/%2e./"). split.
    + apply (ad_parent (lit "c/%2e.") (lit "%2e.")); [exists (lit "c/"); split; [reflexivity|split; [vm_compute; intuition discriminate|right; now exists (lit "c")]]|].
      exists (lit "%2e"), (lit "."). split; [reflexivity|split; [right; right; reflexivity|left; reflexivity]].
    + apply (pt_rel_path (mkC None None (lit "c/%2e./") None None) (mkC None None (lit "d") None (Some (lit "f"))) (lit "c/%2e./d")); [reflexivity|reflexivity|discriminate|discriminate|].
      apply (merge_last false (lit "c/%2e./") (lit "d") (lit "c/%2e.") []); [intros (E & _); discriminate|reflexivity|intros []].
  - exists (lit "../c/e"). split.
    + apply ad_same. intros seg L. assert (seg = lit "e") as ->.
      { apply (last_unique (lit "../c/e") seg (lit "e") L). exists (lit "../c/"). split; [reflexivity|split; [vm_compute; intuition discriminate|right; now exists (lit "../c")]]. }
      intros (a & b & E & A & B). destruct A as [A|[A|A]], B as [B|[B|B]]; rewrite A, B in E; discriminate.
    + apply (pt_rel_path (mkC None None (lit "../c/e") (Some (lit "q")) None) (mkC None None (lit "d") None None) (lit "../c/d")); [reflexivity|reflexivity|discriminate|discriminate|].
      apply (merge_last false (lit "../c/e") (lit "d") (lit "../c") (lit "e")); [intros (E & _); discriminate|reflexivity|vm_compute; intuition discriminate].
Qed.
Example C61_composition_ex :
  let there b r := do n <- resolve b r ; display UriSpec n in
  (do x <- there (lit "s:/a/b") (lit "c/%2e.") ; there x (lit "d#f")) = Ok (lit "s:/a/d#f") /\ there (lit "s:/a/b") (lit "c/%2e./d#f") = Ok (lit "s:/a/d#f") /\
  there (lit "s:/a/b") (lit "d#f") = Ok (lit "s:/a/d#f") /\
  (do x <- there (lit "s:/a/b/c") (lit "..") ; there x (lit "d")) = Ok (lit "s:/a/d") /\ there (lit "s:/a/b/c") (lit "../d") = Ok (lit "s:/a/d") /\
  there (lit "s:/a/b/c") (lit "d") = Ok (lit "s:/a/b/d").
Proof. vm_compute. auto 10. Qed.
