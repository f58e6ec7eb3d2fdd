(** * Property C71: relative forms of an IRI resolve back to it.
    Specification: RelSpec.v, ConfineSpec.v, RfcResolve.v.  Model: MNormalize.v, MPath.v, MTrusted.v. *)
From Verif Require Import Base Chars Rfc3986 CompSpec RfcResolve PctSpec NormSpec ConfineSpec RelSpec.
From Verif Require Import MValidate MTrusted MFormat MPct MPath MNormalize PNorm8 PConfine PRel PInst.
Open Scope string_scope. Open Scope N_scope. Open Scope list_scope.

(** Each of the short forms, resolved against the base, gives the IRI back, to the letter. *)
Theorem C71_forms : forall S base B t T ref R, reads S base B -> defined (c_s B) = true -> reads S t T -> reads S ref R -> relative B T R ->
  exists n, resolve base ref = Ok n /\ display S n = Ok t.
Proof. exact c71_forms. Qed.
Print Assumptions C71_forms.
(** An IRI is the result of resolving some reference without scheme if and only if it is relativizable... *)
Theorem C71_exactly : forall S base B t T, reads S base B -> defined (c_s B) = true -> reads S t T ->
  ((exists ref R n, reads S ref R /\ defined (c_s R) = false /\ resolve base ref = Ok n /\ display S n = Ok t) <-> relativizable B T).
Proof. exact c71_iff. Qed.
Print Assumptions C71_exactly.
(** ... and then one of the short forms is a valid reference. *)
Theorem C71_exists : forall S base B t T, reads S base B -> defined (c_s B) = true -> reads S t T -> relativizable B T ->
  exists ref R, reads S ref R /\ defined (c_s R) = false /\ relative B T R.
Proof. exact c71_exists. Qed.
Print Assumptions C71_exists.

Definition base0 := lit "http://h/a/b/c?q".
Definition B0 := mkC (Some (lit "http")) (Some (lit "h")) (lit "/a/b/c") (Some (lit "q")) None.
Definition t0 := lit "http://h/a/x:y//z?r#f".
Definition T0 := mkC (Some (lit "http")) (Some (lit "h")) (lit "/a/x:y//z") (Some (lit "r")) (Some (lit "f")).
Example tidy0 : tidy T0 (lit "/a/x:y//z").
Proof. split; [apply (rds_of UriSpec); ev|reflexivity]. Qed.
Example up0 : relative B0 T0 (mkC None None (lit "../x:y//z") (Some (lit "r")) (Some (lit "f"))).
Proof.
  refine (rel_path B0 T0 _ (lit "/a/b/") (lit "/a/b/") 1 (lit "/a/") [] (lit "x:y//z") eq_refl eq_refl tidy0 _ _ _ _ eq_refl (or_introl eq_refl) _ _); try discriminate.
  - apply (dir_path B0 (lit "/a/b") (lit "c")); [reflexivity|]. out.
  - apply (rds_of UriSpec); ev.
  - apply (anc_up 0 (lit "/a/") (lit "/a/") (lit "b")); [|out]. apply anc_self. right. now exists (lit "/a").
  - right. discriminate.
Qed.
Example C71_forms_instance := C71_forms UriSpec base0 B0 t0 T0 (lit "../x:y//z?r#f") _ ltac:(rd) eq_refl ltac:(rd) ltac:(rd) up0.
Example C71_network_instance := C71_forms UriSpec base0 B0 t0 T0 (lit "//h/a/x:y//z?r#f") _ ltac:(rd) eq_refl ltac:(rd) ltac:(rd) (rel_network B0 T0 _ eq_refl eq_refl tidy0).
Example C71_root_instance := C71_forms UriSpec base0 B0 t0 T0 (lit "/a/x:y//z?r#f") _ ltac:(rd) eq_refl ltac:(rd) ltac:(rd) (rel_root B0 T0 _ (lit "a/x:y//z") eq_refl eq_refl tidy0 eq_refl).
Definition shown (S : Spec) (n : may NormalizationInput) : may str := do n <- n ; display S n.
Example C71_ex : shown UriSpec (resolve base0 (lit "../x:y//z?r#f")) = Ok t0 /\ shown UriSpec (resolve base0 (lit "//h/a/x:y//z?r#f")) = Ok t0 /\
  shown UriSpec (resolve base0 (lit "/a/x:y//z?r#f")) = Ok t0 /\
  (* without the last segments the path of the base cannot become empty, and rootless paths turn into rooted ones *)
  shown UriSpec (resolve (lit "s:a/b") (lit "..")) = Ok (lit "s:/") /\ shown UriSpec (resolve (lit "s:a/b") (lit "../c")) = Ok (lit "s:/c") /\
  shown UriSpec (resolve (lit "s:a") (lit ".")) = Ok (lit "s:") /\ shown UriSpec (resolve (lit "s:a/b/c") (lit "./../x:y")) = Ok (lit "s:a/x:y").
Proof. repeat split; ev. Qed.
(** Not every IRI of the same scheme has a relative form. *)
Example C71_none : ~ exists ref R n, reads UriSpec ref R /\ defined (c_s R) = false /\ resolve (lit "s:a/b") ref = Ok n /\ display UriSpec n = Ok (lit "s:c/b").
Proof.
  intros H. apply (C71_exactly UriSpec (lit "s:a/b") (mkC (Some (lit "s")) None (lit "a/b") None None) (lit "s:c/b") (mkC (Some (lit "s")) None (lit "c/b") None None) ltac:(rd) eq_refl ltac:(rd)) in H.
  destruct H as (_ & [(_ & E & _)|(p & [Hp Ep] & [X|(_ & _ & [[r Er]|(d & D & Hd & HD & X)])])]); try discriminate.
  - rewrite Er in Ep. unfold safe_path in Ep. cbn [c_a c_p] in Ep. destruct (starts_with (lit "//") (lit "/" ++ r)); discriminate.
  - assert (d = lit "a/") as ->.
    { destruct Hd as [dir last E N|Ha E|Ha N]; cbn [c_p c_a] in *; try discriminate.
      - destruct dir as [|c1 dir]; [discriminate E|]. injection E as E1 E. destruct dir as [|c2 dir]; [now subst|]. injection E as E2 E.
        destruct dir as [|c3 dir]; [discriminate E|]. injection E as E3 E. destruct dir; discriminate E.
      - elim N. right. now left. }
    assert (D = lit "a/") as -> by (apply (PPath5.rds_fun (lit "a/")); auto; apply (rds_of UriSpec); ev).
    destruct X as [X|(x & u & v & Nx & Ed & Ev)]; [discriminate|]. rewrite Ev in Ep. destruct x as [|c x]; [discriminate Ed|]. injection Ed as <- Ed.
    unfold safe_path in Ep. cbn [c_a c_p] in Ep. discriminate Ep.
Qed.
