(** * Property C80: the builder works on bytes, with the same results.
    The builder validates its fields bytewise, with or without the memchr crate, classifies the path by the
    bytes of the normalized text and cuts references at byte positions.  MBytes3.v models it that way:
    [None] is the portable program, [Some m] the one with a memchr crate [m] that keeps its contract.
    Specification: BuildSpec.v, EditSpec.v, NormSpec.v, Rfc3986.v, SearchSpec.v.  Model: MBytes3.v.
    [editable t]: [t] is one of the four types that can be built. *)
From Verif Require Import Base Chars Rfc3986 Utf8 CompSpec RfcResolve PctSpec NormSpec EditSpec SearchSpec MValidate MTrusted MFormat MSearch MNormalize MEdit MBuild MBytes MBytes3
  BuildSpec PSearch PBytes4 PBuild2 PInst PropBytes PropBuild.
Open Scope string_scope. Open Scope N_scope. Open Scope list_scope.

(** Without normalization: what is accepted, and what is written (see C25 for the defect F8: the
    characters of the path are not checked). *)
Theorem C80_exact : forall m debug S t b, match m with Some m => memchr_contract m | None => True end ->
  editable t = true -> values_ok b -> b_normalize b = false ->
  let C := requested b in let i := recompose (c_s C) (c_a C) (c_p C) (c_q C) (c_f C) in
  ((exists x, y_build m S t b = Ok x) <-> parts_ok S b /\ path_shape b /\ fits t C) /\
  (forall x, y_build m S t b = Ok x -> text (y_built_display m S x) = Ok i /\
     (new S t i = Ok i -> y_built_to_dedicated_string m S debug t x = Ok i) /\
     (new S t i <> Ok i -> y_built_to_dedicated_string m S debug t x = if debug then Panic else Ok i)).
Proof. exact (fun m debug S t b Hm => y_exact m Hm S debug t b). Qed.
Print Assumptions C80_exact.
(** With normalization, for every path whose percent-encoding is well formed. *)
Theorem C80_normalize_exact : forall m S t b, match m with Some m => memchr_contract m | None => True end ->
  editable t = true -> values_ok b -> b_normalize b = true -> pct_wf (b_path b) ->
  ((exists x, y_build m S t b = Ok x) <-> parts_ok S b /\ norm_shape b /\ fits t (requested b)) /\
  (forall x, y_build m S t b = Ok x -> exists T, comps_normal S (negb (defined (b_scheme b))) (requested b) T /\
    (~ collapses S b -> text (y_built_display m S x) = Ok (unparse T)) /\
    (collapses S b -> exists w, pct_normal S (b_path b) w /\ text (y_built_display m S x) = Ok (recompose None None w (c_q T) (c_f T)))).
Proof. exact (fun m S t b Hm => y_norm_exact m Hm S t b). Qed.
Print Assumptions C80_normalize_exact.
(** No cut or search of [build] panics. *)
Theorem C80_total : forall m S t b, match m with Some m => memchr_contract m | None => True end ->
  b_normalize b = false \/ pct_wf (b_path b) -> (exists x, y_build m S t b = Ok x) \/ (exists e, y_build m S t b = Err e).
Proof. exact (fun m S t b Hm => y_total m Hm S t b). Qed.
Print Assumptions C80_total.
Theorem C80_ensure : forall m S b x y t, match m with Some m => memchr_contract m | None => True end ->
  pct_wf (b_path b) -> y_build m S t b = Ok x ->
  path_normal S false (defined (option_map authority_text (b_authority b))) (b_path b) y -> exists r,
  y_built_ensure m x = Ok r /\ (r = true <-> ~ (b_authority b = None /\ starts_with (lit "//") y = true)).
Proof. exact (fun m S b x y t Hm => y_ensure m Hm S b x y t). Qed.
Print Assumptions C80_ensure.
(** A builder made from a reference builds this reference again. *)
Theorem C80_from : forall m debug S i C t, match m with Some m => memchr_contract m | None => True end ->
  reads S i C -> editable t = true -> fits t C -> exists b x,
  y_builder_from m i = Ok b /\ y_build m S t b = Ok x /\ text (y_built_display m S x) = Ok i /\ y_built_to_dedicated_string m S debug t x = Ok i.
Proof. exact (fun m debug S i C t Hm => y_from m Hm S debug i C t). Qed.
Print Assumptions C80_from.
(** The same request gives the same result, or the same error, in both configurations. *)
Theorem C80_same : forall m S t b, memchr_contract m -> b_normalize b = false \/ pct_wf (b_path b) ->
  y_build (Some m) S t b = y_build None S t b.
Proof. exact (fun m S t b Hm H => eq_trans (y_build_eq (Some m) Hm S t b H) (eq_sym (y_build_eq None I S t b H))). Qed.
Print Assumptions C80_same.
(** [from_prefixed] of fragments and queries. *)
Theorem C80_from_prefixed : forall S s,
  (forall f, s = lit "#" ++ f -> fragment S f -> y_from_prefixed (b_validate_fragment S) HASH InvalidFragment s = Ok f) /\
  ((forall f, s = lit "#" ++ f -> ~ fragment S f) -> exists e, y_from_prefixed (b_validate_fragment S) HASH InvalidFragment s = Err e) /\
  (forall q, s = lit "?" ++ q -> query S q -> y_from_prefixed (b_validate_query S) QMARK InvalidQuery s = Ok q) /\
  ((forall q, s = lit "?" ++ q -> ~ query S q) -> exists e, y_from_prefixed (b_validate_query S) QMARK InvalidQuery s = Err e).
Proof. exact y_prefixed. Qed.
Print Assumptions C80_from_prefixed.

Definition ops80 : list setter :=
  [OpScheme (lit "HTTP"); OpHost (lit "EX" ++ [233] ++ lit "mple"); OpUserinfo (UiUserPass (lit "u" ++ [252]) (Some (lit "p:w")));
   OpPort (PortString (lit "80")); OpPath (lit "/a/" ++ [12354] ++ lit "/../b%7e"); OpQuery (lit "q" ++ [233])].
Example C80_ex : forall m, m = None \/ m = Some crate78 -> let b := b_steps ops80 in
  match y_build m IriSpec TIri b with Ok x => text (y_built_display m IriSpec x) | _ => Panic end =
    Ok (lit "HTTP://u" ++ [252] ++ lit ":p:w@EX" ++ [233] ++ lit "mple:80/a/" ++ [12354] ++ lit "/../b%7e?q" ++ [233]) /\
  match y_build m IriSpec TIri (b_set_normalize b true) with Ok x => text (y_built_display m IriSpec x) | _ => Panic end =
    Ok (lit "http://u" ++ [252] ++ lit ":p:w@EX" ++ [233] ++ lit "mple:80/a/b~?q" ++ [233]) /\
  y_build m UriSpec TIri b = Err InvalidUserInfo /\ y_build m IriSpec TRelative b = Err UnexpectedAbsolute /\
  y_build m IriSpec TReference (b_steps [OpPath ([233] ++ lit ":b")]) = Err InvalidPath /\
  y_build m IriSpec TReference (b_steps [OpHost []; OpPort (PortString (lit "8" ++ [1633]))]) = Err InvalidPort.
Proof. intros m [-> | ->]; vm_compute; auto 6. Qed.
Example C80_ex_from : forall m, m = None \/ m = Some crate78 ->
  match y_builder_from m (lit "x://" ++ [233] ++ lit "@" ++ [12354] ++ lit ":8/a?b#c") with
  | Ok b => match y_build m IriSpec TIri b with Ok x => text (y_built_display m IriSpec x) | _ => Panic end | _ => Panic end =
  Ok (lit "x://" ++ [233] ++ lit "@" ++ [12354] ++ lit ":8/a?b#c").
Proof. intros m [-> | ->]; vm_compute; auto. Qed.
Example C80_exact_instance := C80_exact (Some crate78) true UriSpec TIri (b_steps ex_ops) C78_applies eq_refl (proj1 C25_applies) eq_refl.
Example C80_normalize_exact_applies : let b := b_steps [OpScheme (lit "x"); OpPath (lit "/a/..//b"); OpNormalize] in
  values_ok b /\ b_normalize b = true /\ pct_wf (b_path b) /\ exists x, y_build (Some crate78) UriSpec TIri b = Ok x.
Proof. cbn zeta. split; [exact I|]. split; [reflexivity|]. split; [vm_compute; repeat constructor; discriminate|vm_compute; eauto]. Qed.
Example C80_normalize_exact_instance := let H := C80_normalize_exact_applies in
  C80_normalize_exact (Some crate78) UriSpec TIri _ C78_applies eq_refl (proj1 H) (proj1 (proj2 H)) (proj1 (proj2 (proj2 H))).
Example C80_from_instance := C80_from (Some crate78) true UriSpec (lit "x://u:p@h:8/a?b#c") (mkC (Some (lit "x")) (Some (lit "u:p@h:8")) (lit "/a") (Some (lit "b")) (Some (lit "c"))) TIri C78_applies ltac:(rd) eq_refl ltac:(ev).
Example C80_total_instance := C80_total (Some crate78) UriSpec TIri (b_steps ex_ops) C78_applies (or_introl eq_refl).
Example C80_ensure_applies : exists x y, y_build (Some crate78) UriSpec TIri (b_steps [OpScheme (lit "x"); OpPath (lit "/a/..//b"); OpNormalize]) = Ok x /\
  path_normal UriSpec false false (lit "/a/..//b") y /\ y_built_ensure (Some crate78) x = Ok false.
Proof.
  destruct C26_hypotheses as (_ & _ & y & N). eexists. exists y. split; [vm_compute; reflexivity|]. split; [exact N|vm_compute; reflexivity].
Qed.
Example C80_from_prefixed_ex : y_from_prefixed (b_validate_fragment IriSpec) HASH InvalidFragment (lit "#" ++ [233]) = Ok [233] /\
  y_from_prefixed (b_validate_fragment UriSpec) HASH InvalidFragment (lit "#" ++ [233]) = Err InvalidFragment /\
  y_from_prefixed (b_validate_query IriSpec) QMARK InvalidQuery [233; 63] = Err InvalidQuery.
Proof. vm_compute. auto. Qed.
