(** * Property C83: the work of normalization and resolution.
    Specification: WorkSpec.v, NormSpec.v.  Model: MWork.v (the loops of MPath.v with a counter: calls of the
    segment iterator and characters passed over). *)
From Verif Require Import Base Chars Rfc3986 CompSpec RfcResolve NormSpec WorkSpec MValidate MTrusted MTypes MFormat MPct MPath MNormalize MWork PWork PWork2 PWork3 PInst.
Open Scope string_scope. Open Scope list_scope. Open Scope nat_scope.

(** The counting loops return exactly what the loops of the model return. *)
Theorem C83_same : forall S mode auth p, fst (t_path S mode auth p) = fmt_write_normalize S mode auth p.
Proof. exact t_path_fst. Qed.
Print Assumptions C83_same.
(** Normalizing an IRI with a path of [length (c_p C)] characters, of whose segments [m] are not dot segments. *)
Theorem C83_normalize_partial : forall S i C n l m (keep : bool), reads S i C -> (if keep then normalize_preserve i else normalize i) = Ok n -> pieces (c_p C) l -> names l m ->
  path_work S n <= (2 * length (c_p C) + 1) * (2 * ((m + 7) / 8) + 3).
Proof. exact normalize_bound. Qed.
Print Assumptions C83_normalize_partial.
(** The same for resolving a reference, in all modes; [M] has the path before dot segments are removed. *)
Theorem C83_resolve_partial : forall S base ref B R M l m mode, reads S base B -> defined (c_s B) = true -> reads S ref R -> pre_transform B R M -> pieces (c_p M) l -> names l m ->
  exists n, resolve base ref = Ok n /\ path_work S (set_mode n mode) <= (2 * length (c_p M) + 1) * (2 * ((m + 7) / 8) + 3).
Proof. exact resolve_bound. Qed.
Print Assumptions C83_resolve_partial.
(** Without dot segments the work is linear. *)
Theorem C83_normalize_plain : forall S i C n l (keep : bool), reads S i C -> (if keep then normalize_preserve i else normalize i) = Ok n -> pieces (c_p C) l -> dot_free l ->
  path_work S n <= 3 * (2 * length (c_p C) + 1).
Proof. exact normalize_plain. Qed.
Print Assumptions C83_normalize_plain.
Theorem C83_resolve_plain : forall S base ref B R M l mode, reads S base B -> defined (c_s B) = true -> reads S ref R -> pre_transform B R M -> pieces (c_p M) l -> dot_free l ->
  exists n, resolve base ref = Ok n /\ path_work S (set_mode n mode) <= 3 * (2 * length (c_p M) + 1).
Proof. exact resolve_plain. Qed.
Print Assumptions C83_resolve_plain.
(** In general it is not: no constant bounds the work per character (F16).  One dot segment after many names
    makes the loop start again every eight segments. *)
Theorem C83_linear_refuted : forall S c, exists i n, new S TIri i = Ok i /\ normalize i = Ok n /\ c * length i < path_work S n.
Proof. exact work_superlinear. Qed.
Print Assumptions C83_linear_refuted.

(** The work for "/a/a/.../a/.." with 8, 16, 32 and 64 names, and for 16 names without the dot segment. *)
Definition work_of (i : str) : nat := match normalize i with Ok n => path_work UriSpec n | _ => 0 end.
Example C83_ex : map (fun k => (length (bad k), work_of (bad k))) [1; 2; 4; 8] = [(24, 40); (40, 96); (72, 280); (136, 936)] /\
  work_of (lit "a://h/a/a/a/a/a/a/a/a/a/a/a/a/a/a/a/a") = 55.
Proof. vm_compute. auto. Qed.
Example C83_pieces : pieces (lit "/b/../c") [lit ""; lit "b"; lit ".."; lit "c"] /\ names [lit ""; lit "b"; lit ".."; lit "c"] 3.
Proof. exact ex_pieces. Qed.
Example C83_normalize_instance := C83_normalize_partial UriSpec (lit "a://h/b/../c") (mkC (Some (lit "a")) (Some (lit "h")) (lit "/b/../c") None None) _ _ 3 false ltac:(rd) eq_refl (proj1 C83_pieces) (proj2 C83_pieces).
Example C83_plain_pieces : pieces (lit "/b/c") [lit ""; lit "b"; lit "c"] /\ dot_free [lit ""; lit "b"; lit "c"].
Proof. exact ex_plain. Qed.
Example C83_plain_instance := C83_normalize_plain UriSpec (lit "a://h/b/c") (mkC (Some (lit "a")) (Some (lit "h")) (lit "/b/c") None None) _ _ false ltac:(rd) eq_refl (proj1 C83_plain_pieces) (proj2 C83_plain_pieces).
Example C83_pre : pre_transform (mkC (Some (lit "a")) (Some (lit "h")) (lit "/b/x") None None) (mkC None None (lit "../c") None None) (mkC (Some (lit "a")) (Some (lit "h")) (lit "/b/../c") None None).
Proof. exact ex_pre. Qed.
Example C83_resolve_instance := C83_resolve_partial UriSpec (lit "a://h/b/x") (lit "../c") _ _ _ _ 3 MDefault ltac:(rd) eq_refl ltac:(rd) C83_pre (proj1 C83_pieces) (proj2 C83_pieces).
