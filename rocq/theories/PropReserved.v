(** * Properties C28 and C29 on every value, also with "+" and "#".
    Specification: ReservedSpec.v (an automaton that reads a value), on top of TemplateSpec.v and
    ExpandSpec.v.  Model: MMaybePct.v, MExpand.v. *)
From Verif Require Import Base Chars Rfc3986 Utf8 PctSpec EncodeSpec MFormat MTemplate MMaybePct MExpand
  TemplateSpec ExpandSpec ReservedSpec PReserved1 PReserved5 PReserved6.
Open Scope string_scope. Open Scope N_scope. Open Scope list_scope.

(** The expansion of any usable template with any values, in any chunks, with and without overflow checks
    and debug assertions, is exactly what [written_template] says. *)
Theorem C28_every_value : forall S debug ctx env T, supplies_env ctx env -> usable T -> fine env T ->
  expand_to_string S debug ctx (template_text T) = match written_template S debug ctx env T with Some s => Ok s | None => Panic end.
Proof. exact written_exact. Qed.
Print Assumptions C28_every_value.
(** The errors of [str::from_utf8] that the automaton refers to. *)
Theorem C28_utf8_error : forall b,
  match utf8_error b with
  | None => exists s, all_scalar s = true /\ b = utf8s s
  | Some (n, e) => exists s r, all_scalar s = true /\ b = utf8s s ++ r /\ n = length (utf8s s) /\ r <> [] /\ utf8_bad r e
  end.
Proof. exact error_says. Qed.
Print Assumptions C28_utf8_error.
(** An expansion panics exactly when the prefix modifiers are used well and [written_template] says so. *)
Theorem C29_every_value : forall S debug ctx env T, supplies_env ctx env -> usable T ->
  (expand_to_string S debug ctx (template_text T) = Panic <-> fine env T /\ written_template S debug ctx env T = None).
Proof. exact written_panics. Qed.
Print Assumptions C29_every_value.
(** [C28_every_value] applies to any number of chunks; a few values. *)
Example C28_every_value_example : forall debug S,
  let ctx chunks (_ : str) := VString (chunks, Ret tt) in
  let env chunks (_ : str) := Str (concat chunks) in
  let T m := [Expr Plus [mkR (lit "x") m]] in
  (forall m, m = NoMod \/ m = Prefix (lit "2") -> usable (T m)) /\
  (forall chunks, all_scalar (concat chunks) = true -> supplies_env (ctx chunks) (env chunks) /\ forall m, fine (env chunks) (T m)) /\
  (** a character in two chunks *)
  written_template S debug (ctx [lit "%E3%8"; lit "1%82a"]) (env [lit "%E3%8"; lit "1%82a"]) (T NoMod) = Some (lit "%E3%81%82a") /\
  (** a lost "%" *)
  written_template S debug (ctx [lit "a%"; lit "z"]) (env [lit "a%"; lit "z"]) (T NoMod) = Some (lit "az") /\
  (** an incomplete character followed by another triplet *)
  written_template S debug (ctx [lit "%E3%41b"]) (env [lit "%E3%41b"]) (T NoMod) = Some (lit "%E3b") /\
  written_template S debug (ctx [lit "%E3%41%42b"]) (env [lit "%E3%41%42b"]) (T NoMod) = Some (lit "%E3%41%42b") /\
  written_template S debug (ctx [lit "%E3%41%E3"]) (env [lit "%E3%41%E3"]) (T NoMod) = None /\
  (** prefixes *)
  written_template S debug (ctx [lit "a%E3%81%82bc"]) (env [lit "a%E3%81%82bc"]) (T (Prefix (lit "2"))) = Some (lit "a%E3%81%82b").
Proof. exact every_value_example. Qed.
