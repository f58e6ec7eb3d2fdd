(** * C37, continued: where an expansion with a dynamic context stops, and what it writes. *)
From Verif Require Import Base Chars Rfc3986 Utf8 MFormat MTemplate MExpand TemplateSpec ExpandSpec DynSpec PDyn PExp10 PSure.
Open Scope string_scope. Open Scope N_scope. Open Scope list_scope.

(** For every dynamic context and every writer: an error is one of [halts] (DynSpec.v).  It is a failed
    write, reported at the literal or the variable that was being written, or a wrong type, reported at a
    variable with a max-length; and the context was asked exactly for what comes before. *)
Theorem C37_stops : forall (St Wr : Type) S debug (ctx : DynCtx St) (w : Wr -> str -> wstep Wr) st T c st' e c' log,
  usable T -> expand_dynamic S debug (logged ctx) w st (template_text T) (c, []) = (st', Err e, Some (c', log)) ->
  exists seen, log = EStart :: seen ++ [EEnd] /\ halts T e seen.
Proof. exact (fun St Wr S debug ctx w st T c st' e c' log HT E => stops_ok S debug ctx w st T c st' e c' log HT E). Qed.
Print Assumptions C37_stops.
(** With a context that does not change and is used with the right types, every writer is given exactly
    what displaying [expand] gives it and ends in the same state; the result is the same, with
    [WriteFailed] for a failing writer. *)
Theorem C37_writer : forall (Wr : Type) S debug ctx env T (w : Wr -> str -> wstep Wr) st, supplies_env ctx env -> usable T -> fine env T ->
  let '(st', r, o) := expand_dynamic S debug (dyn_of ctx) w st (template_text T) tt in
  run_display w st (expanded_fmt S debug ctx (template_text T)) = (st', match r with Ok _ => OOk | Err _ => OErr | Panic => OPanic end) /\
  (forall e, r = Err e -> te_kind e = WriteFailed).
Proof. exact (fun Wr S debug ctx env T w st He HT Hf => same_writes S debug ctx env T w st He HT Hf). Qed.
Print Assumptions C37_writer.
(** A writer that takes at most [n] chunks. *)
Definition C37_chunks (st : nat * str) (s : str) : wstep (nat * str) :=
  match fst st with O => Stop st | Datatypes.S n => Cont (n, snd st ++ s) end.
Example C37_stops_example :
  let ctx := logged (dyn_of (fun _ => VString (display (lit "v")))) in
  let T := [Lit (lit "a"); Expr Ques [mkR (lit "x") NoMod; mkR (lit "y") (Prefix (lit "3"))]; Lit (lit "b")] in
  template_text T = lit "a{?x,y:3}b" /\ usable T /\
  (** the first write: the literal at 0 *)
  expand_dynamic UriSpec true ctx C37_chunks (0%nat, []) (template_text T) (tt, []) = ((0%nat, []), terr WriteFailed 0, Some (tt, [EStart; EEnd])) /\
  (** one write, then the variable "x" at 3 *)
  expand_dynamic UriSpec true ctx C37_chunks (1%nat, []) (template_text T) (tt, []) =
    ((0%nat, lit "a"), terr WriteFailed 3, Some (tt, [EStart; EVisit Typecheck (lit "x"); EVisit Expand (lit "x"); EEnd])) /\
  (** the last literal, at 9 *)
  halts T (mkTE WriteFailed 9) (visits [Expr Ques [mkR (lit "x") NoMod; mkR (lit "y") (Prefix (lit "3"))]]).
Proof. exact stops_example. Qed.

(** If the [Display] of every value succeeds, [expand_dynamic_to_string] gives no [WriteFailed], whatever
    the context does: its only error is a wrong type. *)
Theorem C37_no_write_error : forall (St : Type) S debug (ctx : DynCtx St) t c e,
  (forall p k c, exists x, supplies (fst (dyn_visit ctx p k c)) x) ->
  fst (expand_dynamic_to_string S debug ctx t c) = Err e -> te_kind e = UnexpectedValueType.
Proof. exact (fun St S debug ctx t c e H E => only_type_errors S debug ctx t c e H E). Qed.
Print Assumptions C37_no_write_error.
(** With a context that does not change and is used with the right types the result is that of [expand],
    a panic included ... *)
Theorem C37_same : forall S debug ctx env T, supplies_env ctx env -> usable T -> fine env T ->
  fst (expand_dynamic_to_string S debug (dyn_of ctx) (template_text T) tt) = expand_to_string S debug ctx (template_text T).
Proof. exact (fun S debug ctx env T He HT Hf => same_result S debug ctx env He T HT Hf). Qed.
Print Assumptions C37_same.
(** ... and a wrong type that [expand] finds is found too, at the same place, unless writing what comes
    before panics; with the values of C29_total_partial it does not. *)
Theorem C37_type_error_found : forall S debug ctx env T n, supplies_env ctx env -> usable T ->
  expand_to_string S debug ctx (template_text T) = terr UnexpectedValueType n ->
  let d := fst (expand_dynamic_to_string S debug (dyn_of ctx) (template_text T) tt) in
  (d = terr UnexpectedValueType n \/ d = Panic) /\ (tame_template debug ctx T -> d = terr UnexpectedValueType n).
Proof. exact (fun S debug ctx env T n He HT E => type_error_dynamic S debug ctx env He T n HT E). Qed.
Print Assumptions C37_type_error_found.
(** The two cases: "{hello}{list:2}"; "{+x}{y:2}" with U+00E9 for "x". *)
Example C37_found_example :
  expand_to_string UriSpec true (sc_visit (sc_run example_history)) (lit "{hello}{list:2}") = terr UnexpectedValueType 8 /\
  fst (expand_dynamic_to_string UriSpec true (dyn_of (sc_visit (sc_run example_history))) (lit "{hello}{list:2}") tt) = terr UnexpectedValueType 8 /\
  let ctx := sc_visit (sc_run [Insert (lit "x") (SString [233]); Insert (lit "y") (SList [lit "a"])]) in
  expand_to_string UriSpec true ctx (lit "{+x}{y:2}") = terr UnexpectedValueType 5 /\
  fst (expand_dynamic_to_string UriSpec true (dyn_of ctx) (lit "{+x}{y:2}") tt) = Panic.
Proof. vm_compute. repeat split. Qed.
