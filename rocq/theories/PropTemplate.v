(** * Properties C27-C31 and C37: URI templates.
    Specification: TemplateSpec.v (the grammar and the expansion of RFC 6570, what the crate does instead),
    ExpandSpec.v (what a context supplies, the values on which the expansion is exact, histories of
    [SimpleContext], dynamic contexts).  Model: MTemplate.v, MMaybePct.v, MExpand.v. *)
From Verif Require Import Base Chars Rfc3986 Utf8 PctSpec EncodeSpec MValidate MFormat MTemplate MMaybePct MExpand
  TemplateSpec TmplErrSpec ExpandSpec PTmpl1 PTmpl2 PTmpl3 PTmpl4 PExp6 PExp7 PExp8 PExp9 PExp10 PExp11.
Open Scope string_scope. Open Scope N_scope. Open Scope list_scope.

(** ** C27: [UriTemplateStr::new] *)
(** It accepts exactly the strings of [crate_template]: those of RFC 6570 with ASCII literals, with "."
    allowed anywhere in a variable name but at its beginning and any one to five digits as max-length. *)
Theorem C27_accepts_partial : forall s, template_new s = Ok s <-> crate_template s.
Proof. exact accepts. Qed.
Print Assumptions C27_accepts_partial.
(** An accepted string is not changed. *)
Theorem C27_id : forall s t, template_new s = Ok t -> t = s.
Proof. exact new_id. Qed.
Print Assumptions C27_id.
(** Every ASCII template of RFC 6570 is accepted. *)
Theorem C27_rfc_partial : forall s, rfc_template s -> all_ascii s = true -> template_new s = Ok s.
Proof. exact rfc_accepted. Qed.
Print Assumptions C27_rfc_partial.
(** It panics exactly if a "%" follows something well formed and the two bytes after the "%" end inside a
    character. *)
Theorem C27_panics : forall s, template_new s = Panic <->
  exists T r, Forall crate_part T /\ s = template_text T ++ 37 :: r /\ cut r.
Proof. exact panics. Qed.
Print Assumptions C27_panics.
(** Otherwise it is rejected with the kind and the byte position of the first thing that is wrong
    (TmplErrSpec.v), and the position is within the string. *)
Theorem C27_error : forall s e, template_new s = Err e <->
  exists k n, template_fault s k n /\ e = mkTE (kind k) n.
Proof. exact errors. Qed.
Print Assumptions C27_error.
Theorem C27_location : forall s e, template_new s = Err e -> (te_location e <= blen s)%nat.
Proof. exact located. Qed.
Print Assumptions C27_location.
(** [VarName::new] accepts the names of [crate_varname] unchanged and rejects all else with the error of an
    expression at position 0. *)
Theorem C27_varname : forall s, (crate_varname s /\ VarName_new s = Ok s) \/ (~ crate_varname s /\ VarName_new s = Err (mkTE InvalidExpression 0)).
Proof. exact varname_exact. Qed.
Print Assumptions C27_varname.
Example C27_varname_example : VarName_new (lit "a.%41_9") = Ok (lit "a.%41_9") /\ VarName_new (lit "a-b") = Err (mkTE InvalidExpression 0).
Proof. vm_compute. repeat split. Qed.
Example C27_error_example : template_new (lit "a{x}%4g") = terr InvalidPercentEncoding 6 /\
  template_new (lit "{x,y:1a}") = terr InvalidExpression 7 /\ template_new (lit "ab{x") = terr ExpressionNotClosed 2 /\
  template_new (lit "{=x}") = terr UnsupportedOperator 1.
Proof. vm_compute. repeat split. Qed.
(** Violations: accepted but not in RFC 6570 ("{a.}", "{a:99999}"), in RFC 6570 but rejected (a non-ASCII
    literal), a panic. *)
Theorem C27_refuted : exists s1 s2 s3 s4,
  template_new s1 = Ok s1 /\ ~ rfc_template s1 /\
  template_new s2 = Ok s2 /\ ~ rfc_template s2 /\
  rfc_template s3 /\ (exists e, template_new s3 = Err e) /\
  template_new s4 = Panic.
Proof. exact template_refuted. Qed.
Print Assumptions C27_refuted.
Example C27_example : template_new (lit "/a{?x,y*,%41.b:3}{+z}") = Ok (lit "/a{?x,y*,%41.b:3}{+z}")
  /\ template_text [Lit (lit "/a"); Expr Ques [mkR (lit "x") NoMod; mkR (lit "y") Explode; mkR (lit "%41.b") (Prefix (lit "3"))]; Expr Plus [mkR (lit "z") NoMod]]
     = lit "/a{?x,y*,%41.b:3}{+z}"
  /\ template_new (lit "{}") = terr InvalidExpression 1 /\ template_new (lit "a b") = terr InvalidCharacter 1.
Proof. vm_compute. repeat split. Qed.

(** ** C30: [variables()] *)
(** For an accepted template: all the names in order; a panic if a max-length does not fit in 16 bits. *)
Theorem C30_variables_partial : forall debug T, Forall crate_part T -> Forall small_part T ->
  template_variables debug (template_text T) = Ok (template_names T).
Proof. exact (fun debug T H1 H2 => variables_ok debug T (proj2 (usable_parts T) (conj H1 H2))). Qed.
Print Assumptions C30_variables_partial.
Theorem C30_panics : forall debug T, Forall crate_part T ->
  (template_variables debug (template_text T) = Panic <-> ~ Forall small_part T).
Proof. exact variables_panic. Qed.
Print Assumptions C30_panics.
Theorem C30_refuted : exists s, template_new s = Ok s /\ forall debug, template_variables debug s = Panic.
Proof. exact variables_refuted. Qed.
Print Assumptions C30_refuted.
Example C30_example : template_variables true (lit "a{x,y*}{+x:3}b") = Ok [lit "x"; lit "y"; lit "x"].
Proof. vm_compute. reflexivity. Qed.

(** ** C28: [expand] *)
(** The expansion is exactly [crate_expansion] ... *)
Theorem C28_expands_partial : forall S debug ctx env T, supplies_env ctx env -> usable T ->
  tame_template debug ctx T -> fine env T ->
  expand_to_string S debug ctx (template_text T) = Ok (crate_expansion S env T).
Proof. exact (fun S debug ctx env T He HT Ht Hf => expands S debug ctx env He T HT Ht Hf). Qed.
Print Assumptions C28_expands_partial.
(** ... and that of RFC 6570 where the two do not differ. *)
Theorem C28_rfc_partial : forall S debug ctx env T, supplies_env ctx env -> usable T ->
  tame_template debug ctx T -> fine env T -> regular_template S env T ->
  expand_to_string S debug ctx (template_text T) = Ok (rfc_expansion S env T).
Proof. exact expands_rfc. Qed.
Print Assumptions C28_rfc_partial.
(** No condition on the values: templates without "+", "#" and prefix modifiers. *)
Theorem C28_simple : forall S debug ctx env T, supplies_env ctx env -> Forall crate_part T ->
  simple_template T -> expand_to_string S debug ctx (template_text T) = Ok (crate_expansion S env T).
Proof. exact expands_simple. Qed.
Print Assumptions C28_simple.
(** No condition on the template: values of a [SimpleContext] in ASCII without "%". *)
Theorem C28_plain : forall S debug h env T, Forall plain_op h ->
  (forall k, exists x, current h k x /\ env k = sval_of x) -> usable T -> fine env T ->
  expand_to_string S debug (sc_visit (sc_run h)) (template_text T) = Ok (crate_expansion S env T).
Proof. exact expands_plain. Qed.
Print Assumptions C28_plain.
(** No condition on the values at all, also not on the chunks in which they are written: templates without
    "+" and "#".  What is kept of a string for a prefix modifier is exactly [keep_value]; if that is not
    defined (an overflow that is detected), the expansion panics. *)
Theorem C28_open : forall S debug ctx env, supplies_env ctx env -> forall T, usable T -> open_template T -> fine env T ->
  (forall kept, (forall o l r d, In (Expr o l) T -> In r l -> ctx (r_name r) = VString d -> keep_value debug (r_mod r) d = Some (kept r)) ->
   expand_to_string S debug ctx (template_text T) = Ok (expansion (kept_value S kept) env T)) /\
  (forall o l r d, In (Expr o l) T -> In r l -> ctx (r_name r) = VString d -> keep_value debug (r_mod r) d = None ->
   expand_to_string S debug ctx (template_text T) = Panic).
Proof. exact open_exact. Qed.
Print Assumptions C28_open.
(** "{x:3}" with values written in two chunks: three characters are kept of "ab", "cd", but two of U+00E9
    U+00E9, "cd"; without overflow checks all seven of U+00E9 U+00E9 U+00E9, "abcd", where it panics with them. *)
Example C28_open_example : let two a b : Value := VString ([a; b], Ret tt) in
  keep_value true (Prefix (lit "3")) ([lit "ab"; lit "cd"], Ret tt) = Some (lit "abc") /\
  expand_to_string UriSpec true (fun _ => two (lit "ab") (lit "cd")) (lit "{x:3}") = Ok (lit "abc") /\
  keep_value true (Prefix (lit "3")) ([[233; 233]; lit "cd"], Ret tt) = Some [233; 233] /\
  keep_value true (Prefix (lit "3")) ([[233; 233; 233]; lit "abcd"], Ret tt) = None /\
  expand_to_string IriSpec false (fun _ => two [233; 233; 233] (lit "abcd")) (lit "{x:3}") = Ok ([233; 233; 233] ++ lit "abcd")%list.
Proof. vm_compute. repeat split. Qed.
(** A prefix modifier on a list or an associative array that is not empty gives an error at the place of
    the variable, and nothing else does; for every value. *)
Theorem C28_type_error : forall debug ctx env T, supplies_env ctx env -> usable T ->
  (expand_new debug ctx (template_text T) = Ok tt <-> fine env T) /\
  (forall e, expand_new debug ctx (template_text T) = Err e <->
     exists n, misuse_at env T n /\ e = mkTE UnexpectedValueType n) /\
  expand_new debug ctx (template_text T) <> Panic.
Proof. exact (fun debug ctx env T He HT => typechecks debug ctx env He T HT). Qed.
Print Assumptions C28_type_error.
(** Violations: "{;x*}" with an empty item; "{?%41*}" with two items; "{?x*}" with the key "%41"; "{+x:1}"
    with "ab%20cd"; "{+x}" with "%e3%41a" loses the second triplet. *)
Theorem C28_refuted : exists h1 h2 h3 h4 h5,
  departs [Expr Semi [mkR (lit "x") Explode]] h1 (lit ";x=a;x=") (lit ";x=a;x") /\
  departs [Expr Ques [mkR (lit "%41") Explode]] h2 (lit "?%41=a&%2541=b") (lit "?%41=a&%41=b") /\
  departs [Expr Ques [mkR (lit "x") Explode]] h3 (lit "?%2541=b") (lit "?%41=b") /\
  departs [Expr Plus [mkR (lit "x") (Prefix (lit "1"))]] h4 (lit "a%20") (lit "a") /\
  departs [Expr Plus [mkR (lit "x") NoMod]] h5 (lit "%e3a") (lit "%e3%41a").
Proof. exact expansion_refuted. Qed.
Print Assumptions C28_refuted.
(** A context and a template that meet the hypotheses (ExpandSpec.v). *)
Example C28_example :
  expand_to_string UriSpec true (sc_visit (sc_run example_history)) (template_text example_template)
    = Ok (lit "/mHello%20World%21/red/green/He?semi=%3B&dot=.&empty=#Hello%20World!,red,green") /\
  rfc_expansion UriSpec (fun k => sval_of (sc_get (sc_run example_history) k)) example_template
    = lit "/mHello%20World%21/red/green/He?semi=%3B&dot=.&empty=#Hello%20World!,red,green".
Proof. vm_compute. split; reflexivity. Qed.
Example C28_hypotheses : usable example_template /\ Forall plain_op example_history /\ Forall scalar_op example_history /\
  let env := fun k => sval_of (sc_get (sc_run example_history) k) in
  (forall k, exists x, current example_history k x /\ env k = sval_of x) /\
  supplies_env (sc_visit (sc_run example_history)) env /\ tame_template true (sc_visit (sc_run example_history)) example_template /\
  fine env example_template /\ regular_template UriSpec env example_template.
Proof. exact example_hypotheses. Qed.
(** A percent-encoded reserved value is calm, so it is kept as it is. *)
Example C28_calm : calm (lit "a%e3%81%82/%E2%80b%") /\ forall S debug,
  expand_to_string S debug (fun _ => VString (display (lit "a%e3%81%82/%E2%80b%"))) (lit "{+x}") = Ok (lit "a%e3%81%82/%E2%80b%25").
Proof. exact calm_example. Qed.

(** ** C29: no panics *)
(** Under the conditions of C28 there is no panic. *)
Theorem C29_total_partial : forall S debug ctx env T, supplies_env ctx env -> usable T ->
  tame_template debug ctx T -> expand_to_string S debug ctx (template_text T) <> Panic.
Proof. exact no_panic. Qed.
Print Assumptions C29_total_partial.
(** Without "+" and "#" and overflow checks there never is one. *)
Theorem C29_release : forall S ctx env T, supplies_env ctx env -> usable T -> open_template T ->
  expand_to_string S false ctx (template_text T) <> Panic.
Proof. exact release_open. Qed.
Print Assumptions C29_release.
(** With the values of a [SimpleContext], without "%" where "+" and "#" use them: it panics exactly in the
    cases of [panics_somewhere], and gives exactly [crate_expansion] otherwise. *)
Theorem C29_exact : forall S debug h env T, Forall scalar_op h -> (forall k, exists x, current h k x /\ env k = sval_of x) ->
  usable T -> fine env T -> no_percents_reserved env T ->
  (expand_to_string S debug (sc_visit (sc_run h)) (template_text T) = Panic <-> panics_somewhere debug env T) /\
  (~ panics_somewhere debug env T -> expand_to_string S debug (sc_visit (sc_run h)) (template_text T) = Ok (crate_expansion S env T)).
Proof. exact simple_exact. Qed.
Print Assumptions C29_exact.
(** For templates with a max-length that does not fit in 16 bits [expand] itself panics, and for no others. *)
Theorem C29_max_length : forall debug ctx env, supplies_env ctx env -> forall T, Forall crate_part T -> fine env T ->
  (expand_new debug ctx (template_text T) = Panic <-> ~ Forall small_part T).
Proof. exact big_panics. Qed.
Print Assumptions C29_max_length.
Example C29_hypotheses : let h := [Insert (lit "x") (SString [97; 233; 98])] in let env := fun k => sval_of (sc_get (sc_run h) k) in
  let T o m := [Expr o [mkR (lit "x") m]] in
  Forall scalar_op h /\ (forall k, exists x, current h k x /\ env k = sval_of x) /\
  (forall o m, m = NoMod \/ m = Prefix (lit "2") \/ m = Prefix (lit "3") -> usable (T o m) /\ fine env (T o m) /\ no_percents_reserved env (T o m)) /\
  panics_somewhere true env (T Simple (Prefix (lit "3"))) /\ ~ panics_somewhere true env (T Simple (Prefix (lit "2"))) /\
  ~ panics_somewhere true env (T Plus NoMod) /\ ~ panics_somewhere true env (T Plus (Prefix (lit "3"))).
Proof. exact exact_hypotheses. Qed.
(** Violations, with values of a [SimpleContext]: "{x:3}" with three times U+00E9 (with overflow checks);
    "{+x}" with U+00E9; "{+x}" with "%ce%41%ce"; "{x:99999}". *)
Theorem C29_refuted : exists t1 t2 t3 t4 h1 h2 h3 h4,
  panics_on true t1 h1 /\
  (forall debug, panics_on debug t2 h2) /\ (forall debug, panics_on debug t3 h3) /\ (forall debug, panics_on debug t4 h4) /\
  rfc_template t1 /\ rfc_template t2 /\ rfc_template t3.
Proof. exact panic_refuted. Qed.
Print Assumptions C29_refuted.

(** ** C31: [SimpleContext] *)
(** After any history, [get] gives the current value ... *)
Theorem C31_get : forall h k x, sc_get (sc_run h) k = x <-> current h k x.
Proof. exact (fun h k x => iff_sym (current_iff h k x)). Qed.
Print Assumptions C31_get.
(** ... [insert] returns the previous one (nothing for an invalid name, which is ignored) ... *)
Theorem C31_insert : forall h k v x, snd (sc_insert (sc_run h) k v) = x <->
  (crate_varname k /\ current h k x) \/ (~ crate_varname k /\ x = None).
Proof. exact insert_returns. Qed.
Print Assumptions C31_insert.
(** ... and expansion sees it. *)
Theorem C31_visit : forall h, Forall scalar_op h -> forall k x, current h k x ->
  supplies (sc_visit (sc_run h) k) (sval_of x).
Proof. exact simple_supplies. Qed.
Print Assumptions C31_visit.
(** There is exactly one current value. *)
Theorem C31_current : forall h k, exists x, current h k x /\ forall y, current h k y -> y = x.
Proof. exact current_unique. Qed.
Print Assumptions C31_current.
Example C31_example :
  let h := [Insert (lit "a") SUndefined; Insert (lit "") (SString (lit "0")); Insert (lit "b") (SString (lit "2"));
            Insert (lit "b") (SString (lit "1")); Insert (lit "a") (SString (lit "1")); Clear; Insert (lit "c") (SString (lit "1"))] in
  (sc_get (sc_run h) (lit "a") = None /\ sc_get (sc_run h) (lit "b") = Some (SString (lit "2")) /\
   sc_get (sc_run h) (lit "c") = None /\ sc_get (sc_run h) (lit "") = None /\
   snd (sc_insert (sc_run h) (lit "b") (SList [])) = Some (SString (lit "2")) /\ snd (sc_insert (sc_run h) (lit "-") (SList [])) = None).
Proof. vm_compute. repeat split. Qed.

(** ** C37: dynamic contexts *)
(** For every dynamic context and every writer: unless the expansion panics, the context is told about
    the start once at the beginning and about the end once at the end; in between each variable of the
    template is visited for its type and then for its value, in order, up to where the run stopped (all of
    them if it succeeds). *)
Theorem C37_callbacks : forall (St Wr : Type) S debug (ctx : DynCtx St) (w : Wr -> str -> wstep Wr) st T c st' r o,
  usable T -> expand_dynamic S debug (logged ctx) w st (template_text T) (c, []) = (st', r, o) ->
  match o with
  | Some (c', log) => exists seen rest, visits T = seen ++ rest /\ log = EStart :: seen ++ [EEnd] /\
      (r = Ok tt -> rest = []) /\ r <> Panic
  | None => r = Panic
  end.
Proof. exact (fun St Wr S debug ctx w st T c st' r o HT E => log_ok S debug ctx w st T c st' r o HT E). Qed.
Print Assumptions C37_callbacks.
(** For a context that does not change, it gives the same text as [expand]; for every value. *)
Theorem C37_agrees : forall S debug ctx env T s, supplies_env ctx env -> usable T ->
  (fst (expand_dynamic_to_string S debug (dyn_of ctx) (template_text T) tt) = Ok s <->
   expand_to_string S debug ctx (template_text T) = Ok s).
Proof. exact (fun S debug ctx env T s He HT => iff_sym (agreement S debug ctx env T s He HT)). Qed.
Print Assumptions C37_agrees.
(** Its type errors are those of [expand]. *)
Theorem C37_type_error : forall S debug ctx env T n, supplies_env ctx env -> usable T ->
  fst (expand_dynamic_to_string S debug (dyn_of ctx) (template_text T) tt) = terr UnexpectedValueType n ->
  expand_to_string S debug ctx (template_text T) = terr UnexpectedValueType n.
Proof. exact dynamic_error. Qed.
Print Assumptions C37_type_error.
Example C37_example :
  let ctx := logged (dyn_of (sc_visit (sc_run example_history))) in
  expand_dynamic_to_string UriSpec true ctx (lit "{hello:1}{list:2}") (tt, []) =
    (terr UnexpectedValueType 10, Some (tt, [EStart; EVisit Typecheck (lit "hello"); EVisit Expand (lit "hello"); EVisit Typecheck (lit "list"); EEnd])) /\
  expand_dynamic_to_string UriSpec true ctx (lit "{hello:1}-{list}") (tt, []) =
    (Ok (lit "H-red,green"), Some (tt, [EStart; EVisit Typecheck (lit "hello"); EVisit Expand (lit "hello"); EVisit Typecheck (lit "list"); EVisit Expand (lit "list"); EEnd])).
Proof. vm_compute. split; reflexivity. Qed.
