(** * Property C72: normalizing an expanded template normalizes its literals and leaves the values alone.
    Specification: TmplNormSpec.v, TemplateSpec.v, ExpandSpec.v, PctSpec.v.  Model: MTemplate.v, MExpand.v, MEncode.v, MPct.v. *)
From Verif Require Import Base Chars Rfc3986 Utf8 CompSpec PctSpec EncodeSpec TemplateSpec ExpandSpec TmplNormSpec.
From Verif Require Import MValidate MTrusted MFormat MPct MEncode MTemplate MExpand PTmplNorm PInst.
Open Scope string_scope. Open Scope N_scope. Open Scope list_scope.

(** Templates without "+" and "#", any values in any chunks: the normalized expansion is the expansion of the
    template with normalized literals ([kept r] is the value of [r], cut off by a prefix modifier). *)
Theorem C72_literals : forall S debug ctx env T T' out,
  supplies_env ctx env -> usable T -> open_template T -> fine env T -> Forall2 (part_normal S) T T' ->
  expand_to_string S debug ctx (template_text T) = Ok out ->
  exists kept, (forall o l r d, In (Expr o l) T -> In r l -> ctx (r_name r) = VString d -> keep_value debug (r_mod r) d = Some (kept r)) /\
    out = expansion (kept_value S kept) env T /\ text (PctCaseNormalized S out) = Ok (expansion (kept_value S kept) env T').
Proof. exact c72_open. Qed.
Print Assumptions C72_literals.
(** So, if the literals are normalized, the expansion is. *)
Theorem C72_normalized : forall S debug ctx env T out,
  supplies_env ctx env -> usable T -> open_template T -> fine env T -> Forall2 (part_normal S) T T ->
  expand_to_string S debug ctx (template_text T) = Ok out -> text (PctCaseNormalized S out) = Ok out.
Proof. exact c72_fix. Qed.
Print Assumptions C72_normalized.
(** With "+" and "#" too, if their values contain no "%". *)
Theorem C72_reserved : forall S debug ctx env T T',
  supplies_env ctx env -> usable T -> tame_template debug ctx T -> fine env T -> no_percents_reserved env T -> Forall2 (part_normal S) T T' ->
  expand_to_string S debug ctx (template_text T) = Ok (crate_expansion S env T) /\
  text (PctCaseNormalized S (crate_expansion S env T)) = Ok (crate_expansion S env T').
Proof. exact c72_tame. Qed.
Print Assumptions C72_reserved.

Definition v0 := lit "%41 ~" ++ [233].
Definition ctx0 : Ctx := fun n => if seqb n (lit "x") then VString (MExpand.display v0) else VUndefined.
Definition env0 : str -> sval := fun n => if seqb n (lit "x") then Str v0 else Undef.
Example supplies0 : supplies_env ctx0 env0.
Proof. intros n. unfold ctx0, env0. destruct (seqb n (lit "x")); constructor. repeat split; ev. Qed.
Definition T0 := [Lit (lit "/%7e%c3"); Expr Simple [mkR (lit "x") NoMod]; Expr Ques [mkR (lit "x") NoMod; mkR (lit "y") Explode]].
Definition T1 := [Lit (lit "/~%C3"); Expr Simple [mkR (lit "x") NoMod]; Expr Ques [mkR (lit "x") NoMod; mkR (lit "y") Explode]].
Example usable0 : usable T0.
Proof.
  assert (Nx : crate_varname (lit "x")) by (exists (lit "x"), []; split; [reflexivity|]; split; [|constructor]; left; exists 120; split; reflexivity).
  assert (Ny : crate_varname (lit "y")) by (exists (lit "y"), []; split; [reflexivity|]; split; [|constructor]; left; exists 121; split; reflexivity).
  apply Forall_cons; [split; [apply PTmpl2.lit_scan; ev|exact I]|]. apply Forall_cons; [split; [split; [discriminate|]|]|apply Forall_cons; [split; [split; [discriminate|]|]|constructor]].
  - apply Forall_cons; [split; [exact Nx|exact I]|constructor].
  - apply Forall_cons; [exact I|constructor].
  - apply Forall_cons; [split; [exact Nx|exact I]|]. apply Forall_cons; [split; [exact Ny|exact I]|constructor].
  - apply Forall_cons; [exact I|]. apply Forall_cons; [exact I|constructor].
Qed.
Example normal0 : Forall2 (part_normal IriSpec) T0 T1.
Proof.
  assert (K : forall s t, text (PctCaseNormalized IriSpec s) = Ok t -> pct_wf s -> pct_normal IriSpec s t).
  { intros s t E W. destruct (PPct2.pct_normalized_ok IriSpec s W) as (t' & X & N). apply PPath2.outs_text in X. rewrite E in X. injection X as ->. exact N. }
  constructor; [|constructor; [|constructor; [|constructor]]].
  - apply nrm_lit; [apply bw_raw; discriminate|]. apply K; [ev|]. apply wf_raw; [discriminate|]. apply wf_trip; try reflexivity. apply wf_trip; try reflexivity. constructor.
  - apply nrm_expr. discriminate.
  - apply nrm_expr. intros _. apply Forall_cons; [apply pn_raw; [discriminate|constructor]|]. apply Forall_cons; [apply pn_raw; [discriminate|constructor]|constructor].
Qed.
Example C72_literals_instance := C72_literals IriSpec true ctx0 env0 T0 T1 (lit "/%7e%c3%2541%20~" ++ [233] ++ lit "?x=%2541%20~" ++ [233]) supplies0 usable0
  ltac:(intros o l [H|[H|[H|[]]]]; try discriminate; injection H as <- <-; reflexivity)
  ltac:(intros o l r [H|[H|[H|[]]]]; try discriminate; injection H as <- <-; [intros [<-|[]]|intros [<-|[<-|[]]]]; reflexivity) normal0 ltac:(ev).
Example C72_ex : text (PctCaseNormalized IriSpec (lit "/%7e%c3%2541%20~" ++ [233] ++ lit "?x=%2541%20~" ++ [233])) = Ok (lit "/~%C3%2541%20~" ++ [233] ++ lit "?x=%2541%20~" ++ [233]).
Proof. ev. Qed.
(** The conditions are needed: a literal may complete a character, and "+" keeps triplets as they are. *)
Example C72_needed :
  expand_to_string IriSpec true ctx0 (lit "%C3{y}%A9") = Ok (lit "%C3%A9") /\ text (PctCaseNormalized IriSpec (lit "%C3%A9")) = Ok [233] /\
  expand_to_string IriSpec true (fun _ => VString (MExpand.display (lit "%7e"))) (lit "{+x}") = Ok (lit "%7e") /\ text (PctCaseNormalized IriSpec (lit "%7e")) = Ok (lit "~").
Proof. repeat split; ev. Qed.
Definition ctx1 : Ctx := fun n => VString (MExpand.display (lit "a b/" ++ [233])).
Definition env1 : str -> sval := fun n => Str (lit "a b/" ++ [233]).
Example supplies1 : supplies_env ctx1 env1.
Proof. intros n. constructor. repeat split; ev. Qed.
Definition T2 := [Lit (lit "/~%C3"); Expr Plus [mkR (lit "x") NoMod]; Lit (lit "!")].
Example usable2 : usable T2.
Proof.
  apply Forall_cons; [split; [apply PTmpl2.lit_scan; ev|exact I]|]. apply Forall_cons; [split; [split; [discriminate|]|]|apply Forall_cons; [split; [apply PTmpl2.lit_scan; ev|exact I]|constructor]].
  - apply Forall_cons; [split; [|exact I]|constructor]. exists (lit "x"), []. split; [reflexivity|]. split; [|constructor]. left. exists 120. split; reflexivity.
  - apply Forall_cons; [exact I|constructor].
Qed.
Lemma self_normal S s : pct_wf s -> text (PctCaseNormalized S s) = Ok s -> pct_normal S s s.
Proof. intros W E. destruct (PPct2.pct_normalized_ok S s W) as (t' & X & N). apply PPath2.outs_text in X. rewrite E in X. injection X as <-. exact N. Qed.
Example lit2 : part_normal IriSpec (Lit (lit "/~%C3")) (Lit (lit "/~%C3")).
Proof. apply nrm_lit; [apply bw_raw; discriminate|]. apply self_normal; [|ev]. apply wf_raw; [discriminate|]. apply wf_raw; [discriminate|]. apply wf_trip; try reflexivity. constructor. Qed.
Example normal2 : Forall2 (part_normal IriSpec) T2 T2.
Proof. constructor; [exact lit2|]. constructor; [apply nrm_expr; discriminate|]. constructor; [|constructor]. apply nrm_lit; [apply bw_raw; discriminate|]. apply pn_raw; [discriminate|constructor]. Qed.
Example tame2 : tame_template true ctx1 T2.
Proof.
  intros o l r [H|[H|[H|[]]]]; try discriminate. injection H as <- <-. intros [<-|[]]. cbn [tame ctx1 r_mod r_name]. intros _. split; [|vm_compute; discriminate].
  exists (lit "a b/" ++ [233]). split; [reflexivity|]. apply (calm_plain 97 (lit " b/" ++ [233]) []); [reflexivity| |now left|constructor]. out.
Qed.
Example C72_reserved_instance := C72_reserved IriSpec true ctx1 env1 T2 T2 supplies1 usable2 tame2
  ltac:(intros o l r [H|[H|[H|[]]]]; try discriminate; injection H as <- <-; intros [<-|[]]; reflexivity)
  ltac:(intros o l r [H|[H|[H|[]]]]; try discriminate; injection H as <- <-; intros [<-|[]]; intros _; split; [out|vm_compute; discriminate]) normal2.
Definition T3 := [Lit (lit "/~%C3"); Expr Simple [mkR (lit "x") NoMod]; Lit (lit "!")].
Example C72_normalized_instance := C72_normalized IriSpec true ctx1 env1 T3 (lit "/~%C3a%20b%2F" ++ [233] ++ lit "!") supplies1
  ltac:(pose proof usable2 as U; inversion U as [|? ? U1 U2]; inversion U2 as [|? ? [U3 U4] U5]; apply Forall_cons; [exact U1|]; apply Forall_cons; [split; [exact U3|exact U4]|exact U5])
  ltac:(intros o l [H|[H|[H|[]]]]; try discriminate; injection H as <- <-; reflexivity)
  ltac:(intros o l r [H|[H|[H|[]]]]; try discriminate; injection H as <- <-; intros [<-|[]]; reflexivity)
  ltac:(constructor; [exact lit2|]; constructor; [apply nrm_expr; discriminate|]; constructor; [|constructor]; apply nrm_lit; [apply bw_raw; discriminate|]; apply pn_raw; [discriminate|constructor]) ltac:(ev).
