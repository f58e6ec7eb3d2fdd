(** * Property C43: [Debug] output of the builder does not reveal a password.
    Specification: DebugSpec.v, EditSpec.v.  Model: MDebug.v, MBuild.v.
    A [Debug] implementation is the tree of its [debug_struct]/[debug_tuple] calls, so equal trees mean
    equal [{:?}] and equal [{:#?}] output. *)
From Coq Require Import String.
From Verif Require Import Base Chars Rfc3986 CompSpec RfcResolve EditSpec MValidate MTrusted MFormat MBuild MDebug DebugSpec PDebug.
Open Scope string_scope. Open Scope N_scope. Open Scope list_scope.

(** With a non-empty password, however it was given, the output has the user name and "{censored}". *)
Theorem C43_userinfo : forall u user pw, carries u user pw -> pw <> [] ->
  dbg_userinfo u = DStruct (lit "UserinfoBuilder")
    [(lit "user", DStr user); (lit "password", DTuple (lit "Some") [DRaw (lit "{censored}")])].
Proof. exact carries_shown. Qed.
Print Assumptions C43_userinfo.
(** Two histories of setter calls that differ only in non-empty passwords show the same. *)
Theorem C43_builder : forall l l', Forall2 same_call l l' -> dbg_builder (b_steps l) = dbg_builder (b_steps l').
Proof. exact history_shown. Qed.
Print Assumptions C43_builder.
(** So do the two [Built] values. *)
Theorem C43_built : forall S t phantom l l' x x', Forall2 same_call l l' ->
  build S t (b_steps l) = Ok x -> build S t (b_steps l') = Ok x' -> dbg_built phantom x = dbg_built phantom x'.
Proof. exact built_shown. Qed.
Print Assumptions C43_built.
(** So do builders made from two references that differ only in non-empty passwords. *)
Theorem C43_from : forall S i i' C C' user pw pw' h o, ~ In 58 user -> pw <> [] -> pw' <> [] ->
  dissects S i C (Some (user_password user pw)) h o -> dissects S i' C' (Some (user_password user pw')) h o ->
  c_s C = c_s C' -> c_p C = c_p C' -> c_q C = c_q C' -> c_f C = c_f C' ->
  exists b b', builder_from i = Ok b /\ builder_from i' = Ok b' /\ dbg_builder b = dbg_builder b'.
Proof. exact from_shown. Qed.
Print Assumptions C43_from.
(** The hypotheses are met, and the output as text (with quotes for std's rendering of strings). *)
Definition quoted (s : str) : str := [34] ++ s ++ [34].
Example C43_applies : Forall2 same_call
  [OpScheme (lit "http"); OpUserinfo (UiUserPass (lit "u") (Some (lit "secret"))); OpHost (lit "h")]
  [OpScheme (lit "http"); OpUserinfo (UiDirect (lit "u:other")); OpHost (lit "h")].
Proof.
  constructor; [left; reflexivity|]. constructor; [|constructor; [left; reflexivity|constructor]]. right. eexists _, _. split; [reflexivity|]. split; [reflexivity|].
  exists (lit "u"), (lit "secret"), (lit "other"). split; [constructor|]. split.
  - apply (carries_direct (lit "u") (lit "other")). intros [H|[]]; discriminate.
  - split; discriminate.
Qed.
Example C43_ex :
  debug_text quoted (dbg_builder (b_steps [OpScheme (lit "http"); OpUserinfo (UiDirect (lit "u:pw")); OpHost (lit "h"); OpPort (PortInteger 80)])) =
  lit "Builder { scheme: Some(" ++ quoted (lit "http") ++ lit "), authority: Some(AuthorityBuilder { host: String(" ++ quoted (lit "h") ++
  lit "), port: PortBuilder(Integer(80)), userinfo: UserinfoBuilder { user: " ++ quoted (lit "u") ++
  lit ", password: Some({censored}) } }), path: " ++ quoted [] ++ lit ", query: None, fragment: None, normalize: false }" /\
  debug_text quoted (dbg_userinfo (UiDirect (lit "u"))) = lit "UserinfoBuilder { user: " ++ quoted (lit "u") ++ lit ", password: None }" /\
  debug_text quoted (dbg_userinfo (UiUserPass (lit "u") (Some []))) = lit "UserinfoBuilder { user: " ++ quoted (lit "u") ++ lit ", password: Some(" ++ quoted [] ++ lit ") }" /\
  debug_text quoted (dbg_userinfo UiNone) = lit "UserinfoBuilder".
Proof. vm_compute. auto. Qed.
