(** * Property C79: decoding, mapping and templates read bytes, with the same results.
    The program finds percent signs, braces, commas and colons with byte searches, with or without the
    memchr crate, cuts strings at byte positions and looks ASCII characters up in tables of 128 entries.
    MBytes2.v models percent-decoding, the mapping of IRIs to URIs and URI templates that way: [None] is
    the portable program, [Some m] the one with a memchr crate [m] that keeps its contract.
    Specification: PctSpec.v, EncodeSpec.v, TemplateSpec.v, TmplErrSpec.v, ExpandSpec.v, ReservedSpec.v,
    SearchSpec.v.  Model: MBytes2.v. *)
From Verif Require Import Base Chars Rfc3986 Utf8 PctSpec EncodeSpec SearchSpec MFormat MSearch MEncode MTemplate MMaybePct MExpand MBytes2
  TemplateSpec TmplErrSpec ExpandSpec ReservedSpec PSearch PBytes2 PBytes3 PropBytes.
Open Scope string_scope. Open Scope N_scope. Open Scope list_scope.

(** Percent-decoding of any byte string: the WHATWG algorithm, but for [into_bytes] exactly when there are
    both triplets and stray percent signs (finding F4, see C20). *)
Theorem C79_decode : forall m b, match m with Some m => memchr_contract m | None => True end ->
  (exists fs, b_bytes_fragments m b = Ok fs /\
     flat_map (fun f => match f with Direct x => x | DecodedByte d => [d] | StrayPercent => [37] end) fs = percent_decode b) /\
  (~ has_triplet b -> b_to_bytes m b = Ok (Some b) /\ percent_decode b = b) /\ (has_triplet b -> b_to_bytes m b = Ok None) /\
  (exists out, b_into_bytes m b = Ok out /\ (out = percent_decode b <-> ~ has_triplet b \/ ~ has_stray b)).
Proof. exact (fun m b Hm => b_decoding m Hm b). Qed.
Print Assumptions C79_decode.
(** The mapping of RFC 3987 section 3.1. *)
Theorem C79_to_uri : forall s, all_scalar s = true -> text (b_MappedToUri s) = Ok (to_uri s).
Proof. exact b_mapped. Qed.
Print Assumptions C79_to_uri.
(** Templates: accepted, panicking and rejected strings, with the kind and position of the error. *)
Theorem C79_template : forall m s, match m with Some m => memchr_contract m | None => True end ->
  (b_template_new m s = Ok s <-> crate_template s) /\
  (b_template_new m s = Panic <-> exists T r, Forall crate_part T /\ s = template_text T ++ 37 :: r /\ cut r) /\
  (forall e, b_template_new m s = Err e <-> exists k n, template_fault s k n /\ e = mkTE (kind k) n) /\
  (forall t, b_template_new m s = Ok t -> t = s).
Proof. exact (fun m s Hm => b_template m Hm s). Qed.
Print Assumptions C79_template.
Theorem C79_varname : forall s,
  (crate_varname s /\ b_VarName_new s = Ok s) \/ (~ crate_varname s /\ b_VarName_new s = Err (mkTE InvalidExpression 0)).
Proof. exact b_varname. Qed.
Print Assumptions C79_varname.
(** The variables of an accepted template. *)
Theorem C79_variables : forall m debug T, match m with Some m => memchr_contract m | None => True end -> Forall crate_part T ->
  (Forall small_part T -> b_template_variables m debug (template_text T) = Ok (template_names T)) /\
  (b_template_variables m debug (template_text T) = Panic <-> ~ Forall small_part T).
Proof. exact (fun m debug T Hm => b_variables m Hm debug T). Qed.
Print Assumptions C79_variables.
(** The expansion, for every value in any chunks. *)
Theorem C79_expand : forall m S debug ctx env T, match m with Some m => memchr_contract m | None => True end ->
  supplies_env ctx env -> usable T ->
  (fine env T -> b_expand_to_string m S debug ctx (template_text T) = match written_template S debug ctx env T with Some s => Ok s | None => Panic end) /\
  (b_expand_to_string m S debug ctx (template_text T) = Panic <-> fine env T /\ written_template S debug ctx env T = None).
Proof. exact (fun m S debug ctx env T Hm => b_expansion m Hm S debug ctx env T). Qed.
Print Assumptions C79_expand.
(** The expansion with a dynamic context and any writer is the one of C37, for every string. *)
Theorem C79_dynamic : forall m St Wr S debug (ctx : DynCtx St) (w : Wr -> str -> wstep Wr) st t c,
  match m with Some m => memchr_contract m | None => True end ->
  b_expand_dynamic m S debug ctx w st t c = expand_dynamic S debug ctx w st t c.
Proof. exact (fun m St Wr S debug ctx w st t c Hm => dynamic_eq m Hm S debug ctx w st t c). Qed.
Print Assumptions C79_dynamic.

(** Instances: [é] takes two bytes, [あ] three, U+1F600 four. *)
Example C79_applies : memchr_contract crate78.
Proof. exact simple_contract. Qed.
Example C79_ex_decode : forall m, m = None \/ m = Some crate78 ->
  b_bytes_fragments m (utf8s (233 :: lit "%20%zz%4")) = Ok [Direct [195; 169]; DecodedByte 32; StrayPercent; Direct (lit "zz"); StrayPercent; Direct (lit "4")] /\
  b_into_bytes m (lit "hello%20world%C3%a9") = Ok (lit "hello world" ++ [195; 169]) /\
  b_into_bytes m (lit "100% hello%20world") = Ok (lit "100% h world") /\ b_to_bytes m (lit "a%%41") = Ok None.
Proof. intros m [-> | ->]; vm_compute; repeat split. Qed.
Example C79_ex_to_uri : text (b_MappedToUri (lit "a/" ++ [233; 12354; 128512] ++ lit "?b" ++ [233])) = Ok (lit "a/%C3%A9%E3%81%82%F0%9F%98%80?b%C3%A9").
Proof. vm_compute. reflexivity. Qed.
Example C79_ex_template : forall m, m = None \/ m = Some crate78 ->
  b_template_new m (lit "/a{?x,y*,%41.b:3}{+z}") = Ok (lit "/a{?x,y*,%41.b:3}{+z}") /\
  b_template_new m (lit "a%" ++ [12354]) = Panic /\ b_template_new m (lit "a%" ++ [233]) = terr InvalidPercentEncoding 2 /\
  b_template_new m (lit "{x}a" ++ [233]) = terr InvalidCharacter 4 /\ b_template_new m (lit "{x,y:" ++ [233] ++ lit "}") = terr InvalidExpression 6 /\
  b_template_new m (lit "{x" ++ [233]) = terr ExpressionNotClosed 0 /\ b_VarName_new (lit "a.%41") = Ok (lit "a.%41") /\
  b_template_variables m true (lit "a{x,y*}{+x:3}b") = Ok [lit "x"; lit "y"; lit "x"].
Proof. intros m [-> | ->]; vm_compute; repeat split. Qed.
Example C79_ex_expand : forall m, m = None \/ m = Some crate78 ->
  let ctx (_ : str) := VString ([[233; 12354]; lit "b%41"], Ret tt) in
  b_expand_to_string m IriSpec true ctx (lit "{x:1}/{x}/{?x}") = Ok ([233] ++ lit "/" ++ [233; 12354] ++ lit "b%2541/?x=" ++ [233; 12354] ++ lit "b%2541") /\
  b_expand_to_string m UriSpec true (fun _ => VString ([lit "a%E3%81%82bc"], Ret tt)) (lit "{+x:2}") = Ok (lit "a%E3%81%82b") /\
  b_expand_to_string m UriSpec true ctx (lit "{+x}") = Panic /\
  fst (b_expand_dynamic_to_string m UriSpec true (dyn_of (fun _ => VList [([lit "a"], Ret tt)])) (lit "{x}b{y:2}") tt) = terr UnexpectedValueType 5.
Proof. intros m [-> | ->]; vm_compute; repeat split. Qed.
