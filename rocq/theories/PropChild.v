(** * Property C66: encoded names are resolved to entries below the directory of the base.
    Specification: ChildSpec.v, ConfineSpec.v, RawSpec.v, RfcResolve.v.  Model: MEncode.v, MExpand.v, MPath.v, MNormalize.v. *)
From Verif Require Import Base Chars Rfc3986 Utf8 CompSpec RfcResolve PctSpec NormSpec EncodeSpec ConfineSpec RawSpec TemplateSpec ExpandSpec ChildSpec.
From Verif Require Import MValidate MTrusted MFormat MPct MPath MNormalize MEncode MTemplate MExpand PNorm8 PConfine PChild PChild2 PInst.
Open Scope string_scope. Open Scope N_scope. Open Scope list_scope.

(** Any texts but "." and "..", encoded as path segments, put together as a relative path and resolved:
    the result is the directory of the base followed by exactly these segments, which decode to the texts. *)
Theorem C66_names : forall S base B d D vs es,
  reads S base B -> RfcResolve.defined (c_s B) = true -> directory B d -> rds d D -> vs <> [] -> Forall a_name vs ->
  Forall2 (encodes S CPathSegment) vs es ->
  exists p n out, in_segments p es /\ Forall2 (fun v e => decodes e v) vs es /\
    resolve base (lit "./" ++ p) = Ok n /\ MNormalize.display S n = Ok out /\
    reads S out (mkC (c_s B) (c_a B) (safe_path (c_a B) (D ++ p)) None None).
Proof. exact c66_names. Qed.
Print Assumptions C66_names.
(** Such texts can always be encoded. *)
Theorem C66_encodes : forall S vs, Forall a_name vs -> exists es, Forall2 (encodes S CPathSegment) vs es.
Proof. exact names_encode. Qed.
Print Assumptions C66_encodes.
(** Different names give different IRIs. *)
Theorem C66_injective : forall S base B d D vs es ws fs p q n m out,
  reads S base B -> RfcResolve.defined (c_s B) = true -> directory B d -> rds d D ->
  vs <> [] -> ws <> [] -> Forall a_name vs -> Forall a_name ws ->
  Forall2 (encodes S CPathSegment) vs es -> Forall2 (encodes S CPathSegment) ws fs -> in_segments p es -> in_segments q fs ->
  resolve base (lit "./" ++ p) = Ok n -> MNormalize.display S n = Ok out ->
  resolve base (lit "./" ++ q) = Ok m -> MNormalize.display S m = Ok out -> vs = ws.
Proof. exact c66_injective. Qed.
Print Assumptions C66_injective.
(** With everything but unreserved characters encoded, a single name needs no "./". *)
Theorem C66_unreserved : forall S base B d D v e,
  reads S base B -> RfcResolve.defined (c_s B) = true -> directory B d -> rds d D -> a_name v -> v <> [] -> encodes S CUnreserve v e ->
  exists n out, no_slash e /\ decodes e v /\ resolve base e = Ok n /\ MNormalize.display S n = Ok out /\
    reads S out (mkC (c_s B) (c_a B) (safe_path (c_a B) (D ++ e)) None None).
Proof. exact c66_unreserved. Qed.
Print Assumptions C66_unreserved.
(** The same by the template "./{x1}/.../{xn}", whatever the values (and their chunks) are. *)
Theorem C66_template : forall S debug ctx env base B d D xs vs,
  reads S base B -> RfcResolve.defined (c_s B) = true -> directory B d -> rds d D ->
  supplies_env ctx env -> Forall crate_varname xs -> Forall2 (fun x v => env x = Str v) xs vs -> vs <> [] ->
  Forall (fun v => v <> lit "." /\ v <> lit "..") vs ->
  exists p es n out, expand_to_string S debug ctx (template_text (Lit (lit ".") :: path_template xs)) = Ok (lit "./" ++ p) /\
    in_segments p es /\ Forall2 (fun v e => decodes e v) vs es /\
    resolve base (lit "./" ++ p) = Ok n /\ MNormalize.display S n = Ok out /\
    reads S out (mkC (c_s B) (c_a B) (safe_path (c_a B) (D ++ p)) None None).
Proof. exact c66_template. Qed.
Print Assumptions C66_template.

Definition base0 := lit "http://h/srv/../pub/index.html?v".
Definition B0 := mkC (Some (lit "http")) (Some (lit "h")) (lit "/srv/../pub/index.html") (Some (lit "v")) None.
Definition hostile := lit "http://evil/../?#" ++ [233].
Example directory0 : directory B0 (lit "/srv/../pub/").
Proof. apply (dir_path B0 (lit "/srv/../pub") (lit "index.html")); [reflexivity|]. out. Qed.
Example a_name0 : a_name hostile.
Proof. split; [ev|split; discriminate]. Qed.
Example a_name1 : a_name (lit "a:b").
Proof. split; [ev|split; discriminate]. Qed.
Example C66_names_instance := C66_names UriSpec base0 B0 _ (lit "/pub/") [lit "a:b"; hostile] [lit "a:b"; lit "http:%2F%2Fevil%2F..%2F%3F%23%C3%A9"]
  ltac:(rd) eq_refl directory0 ltac:(apply (rds_of UriSpec); ev) ltac:(discriminate)
  (Forall_cons _ a_name1 (Forall_cons _ a_name0 (Forall_nil _))) ltac:(constructor; [ev|constructor; [ev|constructor]]).
Example C66_unreserved_instance := C66_unreserved UriSpec base0 B0 _ (lit "/pub/") hostile (lit "http%3A%2F%2Fevil%2F..%2F%3F%23%C3%A9")
  ltac:(rd) eq_refl directory0 ltac:(apply (rds_of UriSpec); ev) a_name0 ltac:(discriminate) ltac:(ev).
Definition ctx0 : Ctx := fun n => if seqb n (lit "x") then VString (MExpand.display hostile) else VUndefined.
Definition env0 : str -> sval := fun n => if seqb n (lit "x") then Str hostile else Undef.
Example supplies0 : supplies_env ctx0 env0.
Proof. intros n. unfold ctx0, env0. destruct (seqb n (lit "x")); constructor. repeat split; ev. Qed.
Example varname0 : crate_varname (lit "x").
Proof. exists (lit "x"), []. split; [reflexivity|]. split; [|constructor]. left. exists 120. split; reflexivity. Qed.
Example C66_template_instance := C66_template UriSpec true ctx0 env0 base0 B0 _ (lit "/pub/") [lit "x"; lit "x"] [hostile; hostile]
  ltac:(rd) eq_refl directory0 ltac:(apply (rds_of UriSpec); ev) supplies0
  (Forall_cons _ varname0 (Forall_cons _ varname0 (Forall_nil _))) ltac:(repeat constructor) ltac:(discriminate)
  ltac:(constructor; [split; discriminate|constructor; [split; discriminate|constructor]]).
Definition shown (S : Spec) (n : may NormalizationInput) : may str := do n <- n ; MNormalize.display S n.
Example C66_ex : shown UriSpec (resolve base0 (lit "./a:b/http:%2F%2Fevil%2F..%2F%3F%23%C3%A9")) = Ok (lit "http://h/pub/a:b/http:%2F%2Fevil%2F..%2F%3F%23%C3%A9").
Proof. ev. Qed.
(** The exceptions are needed: ".." goes up, and without "./" a segment may be read as a scheme. *)
Example C66_parent : encodes UriSpec CPathSegment (lit "..") (lit "..") /\ shown UriSpec (resolve base0 (lit "./..")) = Ok (lit "http://h/") /\
  shown UriSpec (resolve base0 (lit "a:b")) = Ok (lit "a:b").
Proof. repeat split; ev. Qed.

(** The template "base{x1}/{x2}/.../{xn}", where the base has an authority and its path ends with "/":
    expanded and normalized, the values are still the last segments. *)
Theorem C66_template_normalized : forall S debug ctx env base C dir D x xs vs,
  reads S base C -> RfcResolve.defined (c_s C) = true -> RfcResolve.defined (c_a C) = true ->
  c_p C = dir ++ lit "/" -> c_q C = None -> c_f C = None -> rds (dir ++ lit "/") D -> star crate_literals base ->
  supplies_env ctx env -> Forall crate_varname (x :: xs) -> Forall2 (fun x v => env x = Str v) (x :: xs) vs ->
  Forall (fun v => v <> lit "." /\ v <> lit "..") vs ->
  exists p es n out T D', expand_to_string S debug ctx (template_text (Lit base :: var x :: path_template xs)) = Ok (base ++ p) /\
    in_segments p es /\ Forall2 (fun v e => decodes e v) vs es /\
    normalize (base ++ p) = Ok n /\ MNormalize.display S n = Ok out /\ reads S out T /\
    opt_rel (fun x y => y = map lower x) (c_s C) (c_s T) /\ opt_rel (authority_normal S) (c_a C) (c_a T) /\ pct_normal S D D' /\
    c_p T = D' ++ p /\ c_q T = None /\ c_f T = None.
Proof. exact c66_normalized. Qed.
Print Assumptions C66_template_normalized.
Definition base1 := lit "http://H/a/../%7epub/".
Example C66_template_normalized_instance := C66_template_normalized UriSpec true ctx0 env0 base1
  (mkC (Some (lit "http")) (Some (lit "H")) (lit "/a/../%7epub/") None None) (lit "/a/../%7epub") (lit "/%7epub/") (lit "x") [lit "x"] [hostile; hostile]
  ltac:(rd) eq_refl eq_refl eq_refl eq_refl eq_refl ltac:(apply (rds_of UriSpec); ev) ltac:(apply PTmpl2.lit_scan; ev) supplies0
  (Forall_cons _ varname0 (Forall_cons _ varname0 (Forall_nil _))) ltac:(repeat constructor)
  ltac:(constructor; [split; discriminate|constructor; [split; discriminate|constructor]]).
Example C66_ex2 : expand_to_string UriSpec true ctx0 (base1 ++ lit "{x}") = Ok (base1 ++ lit "http%3A%2F%2Fevil%2F..%2F%3F%23%C3%A9") /\
  shown UriSpec (normalize (base1 ++ lit "http%3A%2F%2Fevil%2F..%2F%3F%23%C3%A9")) = Ok (lit "http://h/~pub/http%3A%2F%2Fevil%2F..%2F%3F%23%C3%A9").
Proof. split; ev. Qed.
(** An authority is needed: without it an empty first value could make one. *)
Example C66_ex3 : let ctx n := if seqb n (lit "x") then VString (MExpand.display []) else VString (MExpand.display (lit "evil")) in
  expand_to_string UriSpec true ctx (lit "s:/{x}/{y}") = Ok (lit "s://evil").
Proof. ev. Qed.
