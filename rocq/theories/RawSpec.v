(** * Raw data given to a builder through percent-encoding (specification of C56). *)
From Verif Require Import Base Chars Rfc3986 Utf8 CompSpec PctSpec RfcResolve NormSpec EncodeSpec EditSpec MValidate MTrusted MFormat MPct MEncode MBuild.
Open Scope string_scope. Open Scope N_scope. Open Scope list_scope.

(** The data of an IRI with an authority: any strings at all, except for the scheme. *)
Record raw := mkRaw {
  r_scheme : str; r_user : option str; r_password : option str; r_host : str; r_port : option N;
  r_segments : list str; r_query : option str; r_fragment : option str }.
(** Rust strings, a scheme, a u16; a password only with a user name (which may be empty). *)
Definition raw_ok (R : raw) : Prop :=
  let ok s := all_scalar s = true in
  scheme (r_scheme R) /\ opt_in ok (r_user R) /\ opt_in ok (r_password R) /\ ok (r_host R) /\
  match r_port R with Some n => n < 65536 | None => True end /\ Forall ok (r_segments R) /\
  opt_in ok (r_query R) /\ opt_in ok (r_fragment R) /\ (r_password R <> None -> r_user R <> None).

(** [e] is [s] percent-encoded for the component [ctx]; [s] is [e] percent-decoded. *)
Definition encodes (S : Spec) (ctx : Context) (s e : str) : Prop := text (PercentEncoded S ctx (write s)) = Ok e.
Definition decodes (e s : str) : Prop := into_string (utf8s e) = Ok (Some s).
(** [E] is [R] with every string encoded for its component. *)
Definition encoded (S : Spec) (R E : raw) : Prop :=
  r_scheme E = r_scheme R /\ opt_rel (encodes S CUserOrPassword) (r_user R) (r_user E) /\
  opt_rel (encodes S CUserOrPassword) (r_password R) (r_password E) /\ encodes S CRegName (r_host R) (r_host E) /\
  r_port E = r_port R /\ Forall2 (encodes S CPathSegment) (r_segments R) (r_segments E) /\
  opt_rel (encodes S CQuery) (r_query R) (r_query E) /\ opt_rel (encodes S CFragment) (r_fragment R) (r_fragment E).

(** The calls of the builder. *)
Definition slash_each (l : list str) : str := flat_map (fun x => lit "/" ++ x) l.
Definition calls (E : raw) : list setter :=
  [OpScheme (r_scheme E); OpHost (r_host E); OpPath (slash_each (r_segments E))] ++
  match r_user E with Some u => [OpUserinfo (UiUserPass u (r_password E))] | None => [] end ++
  match r_port E with Some n => [OpPort (PortInteger n)] | None => [] end ++
  match r_query E with Some q => [OpQuery q] | None => [] end ++
  match r_fragment E with Some f => [OpFragment f] | None => [] end.

(** Reading: the userinfo as user name and password, and the path as segments. *)
Definition user_of (o u p : option str) : Prop :=
  match o, u, p with
  | None, None, None => True
  | Some x, Some y, None => x = y /\ ~ In 58 y
  | Some x, Some y, Some z => x = y ++ lit ":" ++ z /\ ~ In 58 y
  | _, _, _ => False
  end.
Definition segments_of (p : str) (l : list str) : Prop := p = slash_each l /\ Forall (fun x => ~ In 47 x) l.
