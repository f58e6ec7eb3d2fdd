(** * Client programs: what they can get hold of with the safe API.  The functions called are those of
    MTrusted.v, MTypes.v, MNormalize.v, MEdit.v, MEncode.v, MBuild.v, which cite the code; memory is available. *)
From Verif Require Import Base Chars Rfc3986 Utf8 CompSpec RfcResolve NormSpec CallSpec BuildSpec MValidate MTrusted MTypes MFormat MWriters MPct MPath MNormalize MEdit MEncode MBuild MCalls.

(** A string of one of the six types, for one of the two specs. *)
Record value := mkV { v_spec : Spec; v_ty : ty; v_str : str }.
Definition kind_of (t : ty) : option kind :=
  match t with TAbsolute => Some KAbsolute | TIri => Some KIri | TReference => Some KReference | TRelative => Some KRelative | _ => None end.
(** Which calls the value has; queries and fragments have the conversions only.
    (What [has_call] demands of typed arguments is demanded below, by [typed_arguments].) *)
Definition has (S : Spec) (t : ty) (c : call) : Prop :=
  match kind_of t with
  | Some k => match c with
              | CResolveOwned _ _ => True
              | CSetFragment _ => k <> KAbsolute
              | _ => has_call S k c
              end
  | None => match c with
            | CAsUri | CMapToUriOwned | CEncodeInline | CEncodeIntoUri | CIntoUri => S = IriSpec
            | CAsIri => S = UriSpec
            | _ => False
            end
  end.

Definition may_of {E A} (r : res E A) : may A := match r with Ok x => Ok x | _ => Panic end.
Definition opt_value (S : Spec) (t : ty) (o : option str) : list value := match o with Some x => [mkV S t x] | None => [] end.
(** The strings with a type that the call returns, or leaves in place of the string it edits; [[]] for the
    calls that return none. *)
Definition results (debug : bool) (S : Spec) (t : ty) (i : str) (c : call) : may (list value) :=
  let norm (keep : bool) := if keep then normalize_preserve i else normalize i in
  match c with
  | CQueryTyped => do q <- query_ri debug S t i ; Ok (opt_value S TQuery q)
  | CFragmentTyped => do f <- fragment_ri debug S t i ; Ok (opt_value S TFragment f)
  | CToIri => do r <- to_iri debug S i ; Ok (match r with inl x => [mkV S TIri x] | inr x => [mkV S TRelative x] end)
  | CToRelative => do r <- to_relative_iri debug S i ; Ok (match r with inl x => [mkV S TRelative x] | inr x => [mkV S TIri x] end)
  | CIntoIri => do r <- into_iri debug S i ; Ok (match r with inl x => [mkV S TIri x] | inr x => [mkV S TRelative x] end)
  | CIntoRelative => do r <- into_relative_iri debug S i ; Ok (match r with inl x => [mkV S TRelative x] | inr x => [mkV S TIri x] end)
  | CToAbsolute => do a <- to_absolute debug S i ; Ok [mkV S TAbsolute a]
  | CToAbsoluteAndFragment => do (a, f) <- to_absolute_and_fragment debug S i ; Ok (mkV S TAbsolute a :: opt_value S TFragment f)
  | CIntoAbsolute => do a <- into_absolute debug S i ; Ok [mkV S TAbsolute a]
  | CIntoAbsoluteAndFragment => do (a, f) <- into_absolute_and_fragment debug S i ; Ok (mkV S TAbsolute a :: opt_value S TFragment f)
  | CUpcast to => do x <- upcast debug S (of_kind to) i ; Ok [mkV S (of_kind to) x]
  | CNormalizeOwned keep => do n <- norm keep ; do x <- to_dedicated_string debug S t n ; Ok [mkV S t x]
  | CResolveOwned base m => do n <- resolve base i ; do x <- to_dedicated_string debug S TIri (set_mode n (of_mode m)) ; Ok [mkV S TIri x]
  | CMaskOwned => do x <- may_of (mask_to_dedicated_string debug true S t i) ; Ok [mkV S t x]
  | CRemovePassword => do x <- remove_password_inline debug S t i ; Ok [mkV S t x]
  | CRemoveNonemptyPassword => do x <- remove_nonempty_password_inline debug S t i ; Ok [mkV S t x]
  | CReplaceHost h only => do (_, x) <- replace_host debug true S t i h only ; Ok [mkV S t x]
  | CSetFragment f => do x <- set_fragment debug S t i f ; Ok [mkV S t x]
  | CAsUri => do o <- as_uri debug t i ; Ok (opt_value UriSpec t o)
  | CAsIri => do x <- as_iri debug t i ; Ok [mkV IriSpec t x]
  | CMapToUriOwned => do x <- mapped_to_dedicated_string debug t i ; Ok [mkV UriSpec t x]
  | CEncodeInline => let (r, x) := try_encode_to_uri_inline true debug t i in do _ <- may_of r ; Ok [mkV IriSpec t x]
  | CEncodeIntoUri => do x <- may_of (try_encode_into_uri true debug t i) ; Ok [mkV UriSpec t x]
  | CIntoUri => do r <- try_into_uri debug t i ; Ok (match r with inl x => [mkV UriSpec t x] | inr x => [mkV IriSpec t x] end)
  | _ => Ok []
  end.

(** The strings a program can have.  [allowed] restricts the calls, [allowed_build] the builders.  A typed
    argument of a call is one of the program's own strings. *)
Definition typed_arguments (S : Spec) (c : call) : list value :=
  match c with
  | CResolveOwned base _ => [mkV S TAbsolute base]
  | CSetFragment f => opt_value S TFragment f
  | _ => []
  end.
Section Reach.
Variables (debug : bool) (allowed : Spec -> ty -> str -> call -> Prop) (allowed_build : Spec -> ty -> Builder -> Prop).
Inductive reach : list value -> Prop :=
| r_start : reach []
| r_new : forall pool S t s x, reach pool -> new S t s = Ok x -> reach (mkV S t x :: pool)
| r_call : forall pool S t i c vs, reach pool -> In (mkV S t i) pool -> has S t c -> incl (typed_arguments S c) pool ->
    allowed S t i c -> results debug S t i c = Ok vs -> reach (vs ++ pool)
| r_build : forall pool S t b x s, reach pool -> editable t = true -> build S t b = Ok x ->
    allowed_build S t b -> built_to_dedicated_string S debug t x = Ok s -> reach (mkV S t s :: pool).
End Reach.
(** What a program without debug assertions has to avoid. *)
Definition careful (S : Spec) (t : ty) (i : str) (c : call) : Prop :=
  forall k C, kind_of t = Some k -> reads S i C -> ~ damaging S k C c.
Definition careful_build (S : Spec) (t : ty) (b : Builder) : Prop :=
  values_ok b /\ path S (b_path b) /\ (b_normalize b = true -> ~ collapses S b).
