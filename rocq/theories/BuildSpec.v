(** * Independent specification: what a builder asks for.  [Builder] (MBuild.v) is only used as the record
    of the values given to the builder. *)
From Verif Require Import Base Chars Rfc3986 CompSpec PctSpec RfcResolve NormSpec EditSpec MValidate MTrusted MBuild.

(** [s] is the decimal notation of [n], without leading zeros. *)
Definition value_of (base : N) (s : str) : N :=
  fold_left (fun v c => v * base + (if c <? 58 then c - 48 else c - 87)) s 0.
Definition decimal (n : N) (s : str) : Prop :=
  s <> [] /\ forallb (fun c => (48 <=? c) && (c <=? 57)) s = true /\ value_of 10 s = n /\
  (s = lit "0" \/ starts_with (lit "0") s = false).

(** The texts that were asked for. *)
Definition userinfo_text (u : UserinfoRepr) : option str :=
  match u with
  | UiNone => None
  | UiDirect s => Some s
  | UiUserPass user None => Some user
  | UiUserPass user (Some p) => Some (user ++ lit ":" ++ p)
  end.
Definition host_text (h : HostRepr) : str :=
  match h with
  | HostString s => s
  | HostIp (V4 a b c d) => v4_text a b c d
  | HostIp (V6 segs) => lit "[" ++ v6_text segs ++ lit "]"
  end.
Definition port_text (p : PortRepr) : option str :=
  match p with PortEmpty => None | PortInteger n => Some (u16_dec n) | PortString s => Some s end.
Definition authority_text (a : AuthorityBuilder) : str :=
  authority_string (userinfo_text (ab_userinfo a)) (host_text (ab_host a)) (port_text (ab_port a)).
Definition requested (b : Builder) : comps :=
  mkC (b_scheme b) (option_map authority_text (b_authority b)) (b_path b) (b_query b) (b_fragment b).

(** The values have their Rust types: u8 octets, u16 port, eight u16 segments. *)
Definition octet (n : N) : Prop := n < 256.
Definition values_ok (b : Builder) : Prop :=
  match b_authority b with
  | None => True
  | Some a =>
      match ab_port a with PortInteger n => n < 65536 | _ => True end /\
      match ab_host a with
      | HostIp (V4 x y z w) => octet x /\ octet y /\ octet z /\ octet w
      | HostIp (V6 l) => length l = 8%nat /\ Forall (fun n => n < 65536) l
      | _ => True
      end
  end.

(** The parts of the authority are well formed, each by itself; a user name contains no ":". *)
Definition authority_parts_ok (S : Spec) (a : AuthorityBuilder) : Prop :=
  match ab_userinfo a with
  | UiNone => True
  | UiDirect s => userinfo S s
  | UiUserPass user p => ~ In 58 user /\ userinfo S user /\ opt_in (userinfo S) p
  end /\
  match ab_host a with HostString h => host S h | HostIp _ => True end /\
  opt_in port (port_text (ab_port a)).

(** Every component is what the grammar allows at its place. *)
Definition representable (S : Spec) (b : Builder) : Prop :=
  opt_in scheme (b_scheme b) /\
  match b_authority b with Some a => authority_parts_ok S a | None => True end /\
  path_rule S (requested b) (b_path b) /\
  opt_in (query S) (b_query b) /\ opt_in (fragment S) (b_fragment b).
(** The same without the path. *)
Definition parts_ok (S : Spec) (b : Builder) : Prop :=
  opt_in scheme (b_scheme b) /\ match b_authority b with Some a => authority_parts_ok S a | None => True end /\
  opt_in (query S) (b_query b) /\ opt_in (fragment S) (b_fragment b).
(** The form of the path fits the presence of scheme and authority (section 3.3, first paragraph), whatever
    characters it consists of: with an authority it is empty or begins with "/"; otherwise it does not begin
    with "//", and, without a scheme, its first segment contains no ":". *)
Definition path_shape (b : Builder) : Prop :=
  if defined (option_map authority_text (b_authority b)) then b_path b = [] \/ exists r, b_path b = lit "/" ++ r
  else (~ exists r, b_path b = lit "//" ++ r) /\
       (b_scheme b = None -> ~ exists seg r, b_path b = seg ++ lit ":" ++ r /\ no_slash seg).
(** With normalization: "//" at the start of the path is no problem, nor is a ":" in the first segment of
    an absolute path. *)
Definition norm_shape (b : Builder) : Prop :=
  (defined (option_map authority_text (b_authority b)) = true -> b_path b = [] \/ exists r, b_path b = lit "/" ++ r) /\
  (b_scheme b = None -> b_authority b = None -> ~ exists seg r, b_path b = seg ++ lit ":" ++ r /\ no_slash seg).
(** The same for a builder that normalizes: without an authority, any absolute path can be written
    after normalization, and any path at all if there is a scheme. *)
Definition normalizable (S : Spec) (b : Builder) : Prop :=
  opt_in scheme (b_scheme b) /\
  match b_authority b with Some a => authority_parts_ok S a | None => True end /\
  path S (b_path b) /\
  (path_rule S (requested b) (b_path b) \/
   b_authority b = None /\ (defined (b_scheme b) = true \/ starts_with (lit "/") (b_path b) = true)) /\
  opt_in (query S) (b_query b) /\ opt_in (fragment S) (b_fragment b).

(** The components that the requested type can have. *)
Definition fits (t : ty) (C : comps) : Prop :=
  match t with
  | TReference => True
  | TIri => defined (c_s C) = true
  | TAbsolute => defined (c_s C) = true /\ c_f C = None
  | TRelative => c_s C = None
  | _ => False
  end.

(** Histories of setter calls: the value of the last call that concerns a field, or the default. *)
Inductive latest {A} (concerns : setter -> option A) (default : A) : list setter -> A -> Prop :=
| latest_default : forall l, (forall o, In o l -> concerns o = None) -> latest concerns default l default
| latest_call : forall l o v r, concerns o = Some v -> (forall o', In o' r -> concerns o' = None) ->
    latest concerns default (l ++ o :: r) v.
Definition on_scheme (o : setter) : option (option str) :=
  match o with OpScheme v => Some (Some v) | OpUnsetScheme => Some None | _ => None end.
Definition on_path (o : setter) : option str := match o with OpPath v => Some v | _ => None end.
Definition on_query (o : setter) : option (option str) :=
  match o with OpQuery v => Some (Some v) | OpUnsetQuery => Some None | _ => None end.
Definition on_fragment (o : setter) : option (option str) :=
  match o with OpFragment v => Some (Some v) | OpUnsetFragment => Some None | _ => None end.
Definition on_normalize (o : setter) : option bool :=
  match o with OpNormalize => Some true | OpUnsetNormalize => Some false | _ => None end.
(** Every call about a part of the authority makes the authority present, also the "unset" ones. *)
Definition on_authority (o : setter) : option bool :=
  match o with
  | OpUnsetAuthority => Some false
  | OpUserinfo _ | OpUnsetUserinfo | OpHost _ | OpIpAddress _ | OpPort _ | OpUnsetPort => Some true
  | _ => None
  end.
Definition on_userinfo (o : setter) : option UserinfoRepr :=
  match o with OpUserinfo v => Some v | OpUnsetUserinfo | OpUnsetAuthority => Some UiNone | _ => None end.
Definition on_host (o : setter) : option HostRepr :=
  match o with
  | OpHost v => Some (HostString v) | OpIpAddress a => Some (HostIp a)
  | OpUnsetAuthority => Some (HostString []) | _ => None
  end.
Definition on_port (o : setter) : option PortRepr :=
  match o with OpPort v => Some v | OpUnsetPort | OpUnsetAuthority => Some PortEmpty | _ => None end.

(** Finding F7: the absolute path of a reference without scheme and authority becomes "/" when its dot
    segments are removed, and is not "/" already. *)
Definition collapses (S : Spec) (b : Builder) : Prop :=
  b_scheme b = None /\ b_authority b = None /\ starts_with (lit "/") (b_path b) = true /\ b_path b <> lit "/" /\
  path_normal S false false (b_path b) (lit "/").
