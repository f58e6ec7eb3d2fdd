(** * Model of the [Debug] implementations that handle a password: src/build.rs, src/format.rs.

    A [Debug::fmt] that only calls [debug_struct]/[debug_tuple] builders is modelled by the tree of those
    calls; [{:?}] and [{:#?}] are two renderings of that tree, of which [debug_text] is the first.  The
    escaping that std does for [&str] is the parameter [quote]. *)
From Coq Require Import String.
From Verif Require Import Base Chars MValidate MFormat MBuild.
Open Scope string_scope. Open Scope N_scope. Open Scope list_scope.

Inductive dbg :=
| DStr (s : str)                                   (** [Debug for str] *)
| DRaw (s : str)                                   (** [write_str] *)
| DStruct (name : str) (fields : list (str * dbg)) (** [debug_struct(name).field(..).finish()] *)
| DTuple (name : str) (fields : list dbg).         (** [debug_tuple(name).field(..).finish()] *)
Section Render.
Variable quote : str -> str.
(** core::fmt: [{:?}] of a tree of builder calls. *)
Fixpoint debug_text (d : dbg) : str :=
  match d with
  | DStr s => quote s
  | DRaw s => s
  | DStruct name fields =>
      let fix go (first : bool) (l : list (str * dbg)) : str :=
        match l with
        | [] => if first then [] else lit " }"
        | (n, x) :: r => (if first then lit " { " else lit ", ") ++ n ++ lit ": " ++ debug_text x ++ go false r
        end in
      name ++ go true fields
  | DTuple name fields =>
      let fix go (first : bool) (l : list dbg) : str :=
        match l with
        | [] => if first then [] else lit ")"
        | x :: r => (if first then lit "(" else lit ", ") ++ debug_text x ++ go false r
        end in
      name ++ go true fields
  end.
End Render.

(** [derive(Debug)] of [Option] and [bool]. *)
Definition dbg_option {A} (f : A -> dbg) (o : option A) : dbg :=
  match o with Some a => DTuple (lit "Some") [f a] | None => DTuple (lit "None") [] end.
Definition dbg_bool (b : bool) : dbg := DRaw (if b then lit "true" else lit "false").
(** format.rs:138-146 [Censored] *)
Definition dbg_censored : dbg := DRaw (lit "{censored}").
(** build.rs:119-131 [UserinfoBuilder::to_user_password]; [find_split] keeps the separator in the second
    part. *)
Definition to_user_password (u : UserinfoRepr) : option (str * option str) :=
  match u with
  | UiNone => None
  | UiDirect s => match find_split s COLON with
                  | None => Some (s, None)
                  | Some (user, password) => Some (user, Some password)
                  end
  | UiUserPass user password => Some (user, password)
  end.
(** build.rs:98-115 [Debug for UserinfoBuilder] *)
Definition dbg_userinfo (u : UserinfoRepr) : dbg :=
  DStruct (lit "UserinfoBuilder")
    match to_user_password u with
    | Some (user, password) =>
        (lit "user", DStr user) ::
        (if match password with None => true | Some p => is_empty p end
         then [(lit "password", dbg_option DStr password)]
         else [(lit "password", DTuple (lit "Some") [dbg_censored])])
    | None => []
    end.
(** build.rs:30-31, 69-82 (derived) *)
Definition dbg_port (p : PortRepr) : dbg :=
  DTuple (lit "PortBuilder")
    [match p with
     | PortEmpty => DTuple (lit "Empty") []
     | PortInteger n => DTuple (lit "Integer") [DRaw (u16_dec n)]
     | PortString s => DTuple (lit "String") [DStr s]
     end].
(** build.rs:244-252 (derived); [Debug for IpAddr] is the variant name and the [Display] text. *)
Definition dbg_host (h : HostRepr) : dbg :=
  match h with
  | HostString s => DTuple (lit "String") [DStr s]
  | HostIp a =>
      DTuple (lit "IpAddr")
        [match a with
         | V4 x y z w => DTuple (lit "V4") [DRaw (v4_text x y z w)]
         | V6 l => DTuple (lit "V6") [DRaw (v6_text l)]
         end]
  end.
(** build.rs:172-181 (derived) *)
Definition dbg_authority (a : AuthorityBuilder) : dbg :=
  DStruct (lit "AuthorityBuilder")
    [(lit "host", dbg_host (ab_host a)); (lit "port", dbg_port (ab_port a)); (lit "userinfo", dbg_userinfo (ab_userinfo a))].
(** build.rs:307-321 (derived) *)
Definition dbg_builder (b : Builder) : dbg :=
  DStruct (lit "Builder")
    [(lit "scheme", dbg_option DStr (b_scheme b)); (lit "authority", dbg_option dbg_authority (b_authority b));
     (lit "path", DStr (b_path b)); (lit "query", dbg_option DStr (b_query b));
     (lit "fragment", dbg_option DStr (b_fragment b)); (lit "normalize", dbg_bool (b_normalize b))].
(** build.rs:1115-1123 (derived); [phantom] is the text of the [PhantomData] field, which depends on the
    type only. *)
Definition dbg_built (phantom : str) (x : Builder * bool) : dbg :=
  DStruct (lit "Built")
    [(lit "builder", dbg_builder (fst x)); (lit "path_is_absolute", dbg_bool (snd x)); (lit "_ty_str", DRaw phantom)].
