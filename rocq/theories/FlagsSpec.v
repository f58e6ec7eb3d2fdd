(** * Independent specification: std's padding, and what formatting options do to a builder. *)
From Verif Require Import Base Chars MBuild MFlags.

(** [t] is [s] cut to the precision and filled up to the width, the fill characters being on the side(s)
    that the alignment says (text is left-aligned by default). *)
Definition cut_to (p : option nat) (s : str) : str := match p with Some p => firstn p s | None => s end.
Definition at_least (w : option nat) (n : nat) : nat := match w with Some w => Nat.max w n | None => n end.
Definition padded (o : fopts) (s t : str) : Prop :=
  exists l r, t = repeat (fo_fill o) l ++ cut_to (fo_precision o) s ++ repeat (fo_fill o) r /\
    length t = at_least (fo_width o) (length (cut_to (fo_precision o) s)) /\
    match fo_align o with
    | None | Some ALeft => l = 0%nat
    | Some ARight => r = 0%nat
    | Some ACenter => (l <= r <= l + 1)%nat
    end.
(** The parts of a builder that are written with the options: userinfo given as one string, a password,
    an IPv4 address. *)
Inductive host_padded (o : fopts) : HostRepr -> HostRepr -> Prop :=
| hp_v4 a b c d t : padded o (v4_text a b c d) t -> host_padded o (HostIp (V4 a b c d)) (HostString t)
| hp_other h : (forall a b c d, h <> HostIp (V4 a b c d)) -> host_padded o h h.
Inductive userinfo_padded (o : fopts) : UserinfoRepr -> UserinfoRepr -> Prop :=
| up_none : userinfo_padded o UiNone UiNone
| up_direct u t : padded o u t -> userinfo_padded o (UiDirect u) (UiDirect t)
| up_user u : userinfo_padded o (UiUserPass u None) (UiUserPass u None)
| up_pass u p t : padded o p t -> userinfo_padded o (UiUserPass u (Some p)) (UiUserPass u (Some t)).
Inductive builder_padded (o : fopts) : Builder -> Builder -> Prop :=
| bp_none s p q f n : builder_padded o (mkB s None p q f n) (mkB s None p q f n)
| bp_some s h h' port u u' p q f n : host_padded o h h' -> userinfo_padded o u u' ->
    builder_padded o (mkB s (Some (mkAB h port u)) p q f n) (mkB s (Some (mkAB h' port u')) p q f n).
(** Nothing is written with the options. *)
Definition option_free (b : Builder) : Prop :=
  forall a, b_authority b = Some a ->
    (forall x y z w, ab_host a <> HostIp (V4 x y z w)) /\
    (b_normalize b = true \/ ab_userinfo a = UiNone \/ exists u, ab_userinfo a = UiUserPass u None).
