(** * Model of the [Display] implementations that pass the caller's formatting options on:
    src/build.rs and src/mask_password.rs with width, precision, fill and alignment.

    MBuild.v and MEdit.v model the same functions without options.  All other [Display] implementations
    of the crate only call [write_str], [write_char] and [write!], which do not use the options of the
    caller's formatter. *)
From Verif Require Import Base Chars Utf8 MValidate MTrusted MFormat MSearch MPct MPath MNormalize MBuild MEdit.

(** core: the options of a [Formatter] that [pad] uses. *)
Inductive falign := ALeft | ACenter | ARight.
Record fopts := mkFO { fo_width : option nat; fo_precision : option nat; fo_fill : N; fo_align : option falign }.
(** [{}] *)
Definition no_opts : fopts := mkFO None None 32 None.
(** core [Formatter::padding]: the fill characters before and after; the default alignment is left. *)
Definition padding_split (o : fopts) (n : nat) : nat * nat :=
  match fo_align o with
  | None | Some ALeft => (0, n)
  | Some ARight => (n, 0)
  | Some ACenter => (n / 2, (n + 1) / 2)
  end%nat.
(** core [write_char] in a loop *)
Fixpoint write_fill (c : N) (n : nat) : W unit :=
  match n with O => wret tt | S n => write [c] >> write_fill c n end.
(** core [Formatter::pad], which is [<str as Display>::fmt]. *)
Definition pad (o : fopts) (s : str) : W unit :=
  let s := match fo_precision o with Some p => firstn p s | None => s end in
  match fo_width o with
  | None => write s
  | Some w =>
      if Nat.leb w (length s) then write s
      else let '(pre, post) := padding_split o (w - length s) in
           write_fill (fo_fill o) pre >> write s >> write_fill (fo_fill o) post
  end.
(** core [<Ipv4Addr as Display>::fmt]: without width and precision the text is written directly,
    otherwise it is given to [pad]. *)
Definition v4_fmt (o : fopts) (a b c d : N) : W unit :=
  match fo_width o, fo_precision o with
  | None, None => write (v4_text a b c d)
  | _, _ => pad o (v4_text a b c d)
  end.

Section Fmt.
Variable S : Spec.
Variable o : fopts.
(** build.rs:183-242 [AuthorityBuilder::fmt_write_to]: [userinfo.fmt(f)], [password.fmt(f)] and
    [v.fmt(f)] use the options, everything else does not. *)
Definition fmt_authority_with (a : AuthorityBuilder) (normalize : bool) : W unit :=
  match ab_userinfo a with
  | UiNone => wret tt
  | UiDirect u => (if normalize then PctCaseNormalized S u else pad o u) >> write [AT]
  | UiUserPass user password =>
      (if normalize then PctCaseNormalized S user else write user) >>
      match password with
      | Some p => write [COLON] >> (if normalize then PctCaseNormalized S p else pad o p)
      | None => wret tt
      end >>
      write [AT]
  end >>
  match ab_host a with
  | HostString h => if normalize then normalize_host_port S h else write h
  | HostIp (V4 x y z w) => v4_fmt o x y z w
  | HostIp (V6 segs) => write (lit "[") >> write (v6_text segs) >> write (lit "]")
  end >>
  match ab_port a with
  | PortEmpty => wret tt
  | PortInteger v => write [COLON] >> write (u16_dec v)
  | PortString v => if negb (is_empty v && normalize) then write [COLON] >> write v else wret tt
  end.
(** build.rs:348-415 [Builder::fmt_write_to] *)
Definition fmt_builder_with (b : Builder) (path_is_absolute : bool) : W unit :=
  match b_scheme b with
  | Some s => (if b_normalize b then normalize_scheme s else write s) >> write [COLON]
  | None => wret tt
  end >>
  match b_authority b with
  | Some a => write [SLASH; SLASH] >> fmt_authority_with a (b_normalize b)
  | None => wret tt
  end >>
  (if negb (b_normalize b) then write (b_path b)
   else if is_some (b_scheme b) || is_some (b_authority b) || path_is_absolute then
     fmt_write_normalize S MDefault (is_some (b_authority b)) (from_single_path (b_path b))
   else PctCaseNormalized S (b_path b)) >>
  match b_query b with
  | Some q => write [QMARK] >> (if b_normalize b then normalize_query S q else write q)
  | None => wret tt
  end >>
  match b_fragment b with
  | Some f => write [HASH] >> (if b_normalize b then normalize_fragment S f else write f)
  | None => wret tt
  end.
(** build.rs:1150-1155 [<Built as Display>::fmt] *)
Definition built_display_with (x : Builder * bool) : W unit := fmt_builder_with (fst x) (snd x).
End Fmt.

(** mask_password.rs:62-64, 178-185: the empty string is displayed with the options. *)
Definition mask_display_with (o : fopts) (i : str) : W unit :=
  wdo r <- lift (password_range_to_hide i) ;
  match r with
  | Some (st, e) => write_with_masked_password i st e (pad o [])
  | None => write i
  end.
(** mask_password.rs:282-292: so is the replacement; [f pw o] is its [Display] with the options [o]. *)
Definition replaced_display_with {A} (o : fopts) (i : str) (f : str -> fopts -> W A) : W unit :=
  replaced_display i (fun pw => f pw o).
