(** * Model of src/mask_password.rs, src/raw.rs, [replace_domain_impl] (src/types/generic.rs) and of the
      editing methods of the owned string types (src/types/generic/{absolute,normal,reference,relative}.rs).

    Offsets are counted in scalars.  All offsets the code computes lie next to an ASCII delimiter, so
    they correspond to byte offsets on character boundaries, with one exception
    ([remove_password_inline] subtracts one byte), which [prev_byte] models. *)
From Verif Require Import Base Chars MValidate MTrusted MFormat MWriters.

(** The types that have the password and host methods / [set_fragment]. *)
Definition editable (t : ty) : bool := match t with TQuery | TFragment => false | _ => true end.
Definition fragmentable (t : ty) : bool := match t with TIri | TReference | TRelative => true | _ => false end.

(** core [str::find] with a string pattern: position of the first occurrence. *)
Fixpoint find_str (pat s : str) : option nat :=
  if starts_with pat s then Some 0%nat
  else match s with
       | [] => None
       | _ :: r => match find_str pat r with Some n => Some (S n) | None => None end
       end.
(** core [str::find] with a character. *)
Definition find_chr (c : N) (s : str) : option nat :=
  match split_first (N.eqb c) s with Some (a, _, _) => Some (length a) | None => None end.
(** alloc [String::drain(a..b)] (result dropped): panics unless [a <= b <= len]. *)
Definition drain (s : str) (a b : nat) : may str :=
  do l <- slice_p s 0 a ;
  do _ <- slice_p s a b ;
  do r <- slice_p s b (length s) ;
  Ok (l ++ r).
(** alloc [String::replace_range(a..b, with)]. *)
Definition replace_range (s : str) (a b : nat) (w : str) : may str :=
  do l <- slice_p s 0 a ;
  do _ <- slice_p s a b ;
  do r <- slice_p s b (length s) ;
  Ok (l ++ w ++ r).
(** The byte offset [n - 1], used as an index of a string: in the middle of a character (the previous
    character takes several bytes) [String::drain] panics. *)
Definition prev_byte (s : str) (n : nat) : may nat :=
  match n with
  | O => Panic
  | S m => match nth_error s m with
           | Some c => if Nat.eqb (clen c) 1 then Ok m else Panic
           | None => Panic
           end
  end.
(** [debug_assert_eq!(Self::validate(buf), Ok(()))] *)
Definition debug_valid (debug : bool) (S : Spec) (t : ty) (s : str) : may unit :=
  if debug && negb (is_ok (validate S t s)) then Panic else Ok tt.

(** ** src/mask_password.rs *)
(** mask_password.rs:22-38 [password_range_to_hide]; the [expect] is a panic. *)
Definition password_range_to_hide (i : str) : may (option (nat * nat)) :=
  match authority_components i with
  | None => Ok None
  | Some a =>
      do u <- ac_userinfo a ;
      match u with
      | None => Ok None
      | Some userinfo =>
          match find_str [SLASH; SLASH] i with
          | None => Panic
          | Some k =>
              let authority_start := (2 + k)%nat in
              let e := (authority_start + length userinfo)%nat in
              let st := (authority_start + match find_chr COLON userinfo with
                                           | Some v => v + 1 | None => length userinfo end)%nat in
              Ok (Some (st, e))
          end
      end
  end.
(** mask_password.rs:41-59 [write_with_masked_password]; [alt] is any [Display]. *)
Definition write_with_masked_password {A} (s : str) (st e : nat) (alt : W A) : W unit :=
  (if Nat.leb e (length s) then wret tt else wpanic) >>
  (wdo l <- lift (slice_p s 0 st) ; write l) >>
  (wdo _ <- alt ; wret tt) >>
  (wdo r <- lift (slice_p s e (length s)) ; write r).
(** mask_password.rs:62-64, 178-185: [Display] of [PasswordMasked].  (Padding and width options of the
    formatter are in MFlags.v.) *)
Definition mask_display (i : str) : W unit :=
  wdo r <- lift (password_range_to_hide i) ;
  match r with
  | Some (st, e) => write_with_masked_password i st e (write [])
  | None => write i
  end.
(** mask_password.rs:187-193, 295-301: [Debug] of [PasswordMasked] and [PasswordReplaced]. *)
Definition angle_debug (d : W unit) : W unit := write (lit "<") >> d >> write (lit ">").
(** mask_password.rs:195-220 [try_to_dedicated_string]; [alloc]: whether [try_reserve] succeeds. *)
Definition mask_to_dedicated_string (debug alloc : bool) (S : Spec) (t : ty) (i : str) : res TryReserveError str :=
  match password_range_to_hide i with
  | Ok None => Ok i
  | Ok (Some (st, e)) =>
      if negb alloc then Err AllocFailed
      else match slice i 0 st, slice i e (length i) with
           | Some l, Some r =>
               match new_unchecked_justified debug S t (l ++ r) with Ok x => Ok x | _ => Panic end
           | _, _ => Panic
           end
  | _ => Panic
  end.
(** mask_password.rs:247-276 [PasswordReplaced::with_replacer] and mask_password.rs:282-292 its [Display];
    [replace_password_with(f)] is [f], [replace_password(alt)] is [fun _ => alt]
    (mask_password.rs:135-181). *)
Definition replaced_display {A} (i : str) (f : str -> W A) : W unit :=
  wdo r <- lift (password_range_to_hide i) ;
  match r with
  | Some (st, e) =>
      wdo pw <- lift (slice_p i st e) ;
      write_with_masked_password i st e (f pw)
  | None => write i
  end.

(** ** Password removal of the owned types: absolute.rs:653-722, normal.rs:899-970, reference.rs:664-738,
    relative.rs:511-585.  Result: the new contents of the string. *)
Definition remove_password_inline (debug : bool) (S : Spec) (t : ty) (i : str) : may str :=
  do r <- password_range_to_hide i ;
  match r with
  | None => Ok i
  | Some (st, e) =>
      do separator_colon <- prev_byte i st ;
      do s <- drain i separator_colon e ;
      do _ <- debug_valid debug S t s ; Ok s
  end.
Definition remove_nonempty_password_inline (debug : bool) (S : Spec) (t : ty) (i : str) : may str :=
  do r <- password_range_to_hide i ;
  match r with
  | None => Ok i
  | Some (st, e) =>
      if negb (Nat.ltb st e) then Ok i
      else
        do _ <- (if debug && negb (match nth_error i (st - 1) with Some c => c =? COLON | None => false end)
                 then Panic else Ok tt) ;
        do s <- drain i st e ;
        do _ <- debug_valid debug S t s ; Ok s
  end.

(** ** Host replacement *)
(** types/generic.rs:67-103 [replace_domain_impl]: the range of the new host and the string afterwards;
    [alloc]: whether [try_reserve] succeeds (asked only if the new host is not shorter, in bytes). *)
Definition replace_domain_impl (alloc : bool) (S : Spec) (i new_host : str) (replace_only_reg_name : bool)
  : may (res TryReserveError (option (nat * nat)) * str) :=
  match from_iri_get_offset i with
  | None => Ok (Ok None, i)
  | Some (a, offset) =>
      do old_host <- ac_host a ;
      let hs := (offset + host_start a)%nat in
      let old_host_end := (hs + length old_host)%nat in
      if is_err (validate_host S new_host) then Ok (Ok None, i)
      else if replace_only_reg_name && negb (is_host_reg_name old_host) then Ok (Ok None, i)
      else if Nat.leb (blen old_host) (blen new_host) && negb alloc then Ok (Err AllocFailed, i)
      else
        do s <- replace_range i hs old_host_end new_host ;
        Ok (Ok (Some (hs, (hs + length new_host)%nat)), s)
  end.
(** The type whose validator the debug assertion calls: absolute.rs:746, normal.rs:993 (sic:
    [RiAbsoluteStr]), reference.rs:759, relative.rs:606. *)
Definition replace_host_asserts (t : ty) : ty :=
  match t with TIri => TAbsolute | _ => t end.
(** absolute.rs:732-753, normal.rs:978-1000, reference.rs:745-766, relative.rs:592-613
    [try_replace_host_impl]; [try_replace_host] is [false], [try_replace_host_reg_name] is [true]. *)
Definition try_replace_host_impl (debug alloc : bool) (S : Spec) (t : ty) (i new_host : str) (only : bool)
  : may (res TryReserveError (option str) * str) :=
  do (r, s) <- replace_domain_impl alloc S i new_host only ;
  do _ <- debug_valid debug S (replace_host_asserts t) s ;
  match r with
  | Ok (Some (a, b)) => do h <- slice_p s a b ; Ok (Ok (Some h), s)
  | Ok None => Ok (Ok None, s)
  | Err e => Ok (Err e, s)
  | Panic => Panic
  end.
(** absolute.rs:778-781, 861-864 etc. [replace_host], [replace_host_reg_name]: [expect]s the allocation. *)
Definition replace_host (debug alloc : bool) (S : Spec) (t : ty) (i new_host : str) (only : bool)
  : may (option str * str) :=
  do (r, s) <- try_replace_host_impl debug alloc S t i new_host only ;
  match r with Ok h => Ok (h, s) | _ => Panic end.

(** ** src/raw.rs and the fragment methods *)
(** raw.rs:28-32 [remove_fragment] ([truncate] at a position that was found). *)
Definition remove_fragment (s : str) : str :=
  match find_chr HASH s with Some n => firstn n s | None => s end.
(** raw.rs:16-23 [set_fragment] *)
Definition raw_set_fragment (s : str) (fragment : option str) : str :=
  let s := remove_fragment s in
  match fragment with Some f => (s ++ [HASH]) ++ f | None => s end.
(** core [String::pop] *)
Definition pop (s : str) : str * option N :=
  match rev s with [] => ([], None) | c :: r => (rev r, Some c) end.
(** raw.rs:38-56 [split_fragment_owned]; [split_off] and the [assert_eq!]s may panic. *)
Definition split_fragment_owned (s : str) : may (str * option str) :=
  match split_fragment s with
  | (_, None) => Ok (s, None)
  | (prefix, Some _) =>
      let prefix_len := length prefix in
      do head <- slice_p s 0 (prefix_len + 1) ;
      do fragment <- slice_p s (prefix_len + 1) (length s) ;
      let '(s, hash) := pop head in
      match hash with
      | Some c => if (c =? HASH) && Nat.eqb (length s) prefix_len then Ok (s, Some fragment) else Panic
      | None => Panic
      end
  end.
(** normal.rs:865-868, reference.rs:630-633, relative.rs:477-480 *)
Definition set_fragment (debug : bool) (S : Spec) (t : ty) (i : str) (fragment : option str) : may str :=
  let s := raw_set_fragment i fragment in
  do _ <- debug_valid debug S t s ; Ok s.
(** normal.rs:807-830 *)
Definition into_absolute_and_fragment (debug : bool) (S : Spec) (i : str) : may (str * option str) :=
  do (p, f) <- split_fragment_owned i ;
  do p <- new_unchecked_justified debug S TAbsolute p ;
  do f <- match f with
          | Some f => do x <- new_unchecked_justified debug S TFragment f ; Ok (Some x)
          | None => Ok None end ;
  Ok (p, f).
(** normal.rs:850-860 *)
Definition into_absolute (debug : bool) (S : Spec) (i : str) : may str :=
  new_unchecked_justified debug S TAbsolute (remove_fragment i).
(** reference.rs:586-612 [into_iri]: [inl] an IRI, [inr] a relative reference; reference.rs:620-625. *)
Definition into_iri (debug : bool) (S : Spec) (s : str) : may (str + str) :=
  if is_some (extract_scheme s)
  then do x <- new_unchecked_justified debug S TIri s ; Ok (inl x)
  else do x <- new_unchecked_justified debug S TRelative s ; Ok (inr x).
Definition into_relative_iri (debug : bool) (S : Spec) (s : str) : may (str + str) :=
  do r <- into_iri debug S s ; Ok (match r with inl x => inr x | inr x => inl x end).
