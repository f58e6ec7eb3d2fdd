(** * Model of the fallible ([try_]) operations when memory may run out.  [mem] is the allocator (OomSpec.v). *)
From Verif Require Import Base Chars Rfc3986 Utf8 CompSpec RfcResolve NormSpec CallSpec BuildSpec OomSpec MValidate MTrusted MTypes MFormat MWriters MPct MPath MNormalize MEdit MEncode MBuild MCalls MProg.

Section Memory.
Variable mem : memory.
(** format.rs:80-93 [StringWriter::write_str]: [try_reserve(s.len())] *)
Definition m_write (w : string_writer) (s : str) : wstep string_writer :=
  if sw_error w then Stop w
  else if mem (sw_calls w) (blen (sw_buffer w)) (blen s) then Cont (mkSW (sw_buffer w ++ s) false (S (sw_calls w)))
  else Stop (mkSW (sw_buffer w) true (S (sw_calls w))).
(** format.rs:98-113 [try_append_to_string]: the result and [dest] afterwards *)
Definition m_append {A} (dest : str) (d : W A) : res TryReserveError unit * str :=
  match run_display m_write (mkSW dest false 0) d with
  | (w, OOk) => (Ok tt, sw_buffer w)
  | (w, OErr) => (if sw_error w then Err AllocFailed else Panic, sw_buffer w)
  | (w, OPanic) => (Panic, sw_buffer w)
  end.
(** format.rs:158-163 [try_to_string] *)
Definition m_to_string {A} (d : W A) : res TryReserveError str :=
  match m_append [] d with (Ok _, s) => Ok s | (Err e, _) => Err e | (Panic, _) => Panic end.
Variable debug : bool.
(** normalize.rs:644-656, 676-691, convert.rs:77-90, build.rs:1163-1173 [try_to_dedicated_string] *)
Definition m_dedicated {A} (S : Spec) (t : ty) (d : W A) : res TryReserveError str :=
  match m_to_string d with
  | Ok s => match new_unchecked_justified debug S t s with Ok x => Ok x | _ => Panic end
  | r => r
  end.
(** mask_password.rs:202-220 [try_to_dedicated_string]: without a userinfo the string is cloned with [to_owned],
    which aborts the process when there is no memory (here [Panic]); otherwise one [try_reserve] *)
Definition m_mask (S : Spec) (t : ty) (i : str) : res TryReserveError str :=
  match password_range_to_hide i with
  | Ok None => if mem 0%nat 0%nat (blen i) then Ok i else Panic
  | Ok (Some (st, e)) =>
      match slice i st e with
      | Some pw => mask_to_dedicated_string debug (mem 0%nat 0%nat (blen i - blen pw)%nat) S t i
      | None => Panic
      end
  | _ => Panic
  end.
(** types/generic.rs:93-98: the request [replace_domain_impl] makes *)
Definition m_host_request (i new_host : str) : bool :=
  match from_iri_get_offset i with
  | None => true
  | Some (a, _) => match ac_host a with Ok old => mem 0%nat (blen i) (blen new_host - blen old)%nat | _ => true end
  end.
(** convert.rs:232-238: the request [try_percent_encode_iri_inline] makes *)
Definition m_encode_request (i : str) : bool := mem 0%nat (blen i) (count_nonascii (utf8s i) * 2)%nat.

(** What a call returns or leaves: the strings with a type, or the error and the strings left in place of the
    edited one.  The other calls have no [try_] version: they do not allocate, or abort the program. *)
Inductive m_result := Done (vs : list value) | NoMemory (vs : list value).
Definition m_returned (S : Spec) (t : ty) (left : list value) (r : res TryReserveError str) : may m_result :=
  match r with Ok x => Ok (Done [mkV S t x]) | Err _ => Ok (NoMemory left) | Panic => Panic end.
Definition m_results (S : Spec) (t : ty) (i : str) (c : call) : may m_result :=
  match c with
  | CNormalizeOwned keep =>
      do n <- (if keep then normalize_preserve i else normalize i) ; m_returned S t [] (m_dedicated S t (fmt_normalized S n))
  | CResolveOwned base m =>
      do n <- resolve base i ; m_returned S TIri [] (m_dedicated S TIri (fmt_normalized S (set_mode n (of_mode m))))
  | CMaskOwned => m_returned S t [] (m_mask S t i)
  | CMapToUriOwned => m_returned UriSpec t [] (m_dedicated UriSpec t (MappedToUri i))
  | CReplaceHost h only =>
      do (r, x) <- try_replace_host_impl debug (m_host_request i h) S t i h only ;
      match r with Ok _ => Ok (Done [mkV S t x]) | Err _ => Ok (NoMemory [mkV S t x]) | Panic => Panic end
  | CEncodeInline =>
      let (r, x) := try_encode_to_uri_inline (m_encode_request i) debug t i in
      match r with Ok _ => Ok (Done [mkV IriSpec t x]) | Err _ => Ok (NoMemory [mkV IriSpec t x]) | Panic => Panic end
  | CEncodeIntoUri => m_returned UriSpec t [] (try_encode_into_uri (m_encode_request i) debug t i)
  | _ => do vs <- results debug S t i c ; Ok (Done vs)
  end.
(** build.rs:1163-1173 *)
Definition m_built (S : Spec) (t : ty) (x : Builder * bool) : res TryReserveError str := m_dedicated S t (built_display S x).
End Memory.

(** The strings a program can have, whatever the allocator answers to each call (compare [reach]). *)
Section Reach.
Variables (debug : bool) (allowed : Spec -> ty -> str -> call -> Prop) (allowed_build : Spec -> ty -> Builder -> Prop).
Inductive m_reach : list value -> Prop :=
| m_start : m_reach []
| m_new : forall pool S t s x, m_reach pool -> new S t s = Ok x -> m_reach (mkV S t x :: pool)
| m_call : forall mem pool S t i c vs, m_reach pool -> In (mkV S t i) pool -> has S t c -> incl (typed_arguments S c) pool ->
    allowed S t i c -> m_results mem debug S t i c = Ok (Done vs) \/ m_results mem debug S t i c = Ok (NoMemory vs) -> m_reach (vs ++ pool)
| m_build : forall mem pool S t b x s, m_reach pool -> editable t = true -> build S t b = Ok x ->
    allowed_build S t b -> m_built mem debug S t x = Ok s -> m_reach (mkV S t s :: pool).
End Reach.
