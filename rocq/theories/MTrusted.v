(** * Model of src/parser/trusted.rs (decomposition), src/parser/trusted/authority.rs,
      src/components.rs, src/components/authority.rs. *)
From Verif Require Import Base Chars MValidate.

(** A computation that either returns or panics. *)
Notation may A := (res Empty_set A).

(** [&s[a..b]] *)
Definition slice_p (s : str) (a b : nat) : may str :=
  match slice s a b with Some x => Ok x | None => Panic end.
(** [opt.map(|r| &s[r])] *)
Definition opt_slice (s : str) (o : option (nat * nat)) : may (option str) :=
  match o with
  | Some (a, b) => do x <- slice_p s a b ; Ok (Some x)
  | None => Ok None
  end.
(** [NonZeroUsize::new] *)
Definition nonzero (n : nat) : option nat := match n with O => None | _ => Some n end.

(** ** src/parser/trusted.rs *)

(** trusted.rs:22-27: panics without a colon ([expect]). *)
Definition scheme_colon (i : str) : may (str * str) :=
  match find_split_hole i COLON with
  | Some (scheme, rest) => Ok (rest, scheme)
  | None => Panic
  end.
(** trusted.rs:32-38 *)
Definition scheme_colon_opt (i : str) : str * option str :=
  match find_split4_hole i COLON SLASH QMARK HASH with
  | Some (scheme, c, rest) => if c =? COLON then (rest, Some scheme) else (i, None)
  | None => (i, None)
  end.
(** trusted.rs:43-56 *)
Definition slash_slash_authority_opt (i : str) : str * option str :=
  match strip_prefix [SLASH; SLASH] i with
  | None => (i, None)
  | Some s =>
      match find_split3 s SLASH QMARK HASH with
      | Some (authority, rest) => (rest, Some authority)
      | None => ([], Some s)
      end
  end.
(** trusted.rs:60-66: returns [(rest, before_query)]. *)
Definition until_query (i : str) : str * str :=
  match find_split2 i QMARK HASH with
  | Some (before, rest) => (rest, before)
  | None => ([], i)
  end.
(** trusted.rs:72-87; the [debug_assert_eq] is a [Panic]. *)
Definition decompose_query_and_fragment (i : str) : may (option str * option str) :=
  match i with
  | [] => Ok (None, None)
  | c :: rest =>
      if c =? QMARK then
        match find_split_hole rest HASH with
        | Some (q, f) => Ok (Some q, Some f)
        | None => Ok (Some rest, None)
        end
      else if c =? HASH then Ok (None, Some rest) else Panic
  end.

(** components.rs:16-28 *)
Record Splitter := mkSplitter {
  scheme_end : option nat;
  authority_end : option nat;
  query_start : option nat;
  fragment_start : option nat
}.

(** trusted.rs:95-129: the inner [decompose]; lengths and offsets are counted in scalars (see
    DESIGN.md; [Utf8.v] relates them to bytes).  [wrapping_add] never wraps in the model. *)
Definition decompose (i0 : str) : may Splitter :=
  let len := List.length i0 in
  let '(i1, sch) := scheme_colon_opt i0 in
  let scheme_end := match sch with Some s => nonzero (List.length s) | None => None end in
  let start := (len - List.length i1 + 2)%nat in
  let '(i2, auth) := slash_slash_authority_opt i1 in
  let authority_end := match auth with Some s => nonzero (start + List.length s) | None => None end in
  let '(i3, _) := until_query i2 in
  let after_first_prefix := nonzero (len - List.length i3 + 1) in
  do (q, f) <- decompose_query_and_fragment i3 ;
  let '(query_start, fragment_start) :=
    match q, f with
    | Some _, Some f => (after_first_prefix, nonzero (len - List.length f))
    | Some _, None => (after_first_prefix, None)
    | None, Some _ => (None, after_first_prefix)
    | None, None => (None, None)
    end in
  Ok (mkSplitter scheme_end authority_end query_start fragment_start).

(** components.rs:49-80 [split_into_major]. *)
Definition split_into_major (sp : Splitter) (s : str)
  : may (option str * option str * str * option str * option str) :=
  let '(sr, next_of_scheme) := match scheme_end sp with
    | Some e => (Some (0%nat, e), (e + 1)%nat) | None => (None, 0%nat) end in
  let '(ar, next_of_authority) := match authority_end sp with
    | Some e => (Some ((next_of_scheme + 2)%nat, e), e) | None => (None, next_of_scheme) end in
  let '(fr, end_of_prev_of_fragment) := match fragment_start sp with
    | Some st => (Some (st, List.length s), (st - 1)%nat) | None => (None, List.length s) end in
  let '(qr, end_of_path) := match query_start sp with
    | Some st => (Some (st, end_of_prev_of_fragment), (st - 1)%nat)
    | None => (None, end_of_prev_of_fragment) end in
  do scheme <- opt_slice s sr ;
  do authority <- opt_slice s ar ;
  do fragment <- opt_slice s fr ;
  do query <- opt_slice s qr ;
  do path <- slice_p s next_of_authority end_of_path ;
  Ok (scheme, authority, path, query, fragment).

(** components.rs:85-94 *)
Definition sp_scheme_str (sp : Splitter) (s : str) : may (option str) :=
  opt_slice s (match scheme_end sp with Some e => Some (0%nat, e) | None => None end).
(** components.rs:100-102, 123-125 *)
Definition sp_has_scheme (sp : Splitter) : bool := is_some (scheme_end sp).
Definition sp_has_authority (sp : Splitter) : bool := is_some (authority_end sp).
(** components.rs:107-120 *)
Definition sp_authority_str (sp : Splitter) (s : str) : may (option str) :=
  opt_slice s (match authority_end sp with
               | Some e => Some (match scheme_end sp with Some v => (v + 3)%nat | None => 2%nat end, e)
               | None => None end).
(** components.rs:130-144 *)
Definition sp_path_range (sp : Splitter) (full_len : nat) : nat * nat :=
  let e := match query_start sp with
           | Some v => (v - 1)%nat
           | None => match fragment_start sp with Some v => (v - 1)%nat | None => full_len end
           end in
  let st := match authority_end sp with
            | Some v => v
            | None => match scheme_end sp with Some v => (v + 1)%nat | None => 0%nat end
            end in
  (st, e).
(** components.rs:149-151 *)
Definition sp_path_str (sp : Splitter) (s : str) : may str :=
  let '(a, b) := sp_path_range sp (List.length s) in slice_p s a b.
(** components.rs:156-158: [Range::is_empty] is [!(start < end)]. *)
Definition sp_is_path_empty (sp : Splitter) (full_len : nat) : bool :=
  let '(a, b) := sp_path_range sp full_len in negb (Nat.ltb a b).
(** components.rs:163-176 *)
Definition sp_query_str (sp : Splitter) (s : str) : may (option str) :=
  opt_slice s (match query_start sp with
               | Some st => Some (st, match fragment_start sp with
                                      | Some v => (v - 1)%nat | None => List.length s end)
               | None => None end).
(** components.rs:181-183 *)
Definition sp_has_query (sp : Splitter) : bool := is_some (query_start sp).
(** components.rs:188-197 *)
Definition sp_fragment_str (sp : Splitter) (s : str) : may (option str) :=
  opt_slice s (match fragment_start sp with
               | Some st => Some (st, List.length s) | None => None end).

(** components.rs:214-224 [RiReferenceComponents::to_major] composed with
    trusted.rs:91-135 [decompose_iri_reference]. *)
Definition to_major (i : str) : may (option str * option str * str * option str * option str) :=
  do sp <- decompose i ; split_into_major sp i.

(** *** The [extract_*] family (accessors of the string types). *)
(** trusted.rs:144-146: [RiReferenceStr::scheme_str]. *)
Definition extract_scheme (i : str) : option str := snd (scheme_colon_opt i).
(** trusted.rs:155-157: [RiStr]/[RiAbsoluteStr::scheme_str]. *)
Definition extract_scheme_absolute (i : str) : may str :=
  do (_, s) <- scheme_colon i ; Ok s.
(** trusted.rs:166-169 *)
Definition extract_authority (i : str) : option str :=
  snd (slash_slash_authority_opt (fst (scheme_colon_opt i))).
(** trusted.rs:178-181 *)
Definition extract_authority_absolute (i : str) : may (option str) :=
  do (r, _) <- scheme_colon i ; Ok (snd (slash_slash_authority_opt r)).
(** trusted.rs:190-192 *)
Definition extract_authority_relative (i : str) : option str := snd (slash_slash_authority_opt i).
(** trusted.rs:201-208 *)
Definition extract_authority_and_offset (i : str) : option (str * nat) :=
  let '(r, scheme) := scheme_colon_opt i in
  match snd (slash_slash_authority_opt r) with
  | None => None
  | Some authority =>
      Some (authority, match scheme with Some s => (List.length s + 3)%nat | None => 2%nat end)
  end.
(** trusted.rs:217-221 *)
Definition extract_path (i : str) : str :=
  snd (until_query (fst (slash_slash_authority_opt (fst (scheme_colon_opt i))))).
(** trusted.rs:230-234 *)
Definition extract_path_absolute (i : str) : may str :=
  do (r, _) <- scheme_colon i ; Ok (snd (until_query (fst (slash_slash_authority_opt r)))).
(** trusted.rs:243-246 *)
Definition extract_path_relative (i : str) : str :=
  snd (until_query (fst (slash_slash_authority_opt i))).
(** trusted.rs:255-258 *)
Definition extract_query (i : str) : may (option str) :=
  do (q, _) <- decompose_query_and_fragment (fst (until_query i)) ; Ok q.
(** trusted.rs:266-278.  [debug] selects the profile: the [debug_assert_eq] panics only in debug
    builds. *)
Definition extract_query_absolute_iri (debug : bool) (i : str) : may (option str) :=
  match fst (until_query i) with
  | [] => Ok None
  | c :: r => if debug && negb (c =? QMARK) then Panic else Ok (Some r)
  end.
(** trusted.rs:289-318 *)
Definition split_fragment (i : str) : str * option str :=
  match find_split_hole i HASH with
  | Some (p, f) => (p, Some f)
  | None => (i, None)
  end.
(** trusted.rs:325-327 *)
Definition extract_fragment (i : str) : option str := snd (split_fragment i).

(** ** Authority: components/authority.rs:14-21 *)
Record AuthorityComponents := mkAuth { au_str : str; host_start : nat; host_end : nat }.

(** trusted/authority.rs:15-32 *)
Definition decompose_authority (authority : str) : AuthorityComponents :=
  let '(i, hs) := match find_split_hole authority AT with
                  | Some (u, rest) => (rest, (List.length u + 1)%nat)
                  | None => (authority, 0%nat)
                  end in
  let colon_port_len := match rfind_split2 i COLON RBRACK with
                        | Some (_, suffix) => if starts_with [COLON] suffix then List.length suffix else 0%nat
                        | None => 0%nat
                        end in
  mkAuth authority hs (List.length authority - colon_port_len).

(** components/authority.rs:46-50; the [debug_assert_eq] panics. *)
Definition ac_userinfo (a : AuthorityComponents) : may (option str) :=
  match host_start a with
  | O => Ok None
  | S at_ =>
      match nth_error (au_str a) at_ with
      | Some c => if c =? AT then do x <- slice_p (au_str a) 0 at_ ; Ok (Some x) else Panic
      | None => Panic
      end
  end.
(** components/authority.rs:55-58 *)
Definition ac_host (a : AuthorityComponents) : may str := slice_p (au_str a) (host_start a) (host_end a).
(** components/authority.rs:63-70 *)
Definition ac_reg_name (a : AuthorityComponents) : may (option str) :=
  do h <- ac_host a ; Ok (if is_host_reg_name h then Some h else None).
(** components/authority.rs:74-81 *)
Definition ac_port (a : AuthorityComponents) : may (option str) :=
  if Nat.eqb (host_end a) (List.length (au_str a)) then Ok None
  else match nth_error (au_str a) (host_end a) with
       | Some c => if c =? COLON then
                     do x <- slice_p (au_str a) (host_end a + 1) (List.length (au_str a)) ; Ok (Some x)
                   else Panic
       | None => Panic
       end.
(** components/authority.rs:25-28 *)
Definition authority_components (i : str) : option AuthorityComponents :=
  match extract_authority i with Some a => Some (decompose_authority a) | None => None end.
(** components/authority.rs:38-42 *)
Definition from_iri_get_offset (i : str) : option (AuthorityComponents * nat) :=
  match extract_authority_and_offset i with
  | Some (a, off) => Some (decompose_authority a, off)
  | None => None
  end.

(** ** String types (src/types/generic/*.rs, src/types/iri.rs, src/types/uri.rs) *)
(** The six pairs of string types. *)
Inductive ty := TAbsolute | TIri | TReference | TRelative | TQuery | TFragment.
(** types/generic/{absolute,normal,reference,relative,query,fragment}.rs ("validator = ..."),
    src/validate.rs public functions, types/generic/macros.rs:262-264. *)
Definition validate (S : Spec) (t : ty) (s : str) : vres :=
  match t with
  | TAbsolute => validate_absolute_uri S s
  | TIri => validate_uri S s
  | TReference => validate_uri_reference S s
  | TRelative => validate_relative_ref S s
  | TQuery => validate_query S s
  | TFragment => validate_fragment S s
  end.
(** macros.rs:193-195 [new]: [Ok] gives back the same string. *)
Definition new (S : Spec) (t : ty) (s : str) : res ErrorKind str :=
  match validate S t s with Ok _ => Ok s | Err e => Err e | Panic => Panic end.
(** macros.rs:250-262 [new_unchecked_justified]: in debug builds panics on an invalid string. *)
Definition new_unchecked_justified (debug : bool) (S : Spec) (t : ty) (s : str) : may str :=
  if debug && negb (is_ok (validate S t s)) then Panic else Ok s.
(** types/iri.rs:131-147 [as_uri] (same for all six types). *)
Definition as_uri (debug : bool) (t : ty) (s : str) : may (option str) :=
  if negb (all_ascii s) then Ok None
  else do u <- new_unchecked_justified debug UriSpec t s ; Ok (Some u).
(** types/uri.rs:58-95 [AsRef<Iri..> for Uri..]. *)
Definition as_iri (debug : bool) (t : ty) (s : str) : may str :=
  new_unchecked_justified debug IriSpec t s.
(** types/generic/reference.rs:112-146 [to_iri]: [inl] an IRI, [inr] a relative reference. *)
Definition to_iri (debug : bool) (S : Spec) (s : str) : may (str + str) :=
  if is_some (extract_scheme s)
  then do x <- new_unchecked_justified debug S TIri s ; Ok (inl x)
  else do x <- new_unchecked_justified debug S TRelative s ; Ok (inr x).
(** types/generic/reference.rs:152-157 *)
Definition to_relative_iri (debug : bool) (S : Spec) (s : str) : may (str + str) :=
  do r <- to_iri debug S s ; Ok (match r with inl x => inr x | inr x => inl x end).
(** types/generic/fragment.rs:100-105, query.rs:104-109 [from_prefixed]. *)
Definition fragment_from_prefixed (S : Spec) (s : str) : res ErrorKind str :=
  match strip_ascii_char_prefix s HASH with
  | None => Err InvalidFragment | Some r => new S TFragment r end.
Definition query_from_prefixed (S : Spec) (s : str) : res ErrorKind str :=
  match strip_ascii_char_prefix s QMARK with
  | None => Err InvalidQuery | Some r => new S TQuery r end.
(** types/generic/normal.rs:154-175 *)
Definition to_absolute_and_fragment (debug : bool) (S : Spec) (s : str) : may (str * option str) :=
  let '(p, f) := split_fragment s in
  do p <- new_unchecked_justified debug S TAbsolute p ;
  do f <- match f with
          | Some f => do x <- new_unchecked_justified debug S TFragment f ; Ok (Some x)
          | None => Ok None end ;
  Ok (p, f).
(** types/generic/normal.rs:196-206 *)
Definition to_absolute (debug : bool) (S : Spec) (s : str) : may str :=
  new_unchecked_justified debug S TAbsolute (fst (split_fragment s)).

(** ** Accessor methods of the string types.
    types/generic/reference.rs:250-544, normal.rs:547-730, absolute.rs:460-588,
    relative.rs:200-400.  [RiRelativeStr] has no [scheme_str] and [RiAbsoluteStr] no [fragment_str]
    (modelled as [None]); [RiQueryStr]/[RiFragmentStr] have none of them (never asked). *)
Definition scheme_str (t : ty) (i : str) : may (option str) :=
  match t with
  | TAbsolute | TIri => do s <- extract_scheme_absolute i ; Ok (Some s)
  | TReference => Ok (extract_scheme i)
  | _ => Ok None
  end.
Definition authority_str (t : ty) (i : str) : may (option str) :=
  match t with
  | TAbsolute | TIri => extract_authority_absolute i
  | TReference => Ok (extract_authority i)
  | TRelative => Ok (extract_authority_relative i)
  | _ => Ok None
  end.
Definition path_str (t : ty) (i : str) : may str :=
  match t with
  | TAbsolute | TIri => extract_path_absolute i
  | TReference => Ok (extract_path i)
  | TRelative => Ok (extract_path_relative i)
  | _ => Ok i
  end.
Definition query_str (debug : bool) (t : ty) (i : str) : may (option str) :=
  match t with
  | TAbsolute => extract_query_absolute_iri debug i
  | TIri | TReference | TRelative => extract_query i
  | _ => Ok None
  end.
Definition fragment_str (t : ty) (i : str) : may (option str) :=
  match t with
  | TIri | TReference | TRelative => Ok (extract_fragment i)
  | _ => Ok None
  end.
(** absolute.rs:546-560 and reference.rs:364-385 etc.: the typed [query]. *)
Definition query_ri (debug : bool) (S : Spec) (t : ty) (i : str) : may (option str) :=
  do q <- query_str debug t i ;
  match q with
  | Some q => do x <- new_unchecked_justified debug S TQuery q ; Ok (Some x)
  | None => Ok None
  end.
(** reference.rs:474-490 etc.: the typed [fragment]. *)
Definition fragment_ri (debug : bool) (S : Spec) (t : ty) (i : str) : may (option str) :=
  do f <- fragment_str t i ;
  match f with
  | Some f => do x <- new_unchecked_justified debug S TFragment f ; Ok (Some x)
  | None => Ok None
  end.

(** ** [FixedBaseResolver] accessors, resolve.rs:118-123, 176-290; [scheme_str] has an [expect]. *)
Definition resolver_scheme_str (base : str) : may str :=
  do sp <- decompose base ; do s <- sp_scheme_str sp base ;
  match s with Some x => Ok x | None => Panic end.
Definition resolver_authority_str (base : str) : may (option str) :=
  do sp <- decompose base ; sp_authority_str sp base.
Definition resolver_path_str (base : str) : may str :=
  do sp <- decompose base ; sp_path_str sp base.
Definition resolver_query_str (base : str) : may (option str) :=
  do sp <- decompose base ; sp_query_str sp base.
