(** * Model of src/normalize.rs, src/resolve.rs and [is_normalized] of src/parser/trusted.rs. *)
From Verif Require Import Base Chars MValidate MTrusted MFormat MPct MPath.

(** normalize.rs:157-170 *)
Record NormalizationInput := mkInput {
  n_scheme : str; n_authority : option str; n_path : Path;
  n_query : option str; n_fragment : option str; n_mode : NormalizationMode
}.
Definition set_mode (i : NormalizationInput) (m : NormalizationMode) : NormalizationInput :=
  mkInput (n_scheme i) (n_authority i) (n_path i) (n_query i) (n_fragment i) m.

(** normalize.rs:199-212 *)
Inductive RefToplevel := RtScheme | RtAuthority | RtPath | RtQuery | RtNone.
Definition rt_rank (t : RefToplevel) : nat :=
  match t with RtScheme => 0 | RtAuthority => 1 | RtPath => 2 | RtQuery => 3 | RtNone => 4 end%nat.
(** normalize.rs:218-229: [self <= component]. *)
Definition choose_then {A} (self component : RefToplevel) (r b : may A) : may A :=
  if Nat.leb (rt_rank self) (rt_rank component) then r else b.

(** normalize.rs:192-293 *)
Definition create_normalization_input (r_iri : str) (r : Splitter) (b_iri : str) (b : Splitter)
  : may NormalizationInput :=
  let t := if sp_has_scheme r then RtScheme
           else if sp_has_authority r then RtAuthority
           else if negb (sp_is_path_empty r (length r_iri)) then RtPath
           else if sp_has_query r then RtQuery
           else RtNone in
  do path <-
    match t with
    | RtScheme | RtAuthority => do p <- sp_path_str r r_iri ; Ok (PNeeds (from_single_path p))
    | RtPath =>
        do r_path <- sp_path_str r r_iri ;
        if starts_with [SLASH] r_path then Ok (PNeeds (from_single_path r_path))
        else
          do b_path <- sp_path_str b b_iri ;
          let b_path := if sp_has_authority b && is_empty b_path then [SLASH] else b_path in
          Ok (PNeeds (from_paths_to_be_resolved b_path r_path))
    | RtQuery | RtNone => do p <- sp_path_str b b_iri ; Ok (PDone p)
    end ;
  do rs <- sp_scheme_str r r_iri ;
  do scheme <- match rs with
               | Some s => Ok s
               | None => do bs <- sp_scheme_str b b_iri ;
                         match bs with Some s => Ok s | None => Panic end
               end ;
  do authority <- choose_then t RtAuthority (sp_authority_str r r_iri) (sp_authority_str b b_iri) ;
  do query <- choose_then t RtQuery (sp_query_str r r_iri) (sp_query_str b b_iri) ;
  do fragment <- sp_fragment_str r r_iri ;
  Ok (mkInput scheme authority path query fragment MNone).

(** normalize.rs:296-313 and 324-341 (the two [From] impls are the same). *)
Definition input_from (i : str) : may NormalizationInput :=
  do (s, a, p, q, f) <- to_major i ;
  match s with
  | None => Panic
  | Some s => Ok (mkInput s a (PNeeds (from_single_path p)) q f MNone)
  end.

(** normalize.rs:356-364: [true] is [Ok(())]. *)
Definition ensure_rfc3986_normalizable (n : NormalizationInput) : may bool :=
  if is_some (n_authority n) then Ok true
  else match n_path n with
       | PDone _ => Ok true
       | PNeeds p => ensure_rfc3986_normalizable_with_authority_absent p
       end.

(** normalize.rs:469-482 *)
Definition normalize_scheme (s : str) : W unit := write_lower s.
(** [strip_suffix(':')] *)
Definition strip_suffix_char (c : N) (s : str) : option str :=
  match rev s with x :: r => if x =? c then Some (rev r) else None | [] => None end.
(** normalize.rs:500-524 *)
Definition normalize_host_port (S : Spec) (hp : str) : W unit :=
  let hp := match strip_suffix_char COLON hp with Some x => x | None => hp end in
  wdo b <- lift (is_ascii_only_host hp) ;
  if b then NormalizedAsciiOnlyHost hp else PctCaseNormalized S hp.
(** normalize.rs:485-497 *)
Definition normalize_authority (S : Spec) (a : str) : W unit :=
  match rfind_split_hole a AT with
  | Some (userinfo, host_port) =>
      PctCaseNormalized S userinfo >> write [AT] >> normalize_host_port S host_port
  | None => normalize_host_port S a
  end.
(** normalize.rs:527-539 *)
Definition normalize_query (S : Spec) (q : str) : W unit := PctCaseNormalized S q.
Definition normalize_fragment (S : Spec) (f : str) : W unit := PctCaseNormalized S f.

(** normalize.rs:402-466 [<NormalizedInner as Display>::fmt]. *)
Definition fmt_normalized (S : Spec) (n : NormalizationInput) : W unit :=
  let cp := case_pct_normalization (n_mode n) in
  (if cp then normalize_scheme (n_scheme n) else write (n_scheme n)) >>
  write [COLON] >>
  match n_authority n with
  | Some a => write [SLASH; SLASH] >> if cp then normalize_authority S a else write a
  | None => wret tt
  end >>
  match n_path n with
  | PDone s =>
      if cp then fmt_write_normalize S (n_mode n) (is_some (n_authority n)) (from_single_path s)
      else write s
  | PNeeds p => fmt_write_normalize S (n_mode n) (is_some (n_authority n)) p
  end >>
  match n_query n with
  | Some q => write [QMARK] >> if cp then normalize_query S q else write q
  | None => wret tt
  end >>
  match n_fragment n with
  | Some f => write [HASH] >> if cp then normalize_fragment S f else write f
  | None => wret tt
  end.

(** resolve.rs:118-123, 351-354, normalize.rs:176-187, reference.rs:191-193: resolution of [reference]
    against [base], as a [Normalized] value. *)
Definition resolve (base reference : str) : may NormalizationInput :=
  do b <- decompose base ;
  do r <- decompose reference ;
  create_normalization_input reference r base b.

(** The displayed text of a [Normalized] value. *)
Definition display (S : Spec) (n : NormalizationInput) : may str := text (fmt_normalized S n).
(** normalize.rs:641-655, 673-690 [try_to_dedicated_string] for target type [t] (TIri / TAbsolute). *)
Definition to_dedicated_string (debug : bool) (S : Spec) (t : ty) (n : NormalizationInput) : may str :=
  do s <- display S n ; new_unchecked_justified debug S t s.

(** types/generic/normal.rs:441-443, 496-499 and absolute.rs (same). *)
Definition normalize (i : str) : may NormalizationInput :=
  do n <- input_from i ; Ok (set_mode n MDefault).
Definition normalize_preserve (i : str) : may NormalizationInput :=
  do n <- input_from i ; Ok (set_mode n MPreserve).

(** normalize.rs:138-146 *)
Inductive NormalizednessCheckMode := CkDefault | CkRfc3986 | CkPreserve.

(** [str::split('/')] *)
Fixpoint split_slash (s : str) : list str :=
  match s with
  | [] => [[]]
  | c :: r =>
      match split_slash r with
      | h :: t => if c =? SLASH then [] :: h :: t else (c :: h) :: t
      | [] => [[c]]
      end
  end.
(** trusted.rs:345-425 [is_normalized]. *)
Definition is_normalized (S : Spec) (i : str) (mode : NormalizednessCheckMode) : may bool :=
  do (i, scheme) <- scheme_colon i ;
  let '(after_authority, authority) := slash_slash_authority_opt i in
  let '(_, path) := until_query after_authority in
  if existsb is_upper scheme then Ok false else
  do authority_ok <-
    match authority with
    | None => Ok true
    | Some a =>
        let ac := decompose_authority a in
        do host <- ac_host ac ;
        do ao <- is_ascii_only_host host ;
        do hn <- (if ao : bool then eq_str_display host (NormalizedAsciiOnlyHost host)
                  else is_pct_case_normalized S host) ;
        if negb hn then Ok false else
        do u <- ac_userinfo ac ;
        match u with
        | Some u => is_pct_case_normalized S u
        | None => Ok true
        end
    end ;
  if negb authority_ok then Ok false else
  let strip p := match strip_prefix (lit "/.//") p with Some r => r | None => p end in
  let span := if is_some authority then Some path
              else match mode with
                   | CkDefault => Some (strip path)
                   | CkRfc3986 => Some path
                   | CkPreserve => if starts_with [SLASH] path then Some (strip path) else None
                   end in
  if match span with
     | Some p => existsb (fun g => seqb g [DOT] || seqb g [DOT; DOT]) (split_slash p)
     | None => false
     end
  then Ok false
  else is_pct_case_normalized S after_authority.
