(** * Model of src/normalize/path.rs. *)
From Verif Require Import Base Chars MValidate MTrusted MFormat MPct.

(** normalize.rs:105-135 *)
Inductive NormalizationMode := MNone | MDefault | MPreserve.
Definition case_pct_normalization (m : NormalizationMode) : bool :=
  match m with MNone => false | _ => true end.

(** path.rs:33-38.  Offsets are scalar offsets (they always lie next to a '/', so they correspond to
    byte offsets at character boundaries). *)
Record ptn := mkP { front : str; back : option str }.
(** path.rs:14-19 *)
Inductive Path := PDone (s : str) | PNeeds (p : ptn).

(** path.rs:44-49 *)
Definition from_single_path (s : str) : ptn := mkP s None.
(** path.rs:53-75 *)
Definition from_paths_to_be_resolved (base reference : str) : ptn :=
  if starts_with [SLASH] reference then mkP reference None
  else match split_last (N.eqb SLASH) base with
       | Some (a, c, _) => mkP (a ++ [c]) (if is_empty reference then None else Some reference)
       | None => mkP reference None
       end.

(** path.rs:80-86; the [debug_assert!] is a panic. *)
Definition p_is_empty (p : ptn) : may bool :=
  if is_empty (front p) && is_some (back p) then Panic else Ok (is_empty (front p)).
(** path.rs:91-93 *)
Definition p_len (p : ptn) : nat :=
  (length (front p) + match back p with Some b => length b | None => 0 end)%nat.
(** path.rs:97-99 *)
Definition starts_with_slash (p : ptn) : bool := starts_with [SLASH] (front p).
(** path.rs:107-114 *)
Definition byte_at (p : ptn) (i : nat) : may (option N) :=
  if Nat.ltb i (length (front p)) then
    match nth_error (front p) i with Some c => Ok (Some c) | None => Panic end
  else Ok (match back p with Some b => nth_error b (i - length (front p)) | None => None end).
(** [str::find] of one ASCII character *)
Definition find_pos (n : N) (s : str) : option nat :=
  match split_first (N.eqb n) s with Some (a, _, _) => Some (length a) | None => None end.
(** path.rs:119-134; the [debug_assert!] is a panic. *)
Definition find_next_slash_from (p : ptn) (start : nat) : may (option nat) :=
  if Nat.leb (length (front p)) start then
    match back p with
    | None => Ok None
    | Some b =>
        do t <- slice_p b (start - length (front p)) (length b) ;
        Ok (match find_pos SLASH t with Some k => Some (start + k)%nat | None => None end)
    end
  else
    do t <- slice_p (front p) start (length (front p)) ;
    match find_pos SLASH t with
    | Some k => Ok (Some (start + k)%nat)
    | None => if is_some (back p) then Panic else Ok None
    end.
(** path.rs:137-148 *)
Definition remove_start (p : ptn) (len : nat) : ptn :=
  if Nat.leb (length (front p)) len then
    mkP (match back p with
         | Some b => match slice b (len - length (front p)) (length b) with Some x => x | None => [] end
         | None => []
         end) None
  else mkP (skipn len (front p)) (back p).

(** path.rs:596-624 *)
Inductive SegmentKind := Dot | DotDot | Normal.
Definition from_segment (s : str) : SegmentKind :=
  if negb (Nat.leb 1 (blen s) && Nat.leb (blen s) 6) then Normal
  else if negb (starts_with [DOT] s || starts_with [PCT] s) then Normal
  else if existsb (seqb s) (map lit ["."; "%2E"; "%2e"]%string) then Dot
  else if existsb (seqb s) (map lit [".."; ".%2E"; ".%2e"; "%2E."; "%2E%2E"; "%2E%2e"; "%2e.";
                                     "%2e%2E"; "%2e%2e"]%string) then DotDot
  else Normal.

(** path.rs:627-632 *)
Record pseg := mkSeg { has_leading_slash : bool; seg_start : nat; seg_end : nat }.
(** path.rs:638-648; the subtractions underflow (panic) when the range is not inside [back]. *)
Definition segment (p : ptn) (g : pseg) : may str :=
  match slice (front p) (seg_start g) (seg_end g) with
  | Some x => Ok x
  | None =>
      match back p with
      | None => Panic
      | Some b =>
          if Nat.leb (length (front p)) (seg_start g) && Nat.leb (length (front p)) (seg_end g)
          then slice_p b (seg_start g - length (front p)) (seg_end g - length (front p))
          else Panic
      end
  end.
(** path.rs:653-655 *)
Definition seg_kind (p : ptn) (g : pseg) : may SegmentKind :=
  do s <- segment p g ; Ok (from_segment s).
(** path.rs:678-702 [PathSegmentsIter::next]: the segment and the new cursor. *)
Definition iter_next (p : ptn) (cursor : nat) : may (option (pseg * nat)) :=
  do ob <- byte_at p cursor ;
  match ob with
  | None => Ok None
  | Some c =>
      let lead := (c =? SLASH) in
      let st := if lead then (cursor + 1)%nat else cursor in
      do oe <- find_next_slash_from p st ;
      let e := match oe with Some e => e | None => p_len p end in
      Ok (Some (mkSeg lead st e, e))
  end.

(** path.rs:154-169; out of fuel is a panic. *)
Fixpoint remove_ignorable_prefix (fuel : nat) (p : ptn) : may ptn :=
  match fuel with
  | O => Panic
  | S fuel =>
      do on <- iter_next p 0 ;
      match on with
      | None => Ok p
      | Some (g, _) =>
          if has_leading_slash g then Ok p
          else
            do k <- seg_kind p g ;
            match k with
            | Normal => Ok p
            | _ => let skip := Nat.min (length (front p)) (seg_end g + 1) in
                   remove_ignorable_prefix fuel (remove_start p skip)
            end
      end
  end.

(** path.rs:302-316: length of the leading dot segments ([map_while .. last .. unwrap_or(0)]); the
    [debug_assert!] is a panic. *)
Fixpoint skipped_len (fuel : nat) (p : ptn) (cursor last : nat) : may nat :=
  match fuel with
  | O => Panic
  | S fuel =>
      do on <- iter_next p cursor ;
      match on with
      | None => Ok last
      | Some (g, cursor') =>
          do k <- seg_kind p g ;
          match k with
          | Normal => Ok last
          | _ => if negb (has_leading_slash g) then Panic else skipped_len fuel p cursor' (seg_end g)
          end
      end
  end.

(** path.rs:331-374: the queue loop. *)
Definition QUEUE_SIZE := 8%nat.
Record qstate := mkQ {
  queue : list (option str);            (* segname_queue, QUEUE_SIZE elements *)
  first_leading : bool;                 (* first_segment_has_leading_slash *)
  resolved_end : nat;
  level : nat;
  flag : bool                           (* may_have_not_yet_resolved_dot_segments *)
}.
(** [if let Some(dest) = queue.get_mut(level) { *dest = v }] *)
Fixpoint set_nth {A} (l : list A) (i : nat) (v : A) : list A :=
  match l, i with
  | [], _ => []
  | _ :: r, O => v :: r
  | x :: r, S i => x :: set_nth r i v
  end.
Definition queue_step (q : qstate) (k : SegmentKind) (g : pseg) (name : str) : qstate :=
  match k with
  | Dot => mkQ (queue q) (first_leading q) (resolved_end q) (level q) true
  | DotDot =>
      let l := (level q - 1)%nat in
      mkQ (set_nth (queue q) l None) (first_leading q) (resolved_end q) l true
  | Normal =>
      if Nat.ltb (level q) (length (queue q)) then
        mkQ (set_nth (queue q) (level q) (Some name))
            (if Nat.eqb (level q) 0 then has_leading_slash g else first_leading q)
            (seg_end g) (level q + 1) false
      else mkQ (queue q) (first_leading q) (resolved_end q) (level q + 1) (flag q)
  end.
Fixpoint queue_loop (fuel : nat) (p : ptn) (cursor : nat) (q : qstate) : may qstate :=
  match fuel with
  | O => Panic
  | S fuel =>
      do on <- iter_next p cursor ;
      match on with
      | None => Ok q
      | Some (g, cursor') =>
          do name <- segment p g ;
          queue_loop fuel p cursor' (queue_step q (from_segment name) g name)
      end
  end.

Section Write.
Variable S : Spec.
Variable mode : NormalizationMode.
Variable auth : bool.   (* authority_is_present *)

Definition write_seg (s : str) : W unit :=
  if case_pct_normalization mode then PctCaseNormalized S s else write s.

(** path.rs:396-436 [emit_segment]: returns the new [only_a_slash_is_written]. *)
Definition emit_segment (only : option bool) (first_lead : bool) (name : str) : W (option bool) :=
  wdo only' <- match only with
               | None =>
                   (if first_lead then write [SLASH] else wret tt) >>
                   wret (Some (first_lead && is_empty name))
               | Some only_a_slash =>
                   wdo o <- (if only_a_slash && negb auth
                             then write (lit "./") >> wret (Some false)
                             else wret (Some only_a_slash)) ;
                   write [SLASH] >> wret o
               end ;
  write_seg name >> wret only'.

Fixpoint emit_all (only : option bool) (first_lead : bool) (names : list (option str))
  : W (option bool) :=
  match names with
  | [] => wret only
  | None :: r => emit_all only first_lead r
  | Some n :: r => wdo only' <- emit_segment only first_lead n ; emit_all only' first_lead r
  end.

(** path.rs:285-391 [resolve_and_write_path_prefixes]: [None] is [ControlFlow::Break]; otherwise the
    new path, [only_a_slash_is_written] and [may_have_not_yet_resolved_dot_segments]. *)
Definition resolve_and_write_path_prefixes (p : ptn) (only : option bool) (may_have : bool)
  : W (option (ptn * option bool * bool)) :=
  wdo e <- lift (p_is_empty p) ;
  if e then wpanic else
  if negb may_have then wpanic else
  wdo sk <- lift (skipped_len (1 + p_len p) p 0 0) ;
  let p := remove_start p sk in
  wdo e <- lift (p_is_empty p) ;
  if e then
    (if negb auth && match only with Some true => true | _ => false end
     then write (lit ".//") else write [SLASH]) >> wret None
  else
    wdo q <- lift (queue_loop (1 + p_len p) p 0
                     (mkQ (repeat None QUEUE_SIZE) false 0 0 may_have)) ;
    wdo only' <- emit_all only (first_leading q) (queue q) ;
    wret (Some (remove_start p (resolved_end q), only', flag q)).

(** path.rs:219-236: the [while] loop; [None] when the function returns early. *)
Fixpoint resolve_loop (fuel : nat) (p : ptn) (only : option bool) (may_have : bool)
  : W (option (ptn * option bool)) :=
  match fuel with
  | O => wpanic
  | Datatypes.S fuel =>
      wdo e <- lift (p_is_empty p) ;
      if negb e && may_have then
        wdo r <- resolve_and_write_path_prefixes p only may_have ;
        match r with
        | None => wret None
        | Some (p', only', may_have') => resolve_loop fuel p' only' may_have'
        end
      else wret (Some (p, only))
  end.

(** path.rs:174-282 [fmt_write_normalize]. *)
Definition fmt_write_normalize (p : ptn) : W unit :=
  wdo e <- lift (p_is_empty p) ;
  if e then wret tt
  else if (match mode with MPreserve => true | _ => false end) && negb auth
          && negb (starts_with_slash p) then
    PctCaseNormalized S (front p) >>
    match back p with Some b => PctCaseNormalized S b | None => wret tt end
  else
    wdo p <- lift (remove_ignorable_prefix (1 + p_len p) p) ;
    wdo e <- lift (p_is_empty p) ;
    if e then (if auth then write [SLASH] else wret tt)
    else
      wdo r <- resolve_loop (1 + p_len p) p None true ;
      match r with
      | None => wret tt
      | Some (p, only) =>
          wdo e <- lift (p_is_empty p) ;
          if e then wret tt
          else
            wdo p <- (if auth then wret p
                      else match only with
                           | None =>
                               if (seqb (front p) [SLASH]
                                   && match back p with Some b => starts_with [SLASH] b | None => false end)
                                  || starts_with [SLASH; SLASH] (front p)
                               then write (lit "/.//") >> wret (remove_start p 2)
                               else wret p
                           | Some true =>
                               if starts_with_slash p
                               then write (lit ".//") >> wret (remove_start p 1)
                               else wret p
                           | Some false => wret p
                           end) ;
            write_seg (front p) >>
            match back p with Some b => write_seg b | None => wret tt end
      end.
End Write.

(** path.rs:441-490 [ensure_rfc3986_normalizable_with_authority_absent]: [true] is [Ok(())].
    The three-byte [PrefixRetriever] is modelled on scalars: the output is compared with the ASCII
    text "/./" only, and a three-byte prefix equal to ASCII text is a three-scalar prefix. *)
Definition prefix_write (buf : str) (s : str) : wstep str :=
  if negb (is_empty s) && Nat.leb 3 (length buf) then Stop buf
  else Cont (firstn 3 (buf ++ s)).
Definition ensure_rfc3986_normalizable_with_authority_absent (p : ptn) : may bool :=
  match run_display prefix_write [] (fmt_write_normalize UriSpec MNone false p) with
  | (_, OPanic) => Panic
  | (buf, _) => Ok (negb (seqb buf (lit "/./")))
  end.

(** path.rs:495-512 *)
Inductive PathCharacteristic :=
| CommonAbsolute | CommonRelative | RelativeFirstSegmentHasColon | StartsWithDoubleSlash.
Definition pc_is_absolute (c : PathCharacteristic) : bool :=
  match c with CommonAbsolute | StartsWithDoubleSlash => true | _ => false end.
(** path.rs:518-577: the dummy [Writer]; state [(result, is_absolute)]. *)
Definition pc_state := (option PathCharacteristic * option bool)%type.
Definition pc_after_first (abs : bool) (s : str) : wstep pc_state :=
  if is_empty s then Cont (None, Some abs)
  else if abs then
    Stop (Some (if starts_with [SLASH] s then StartsWithDoubleSlash else CommonAbsolute), Some abs)
  else
    match find_split_hole s SLASH with
    | Some (first_seg, _) =>
        Stop (Some (if existsb (N.eqb COLON) first_seg then RelativeFirstSegmentHasColon
                    else CommonRelative), Some abs)
    | None =>
        if existsb (N.eqb COLON) s then Stop (Some RelativeFirstSegmentHasColon, Some abs)
        else Cont (None, Some abs)
    end.
Definition pc_write (st : pc_state) (s : str) : wstep pc_state :=
  match st with
  | (Some r, a) => Stop (Some r, a)
  | (None, Some a) => pc_after_first a s
  | (None, None) =>
      if is_empty s then Cont (None, None)
      else match strip_prefix [SLASH] s with
           | Some rest => pc_after_first true rest
           | None => pc_after_first false s
           end
  end.
(** path.rs:515-592; the [expect] is a panic. *)
Definition from_path_to_display (S : Spec) (p : ptn) (mode : NormalizationMode) (auth : bool)
  : may PathCharacteristic :=
  match run_display pc_write (None, None) (fmt_write_normalize S mode auth p) with
  | (_, OPanic) => Panic
  | (_, OOk) => Ok CommonRelative
  | ((Some r, _), OErr) => Ok r
  | ((None, _), OErr) => Panic
  end.
