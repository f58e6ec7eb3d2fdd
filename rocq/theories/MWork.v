(** * The loops of src/normalize/path.rs with a counter of the work they do.
    The counted unit is one call of [PathSegmentsIter::next] (path.rs:678-702) or one character that such a
    call passes over looking for the next '/'.  What the functions return is the same as in MPath.v
    (C83_same); a failing writer only makes them stop earlier. *)
From Verif Require Import Base Chars MValidate MTrusted MFormat MPct MPath MNormalize.
Open Scope nat_scope.

Definition tick {A} (n : nat) (x : A * nat) : A * nat := (fst x, n + snd x).
(** path.rs:678-702 *)
Definition next_work (p : ptn) (cursor : nat) : nat :=
  match iter_next p cursor with Ok (Some (_, e)) => 1 + (e - cursor) | _ => 1 end.

(** path.rs:154-169 *)
Fixpoint t_ignorable (fuel : nat) (p : ptn) : may ptn * nat :=
  match fuel with
  | O => (Panic, 0)
  | S fuel =>
      tick (next_work p 0)
        match iter_next p 0 with
        | Ok None => (Ok p, 0)
        | Ok (Some (g, _)) =>
            if has_leading_slash g then (Ok p, 0)
            else match seg_kind p g with
                 | Ok Normal => (Ok p, 0)
                 | Ok _ => t_ignorable fuel (remove_start p (Nat.min (length (front p)) (seg_end g + 1)))
                 | _ => (Panic, 0)
                 end
        | _ => (Panic, 0)
        end
  end.
(** path.rs:302-316 *)
Fixpoint t_skipped (fuel : nat) (p : ptn) (cursor last : nat) : may nat * nat :=
  match fuel with
  | O => (Panic, 0)
  | S fuel =>
      tick (next_work p cursor)
        match iter_next p cursor with
        | Ok None => (Ok last, 0)
        | Ok (Some (g, cursor')) =>
            match seg_kind p g with
            | Ok Normal => (Ok last, 0)
            | Ok _ => if negb (has_leading_slash g) then (Panic, 0) else t_skipped fuel p cursor' (seg_end g)
            | _ => (Panic, 0)
            end
        | _ => (Panic, 0)
        end
  end.
(** path.rs:345-372 *)
Fixpoint t_queue (fuel : nat) (p : ptn) (cursor : nat) (q : qstate) : may qstate * nat :=
  match fuel with
  | O => (Panic, 0)
  | S fuel =>
      tick (next_work p cursor)
        match iter_next p cursor with
        | Ok None => (Ok q, 0)
        | Ok (Some (g, cursor')) =>
            match segment p g with
            | Ok name => t_queue fuel p cursor' (queue_step q (from_segment name) g name)
            | _ => (Panic, 0)
            end
        | _ => (Panic, 0)
        end
  end.

(** Sequencing for a [Display] with a counter: what comes after a failure is not executed. *)
Definition tbind {A B} (x : W A * nat) (f : A -> W B * nat) : W B * nat :=
  match snd (fst x) with
  | Ret a => let r := f a in (wbind (fst x) (fun _ => fst r), snd x + snd r)
  | Fail => ((fst (fst x), Fail), snd x)
  | Pan => ((fst (fst x), Pan), snd x)
  end.
Definition free {A} (x : W A) : W A * nat := (x, 0).
Definition tlift {A} (x : may A * nat) : W A * nat := (lift (fst x), snd x).
Notation "'tdo' p <- x ; y" := (tbind x (fun p => y)) (at level 200, p pattern, x at level 100, y at level 200).

Section Write.
Variable S : Spec.
Variable mode : NormalizationMode.
Variable auth : bool.
(** path.rs:285-391 *)
Definition t_prefixes (p : ptn) (only : option bool) (may_have : bool) : W (option (ptn * option bool * bool)) * nat :=
  tdo e <- free (lift (p_is_empty p)) ;
  if e then free wpanic else
  if negb may_have then free wpanic else
  tdo sk <- tlift (t_skipped (1 + p_len p) p 0 0) ;
  let p := remove_start p sk in
  tdo e <- free (lift (p_is_empty p)) ;
  if e then
    free ((if negb auth && match only with Some true => true | _ => false end
           then write (lit ".//") else write [SLASH]) >> wret None)
  else
    tdo q <- tlift (t_queue (1 + p_len p) p 0 (mkQ (repeat None QUEUE_SIZE) false 0 0 may_have)) ;
    free (wdo only' <- emit_all S mode auth only (first_leading q) (queue q) ;
          wret (Some (remove_start p (resolved_end q), only', flag q))).
(** path.rs:219-236 *)
Fixpoint t_loop (fuel : nat) (p : ptn) (only : option bool) (may_have : bool) : W (option (ptn * option bool)) * nat :=
  match fuel with
  | O => free wpanic
  | Datatypes.S fuel =>
      tdo e <- free (lift (p_is_empty p)) ;
      if negb e && may_have then
        tdo r <- t_prefixes p only may_have ;
        match r with
        | None => free (wret None)
        | Some (p', only', may_have') => t_loop fuel p' only' may_have'
        end
      else free (wret (Some (p, only)))
  end.
(** path.rs:174-282 [fmt_write_normalize] *)
Definition t_path (p : ptn) : W unit * nat :=
  tdo e <- free (lift (p_is_empty p)) ;
  if e then free (wret tt)
  else if (match mode with MPreserve => true | _ => false end) && negb auth && negb (starts_with_slash p) then
    free (PctCaseNormalized S (front p) >> match back p with Some b => PctCaseNormalized S b | None => wret tt end)
  else
    tdo p <- tlift (t_ignorable (1 + p_len p) p) ;
    tdo e <- free (lift (p_is_empty p)) ;
    if e then free (if auth then write [SLASH] else wret tt)
    else
      tdo r <- t_loop (1 + p_len p) p None true ;
      match r with
      | None => free (wret tt)
      | Some (p, only) =>
          free (
          wdo e <- lift (p_is_empty p) ;
          if e then wret tt
          else
            wdo p <- (if auth then wret p
                      else match only with
                           | None =>
                               if (seqb (front p) [SLASH]
                                   && match back p with Some b => starts_with [SLASH] b | None => false end)
                                  || starts_with [SLASH; SLASH] (front p)
                               then write (lit "/.//") >> wret (remove_start p 2)
                               else wret p
                           | Some true =>
                               if starts_with_slash p
                               then write (lit ".//") >> wret (remove_start p 1)
                               else wret p
                           | Some false => wret p
                           end) ;
            write_seg S mode (front p) >>
            match back p with Some b => write_seg S mode b | None => wret tt end)
      end.
End Write.

(** normalize.rs:425-443: the path of [<NormalizedInner as Display>::fmt] *)
Definition path_work (S : Spec) (n : NormalizationInput) : nat :=
  match n_path n with
  | PDone s => if case_pct_normalization (n_mode n) then snd (t_path S (n_mode n) (is_some (n_authority n)) (from_single_path s)) else 0
  | PNeeds p => snd (t_path S (n_mode n) (is_some (n_authority n)) p)
  end.
