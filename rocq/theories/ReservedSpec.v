(** * What the reserved operators "+" and "#" make of any value (C28, C29; findings F12 and F13).
    Specification: an automaton that reads the value character by character, on top of TemplateSpec.v and
    ExpandSpec.v.  It describes what the crate does, not what RFC 6570 asks for. *)
From Verif Require Import Base Chars Rfc3986 Utf8 PctSpec EncodeSpec MFormat MTemplate MMaybePct MExpand TemplateSpec ExpandSpec.
Open Scope string_scope. Open Scope N_scope. Open Scope list_scope.

(** ** The errors of [str::from_utf8] *)
(** A proper, nonempty prefix of the encoding of a character. *)
Definition begins_char (b : list N) : Prop := b <> [] /\ truncated b.
(** The bytes [b], not empty, begin with an error; [e]: how many bytes must be skipped, or nothing when
    more bytes could complete a character. *)
Inductive utf8_bad (b : list N) : option nat -> Prop :=
| bad_short : begins_char b -> utf8_bad b None
| bad_first a r : b = a :: r -> (forall c x, is_scalar c = true -> utf8 c <> a :: x) -> utf8_bad b (Some 1%nat)
| bad_later p x r : b = p ++ x :: r -> begins_char p -> ~ begins_char (p ++ [x]) -> (forall c, is_scalar c = true -> utf8 c <> p ++ [x]) ->
    utf8_bad b (Some (length p)).

(** ** The pieces of a value *)
Inductive piece :=
| PPlain (s : str)    (** text without "%" *)
| PStray              (** a "%" that is not part of a triplet *)
| PWhole (w : str)    (** triplets that spell characters *)
| PBroken (w : str)   (** triplets that do not *).
(** The octets of the complete triplets of a text that begins with triplets. *)
Fixpoint octets (p : str) : list N :=
  match p with _ :: u :: l :: r => 16 * hex_value u + hex_value l :: octets r | _ => [] end.
Definition whole_part (p : str) : str := firstn (length p / 3 * 3) p.
(** The pieces of a pending text that is given up: triplets, "%" or "%" and a digit. *)
Definition given_up (p : str) : list piece :=
  PBroken (whole_part p) ::
  match skipn (length (whole_part p)) p with [] => [] | [_] => [PStray] | _ :: h => [PStray; PPlain h] end.
(** The automaton is in the middle of triplets, with the text [p] pending; [fresh]: it has just begun
    or resumed; or in the middle of text without "%". *)
Inductive rstate := Pend (p : str) (fresh : bool) | Text (acc : str).
(** The character [c] goes on with the triplets [p]. *)
Definition goes_on (p : str) (c : N) : bool := if Nat.eqb (length p mod 3) 0 then c =? 37 else HEXDIG c.
(** Reading the character with nothing pending. *)
Definition restart (c : N) : rstate := if c =? 37 then Pend [37] false else Text [c].
(** One character: the pieces that are found, and the next state; [None]: the code panics. *)
Definition read_char (debug : bool) (st : rstate) (c : N) : list piece * option rstate :=
  match st with
  | Text acc => if c =? 37 then ([PPlain acc], Some (Pend [37] false)) else ([], Some (Text (acc ++ [c])))
  | Pend p fresh =>
      if goes_on p c then
        let p := p ++ [c] in
        if Nat.eqb (length p mod 3) 0 then
          match utf8_error (octets p) with
          | None => ([PWhole p], Some (Pend [] true))
          | Some (O, None) => ([], Some (Pend p false))
          | Some (O, Some k) => ([PBroken (firstn (k * 3) p)], Some (Pend (skipn (k * 3) p) true))
          | Some (S _, _) => ([], None)
          end
        else ([], Some (Pend p false))
      else if fresh && (c <? 128) then
        (** The pending text is lost. *)
        if c =? 37 then if debug then ([], None) else ([PPlain []], Some (Pend [37] false))
        else ([], Some (Text [c]))
      else (given_up p, if c <? 128 then Some (restart c) else None)
  end.
(** A chunk: the pieces, and the text left pending; [None]: the code panics. *)
Fixpoint reads (debug : bool) (st : rstate) (s : str) : list piece * option str :=
  match s with
  | [] => match st with Pend p _ => ([], Some p) | Text acc => ([PPlain acc], Some []) end
  | c :: r =>
      match read_char debug st c with
      | (ps, Some st) => let '(qs, e) := reads debug st r in (ps ++ qs, e)
      | (ps, None) => (ps, None)
      end
  end.
(** The chunks of a value: the pieces, and whether the code panics after them. *)
Fixpoint pieces (debug : bool) (p : str) (chunks : list str) : list piece * bool :=
  match chunks with
  | [] => (if is_empty p then [] else given_up p, false)
  | s :: r =>
      match reads debug (Pend p true) s with
      | (ps, Some p) => let '(qs, b) := pieces debug p r in (ps ++ qs, b)
      | (ps, None) => (ps, true)
      end
  end.

(** ** What is written for a value; [None]: the code panics. *)
Definition piece_text (S : Spec) (p : piece) : str :=
  match p with PPlain s => encode (character_char S) s | PStray => lit "%25" | PWhole w => w | PBroken w => w end.
(** Items, keys and values of entries: everything. *)
Definition whole_text (S : Spec) (debug : bool) (d : W unit) : option str :=
  let '(ps, panics) := pieces debug [] (fst d) in
  if panics then None else Some (flat_map (piece_text S) ps).
(** Strings: at most [n] "characters". *)
Fixpoint limited (S : Spec) (debug : bool) (n : N) (ps : list piece) (panics : bool) : option str :=
  match ps with
  | [] => if panics then None else Some []
  | p :: r =>
      if n =? 0 then Some [] else
      match p with
      | PStray | PWhole _ => option_map (app (piece_text S p)) (limited S debug (n - 1) r panics)
      | PBroken w =>
          let k := N.min n (N.of_nat (length w / 3)) in
          option_map (app (firstn (N.to_nat k * 3) w)) (limited S debug (n - k) r panics)
      | PPlain [] => None
      | PPlain s =>
          let used := N.of_nat (last_position (N.to_nat n) s) in
          if debug && (n <? used) then None
          else option_map (app (encode (character_char S) (firstn (N.to_nat n) s)))
                 (limited S debug (if used <=? n then n - used else n + (usize_max + 1) - used) r panics)
      end
  end.
Definition limited_text (S : Spec) (debug : bool) (m : rmod) (d : W unit) : option str :=
  let '(ps, panics) := pieces debug [] (fst d) in
  limited S debug (match m with Prefix ds => decimal ds | _ => usize_max end) ps panics.

(** ** Values, expressions and templates *)
Fixpoint all_some {A} (l : list (option A)) : option (list A) :=
  match l with
  | [] => Some []
  | x :: r => match x, all_some r with Some a, Some b => Some (a :: b) | _, _ => None end
  end.
(** A variable, for the value [v] that the context supplies and its text [x]. *)
Definition written (S : Spec) (debug : bool) (o : rop) (r : rspec) (v : Value) (x : sval) : option str :=
  match w_reserved (op_row o), v with
  | false, VString d => option_map (rfc_string S o (r_name r)) (keep_value debug (r_mod r) d)
  | false, _ => Some (crate_value S o r x)
  | true, VUndefined => Some []
  | true, VString d => limited_text S debug (r_mod r) d
  | true, VList l => option_map (join (lit ",")) (all_some (map (whole_text S debug) l))
  | true, VAssoc l =>
      option_map (join (lit ",")) (all_some (map (fun e =>
        match whole_text S debug (fst e), whole_text S debug (snd e) with
        | Some k, Some v => Some (k ++ (if is_explode_mod (r_mod r) then lit "=" else lit ",") ++ v)
        | _, _ => None
        end) l))
  end.
Definition written_expression (S : Spec) (debug : bool) (ctx : Ctx) (env : str -> sval) (o : rop) (l : list rspec) : option str :=
  option_map (fun vals => match vals with [] => [] | _ => w_first (op_row o) ++ join (w_sep (op_row o)) vals end)
    (all_some (map (fun r => written S debug o r (ctx (r_name r)) (env (r_name r))) (filter (fun r => defined (env (r_name r))) l))).
Definition written_template (S : Spec) (debug : bool) (ctx : Ctx) (env : str -> sval) (T : list part) : option str :=
  option_map (@concat N) (all_some (map (fun p => match p with Lit s => Some s | Expr o l => written_expression S debug ctx env o l end) T)).
