(** * What the theorems on template expansion assume about the values of a context (specification, on top
    of TemplateSpec.v and of the model of [Display] in MFormat.v and MExpand.v).  *)
From Verif Require Import Base Chars Rfc3986 Utf8 PctSpec EncodeSpec MFormat MTemplate MExpand TemplateSpec.
Open Scope string_scope. Open Scope N_scope. Open Scope list_scope.

(** A value whose [Display] succeeds and gives the text [s], in whatever chunks. *)
Definition shows (d : W unit) (s : str) : Prop := snd d = Ret tt /\ concat (fst d) = s /\ all_scalar s = true.
(** What a context supplies for a variable, as an RFC 6570 value. *)
Inductive supplies : Value -> sval -> Prop :=
| sup_undef : supplies VUndefined Undef
| sup_str d s : shows d s -> supplies (VString d) (Str s)
| sup_list ds l : Forall2 shows ds l -> supplies (VList ds) (Lst l)
| sup_assoc ds l : Forall2 (fun d e => shows (fst d) (fst e) /\ shows (snd d) (snd e)) ds l -> supplies (VAssoc ds) (Assc l).
Definition supplies_env (ctx : Ctx) (env : str -> sval) : Prop := forall name, supplies (ctx name) (env name).

(** ** Values for the reserved operators "+" and "#".

    [calm s]: no non-ASCII character stands at the beginning of [s] or right after something that begins
    with "%", and no truncated UTF-8 sequence of triplets is followed by another triplet. *)
Definition starts_ascii (p : N -> bool) (s : str) : Prop := s = [] \/ exists c r, s = c :: r /\ c < 128 /\ p c = true.
(** Nothing, or a proper prefix of the UTF-8 encoding of a character. *)
Definition truncated (bs : list N) : Prop :=
  bs = [] \/ exists c, is_scalar c = true /\ exists rest, utf8 c = bs ++ rest /\ rest <> [] /\ bs <> [].
(** Nothing, "%", or "%" and one hexadecimal digit, as the rest of the value [s] shows. *)
Inductive stray_tail (s : str) : str -> Prop :=
| st_none : starts_ascii (fun c => negb (c =? 37)) s -> stray_tail s []
| st_pct : starts_ascii (fun c => negb (HEXDIG c)) s -> stray_tail s [37]
| st_hex h : HEXDIG h = true -> starts_ascii (fun c => negb (HEXDIG c)) s -> stray_tail s [37; h].
Inductive calm : str -> Prop :=
| calm_nil : calm []
(** Text without "%" up to the next "%", beginning with an ASCII character. *)
| calm_plain c p s : c < 128 -> ~ In 37 (c :: p) -> (s = [] \/ exists r, s = 37 :: r) -> calm s -> calm ((c :: p) ++ s)
(** A percent-encoded character. *)
| calm_char c w s : is_scalar c = true -> spelled (utf8 c) w -> calm s -> calm (w ++ s)
(** A byte that never begins a character. *)
| calm_never b w s : 128 <= b <= 193 \/ 245 <= b -> spelled [b] w -> calm s -> calm (w ++ s)
(** A truncated character and a "%" that does not begin a triplet. *)
| calm_broken bs w t s : truncated bs -> spelled bs w -> stray_tail s t -> w ++ t <> [] -> calm s -> calm (w ++ t ++ s).
(** A [Display] that writes one calm chunk. *)
Definition calm_value (d : W unit) : Prop := exists s, fst d = [s] /\ calm s.

(** ** Values for the prefix modifier with the largest length [n]. *)
(** [usize::MAX]. *)
Definition usize_max : N := 18446744073709551615.
(** The byte position of the last of the first [n] characters. *)
Definition last_position (n : nat) (s : str) : nat := blen (removelast (firstn n s)).
(** For the other operators: all ASCII, or not longer than [n] bytes, or one chunk; in the last case,
    with overflow checks, the byte position of the last character kept is less than [n]. *)
Definition tame_prefix (debug : bool) (n : N) (d : W unit) : Prop :=
  all_ascii (concat (fst d)) = true \/
  N.of_nat (blen (concat (fst d))) <= n \/
  exists s, fst d = [s] /\ (debug = true -> n = 0 \/ N.of_nat (last_position (N.to_nat n) s) < n).
(** For the reserved operators: calm and not longer than [n] bytes, or one chunk without "%" beginning
    with an ASCII character, with the same condition. *)
Definition tame_reserved (debug : bool) (n : N) (d : W unit) : Prop :=
  calm_value d /\ N.of_nat (blen (concat (fst d))) <= n \/
  exists s, fst d = [s] /\ ~ In 37 s /\ starts_ascii (fun _ => true) s /\
    (debug = true -> N.of_nat (last_position (N.to_nat n) s) <= n).
(** The conditions for one variable. *)
Definition tame (debug : bool) (o : rop) (r : rspec) (v : Value) : Prop :=
  match v with
  | VUndefined => True
  | VString d =>
      match r_mod r with
      | Prefix ds => if w_reserved (op_row o) then tame_reserved debug (decimal ds) d else tame_prefix debug (decimal ds) d
      | _ => w_reserved (op_row o) = true -> calm_value d /\ N.of_nat (blen (concat (fst d))) <= usize_max
      end
  | VList l => w_reserved (op_row o) = true -> Forall calm_value l
  | VAssoc l => w_reserved (op_row o) = true -> Forall (fun e => calm_value (fst e) /\ calm_value (snd e)) l
  end.
Definition tame_template (debug : bool) (ctx : Ctx) (T : list part) : Prop :=
  forall o l r, In (Expr o l) T -> In r l -> tame debug o r (ctx (r_name r)).

(** ** Misuse of the prefix modifier: the error and its place.
    [misuse_at env T n]: the first variable whose prefix modifier is applied to a list or associative
    array begins at the byte [n] of the template. *)
Definition fine (env : str -> sval) (T : list part) : Prop :=
  forall o l r, In (Expr o l) T -> In r l -> misused (env (r_name r)) r = false.
Definition misuse_at (env : str -> sval) (T : list part) (n : nat) : Prop :=
  exists T1 o l1 r l2 T2,
    T = T1 ++ Expr o (l1 ++ r :: l2) :: T2 /\ fine env T1 /\ fine env [Expr o l1] /\ misused (env (r_name r)) r = true /\
    n = blen (template_text T1 ++ lit "{" ++ rop_text o ++ flat_map (fun x => rspec_text x ++ lit ",") l1).

(** ** Contexts with callbacks and [SimpleContext] *)
(** A history of [SimpleContext] operations, the latest first. *)
Inductive sc_op := Insert (key : str) (v : SValue) | Clear.
Fixpoint sc_run (h : list sc_op) : SimpleContext :=
  match h with
  | [] => sc_new
  | Insert k v :: h => fst (sc_insert (sc_run h) k v)
  | Clear :: h => sc_clear (sc_run h)
  end.
(** The value a variable has after a history: the last one inserted under a valid name since the last
    [clear], unless it is [Undefined]. *)
Inductive current : list sc_op -> str -> option SValue -> Prop :=
| cur_nil k : current [] k None
| cur_clear h k : current (Clear :: h) k None
| cur_other h k k' v x : k <> k' -> current h k x -> current (Insert k' v :: h) k x
| cur_invalid h k v x : ~ crate_varname k -> current h k x -> current (Insert k v :: h) k x
| cur_undef h k : crate_varname k -> current (Insert k SUndefined :: h) k None
| cur_def h k v : crate_varname k -> v <> SUndefined -> current (Insert k v :: h) k (Some v).
Definition sval_of (o : option SValue) : sval :=
  match o with
  | None | Some SUndefined => Undef
  | Some (SString s) => Str s
  | Some (SList l) => Lst l
  | Some (SAssoc l) => Assc l
  end.
(** Rust strings are made of scalar values. *)
Definition scalar_value (v : SValue) : Prop :=
  match v with
  | SUndefined => True
  | SString s => all_scalar s = true
  | SList l => Forall (fun s => all_scalar s = true) l
  | SAssoc l => Forall (fun e => all_scalar (fst e) = true /\ all_scalar (snd e) = true) l
  end.
Definition scalar_op (op : sc_op) : Prop := match op with Insert k v => scalar_value v | Clear => True end.

(** ** Dynamic contexts *)
(** What a dynamic context is asked, as seen by a context that also records it. *)
Inductive event := EStart | EVisit (p : VisitPurpose) (name : str) | EEnd.
Definition logged {St} (ctx : DynCtx St) : DynCtx (St * list event) :=
  mkDC _ (fun p name '(c, l) => let '(v, c') := dyn_visit ctx p name c in (v, (c', l ++ [EVisit p name])))
         (fun '(c, l) => (dyn_start ctx c, l ++ [EStart]))
         (fun '(c, l) => (dyn_end ctx c, l ++ [EEnd])).
(** Every variable is visited twice, in the order of the template. *)
Definition visits (T : list part) : list event :=
  flat_map (fun name => [EVisit Typecheck name; EVisit Expand name]) (template_names T).

(** ** Simple cases *)
(** No reserved operator and no prefix modifier. *)
Definition simple_template (T : list part) : Prop :=
  forall o l r, In (Expr o l) T -> In r l -> w_reserved (op_row o) = false /\ (forall ds, r_mod r <> Prefix ds).
(** Only ASCII, no "%" and not too long for the address space. *)
Definition plain_text (s : str) : Prop := all_ascii s = true /\ ~ In 37 s /\ N.of_nat (length s) <= usize_max.
Definition plain_value (v : SValue) : Prop :=
  match v with
  | SUndefined => True
  | SString s => plain_text s
  | SList l => Forall plain_text l
  | SAssoc l => Forall (fun e => plain_text (fst e) /\ plain_text (snd e)) l
  end.
Definition plain_op (op : sc_op) : Prop := match op with Insert k v => plain_value v | Clear => True end.

(** ** Exactly when an expansion panics *)
(** The operators "+" and "#" do not occur. *)
Definition open_template (T : list part) : Prop := forall o l, In (Expr o l) T -> w_reserved (op_row o) = false.
(** What the crate keeps of the chunks of a value for the prefix length [n] without "+" and "#": at most
    [n] characters of a chunk; then the byte position after the first byte of the last of them is
    subtracted from [n].  [None]: an arithmetic overflow is detected. *)
Fixpoint keep (debug : bool) (n : N) (chunks : list str) : option str :=
  match chunks with
  | [] => Some []
  | c :: r =>
      if n =? 0 then Some [] else
      let used := if is_empty c then 0 else N.of_nat (last_position (N.to_nat n) c) + 1 in
      if debug && (n <? used) then None
      else option_map (app (firstn (N.to_nat n) c)) (keep debug (if used <=? n then n - used else n + (usize_max + 1) - used) r)
  end.
Definition keep_value (debug : bool) (m : rmod) (d : W unit) : option str :=
  match m with Prefix ds => keep debug (decimal ds) (fst d) | _ => Some (concat (fst d)) end.
(** Like [crate_value], but [kept r] is what is left of the string value of [r]. *)
Definition kept_value (S : Spec) (kept : rspec -> str) (o : rop) (r : rspec) (v : sval) : str :=
  match v with Str _ => rfc_string S o (r_name r) (kept r) | _ => crate_value S o r v end.

(** For the values of a [SimpleContext], without "%" for the operators "+" and "#": *)
Definition begins_nonascii (s : str) : Prop := exists c r, s = c :: r /\ 128 <= c.
Definition panics_string (debug : bool) (o : rop) (m : rmod) (s : str) : Prop :=
  match w_reserved (op_row o), m with
  | false, Prefix ds => debug = true /\ decimal ds <> 0 /\ s <> [] /\ decimal ds <= N.of_nat (last_position (N.to_nat (decimal ds)) s)
  | false, _ => False
  | true, Prefix ds => decimal ds <> 0 /\ (begins_nonascii s \/ debug = true /\ decimal ds < N.of_nat (last_position (N.to_nat (decimal ds)) s))
  | true, _ => begins_nonascii s
  end.
Definition panics_value (debug : bool) (o : rop) (m : rmod) (v : sval) : Prop :=
  match v with
  | Undef => False
  | Str s => panics_string debug o m s
  | Lst l => w_reserved (op_row o) = true /\ Exists begins_nonascii l
  | Assc l => w_reserved (op_row o) = true /\ Exists (fun e => begins_nonascii (fst e) \/ begins_nonascii (snd e)) l
  end.
(** No "%", and not too long for the address space. *)
Definition no_percent (s : str) : Prop := ~ In 37 s /\ N.of_nat (blen s) <= usize_max.
Definition no_percents (v : sval) : Prop :=
  match v with
  | Undef => True
  | Str s => no_percent s
  | Lst l => Forall no_percent l
  | Assc l => Forall (fun e => no_percent (fst e) /\ no_percent (snd e)) l
  end.
Definition no_percents_reserved (env : str -> sval) (T : list part) : Prop :=
  forall o l r, In (Expr o l) T -> In r l -> w_reserved (op_row o) = true -> no_percents (env (r_name r)).
(** Some variable of the template makes it panic. *)
Definition panics_somewhere (debug : bool) (env : str -> sval) (T : list part) : Prop :=
  exists o l r, In (Expr o l) T /\ In r l /\ panics_value debug o (r_mod r) (env (r_name r)).

(** ** Counterexamples *)
(** Expanding the template [T] of RFC 6570 after the history [h] gives [got], with or without overflow
    checks, where RFC 6570 gives [want]. *)
Definition departs (T : list part) (h : list sc_op) (got want : str) : Prop :=
  Forall rfc_part T /\ (forall debug, expand_to_string UriSpec debug (sc_visit (sc_run h)) (template_text T) = Ok got) /\
  rfc_expansion UriSpec (fun k => sval_of (sc_get (sc_run h) k)) T = want /\ got <> want.
(** [t] is accepted, but expanding it after the history [h] panics. *)
Definition panics_on (debug : bool) (t : str) (h : list sc_op) : Prop :=
  template_new t = Ok t /\ expand_to_string UriSpec debug (sc_visit (sc_run h)) t = Panic.

(** ** An example of a context and a template *)
Definition example_history : list sc_op :=
  [Insert (lit "keys") (SAssoc [(lit "semi", lit ";"); (lit "dot", lit ".")]);
   Insert (lit "list") (SList [lit "red"; lit "green"]); Insert (lit "hello") (SString (lit "Hello World!"));
   Insert (lit "empty") (SString [])].
Definition example_template : list part :=
  [Lit (lit "/m"); Expr Simple [mkR (lit "hello") NoMod]; Expr Slash [mkR (lit "list") Explode; mkR (lit "hello") (Prefix (lit "2"))];
   Expr Ques [mkR (lit "keys") Explode; mkR (lit "undef") NoMod; mkR (lit "empty") NoMod]; Expr Hash [mkR (lit "hello") NoMod; mkR (lit "list") NoMod]].
