(** * Model of src/template/expand.rs, context.rs, value.rs and simple_context.rs.

    [debug] tells whether debug assertions and arithmetic overflow checks are compiled in (both follow
    the build profile); [usize] has 64 bits.  A context is modelled by the values it makes the visitor
    visit; a [Display] value by its chunks (MFormat.v). *)
From Verif Require Import Base Chars Utf8 MValidate MTrusted MFormat MSearch MPct MEncode MTemplate MMaybePct.

(** ** Contexts *)
(** What a context does with a visitor (context.rs:429-493): [visit_undefined], [visit_string],
    [visit_list] with all the items and [finish], [visit_assoc] with all the entries and [finish]
    (value.rs, [visit_items_and_finish], [visit_entries_and_finish] and simple_context.rs:199-226 all do
    this). *)
Inductive Value := VUndefined | VString (v : W unit) | VList (l : list (W unit)) | VAssoc (l : list (W unit * W unit)).
(** template.rs:149-202 and expand.rs:958-1037 [TypeVisitor] *)
Inductive ValueType := TyUndefined | TyString | TyList | TyAssoc.
Definition type_of (v : Value) : ValueType :=
  match v with
  | VUndefined => TyUndefined
  | VString _ => TyString
  | VList [] => TyUndefined
  | VList (_ :: _) => TyList
  | VAssoc [] => TyUndefined
  | VAssoc (_ :: _) => TyAssoc
  end.
(** context.rs:277-287 [Context::visit]: the value for a variable name. *)
Definition Ctx := str -> Value.

(** ** Operators: expand.rs:276-374 *)
Record OpProps := mkOP { op_first : str; op_sep : str; op_named : bool; op_ifemp : str; op_allow_reserved : bool }.
Definition OpProps_from_op (o : Operator) : OpProps :=
  match o with
  | OString => mkOP [] (lit ",") false [] false
  | OReserved => mkOP [] (lit ",") false [] true
  | OFragment => mkOP (lit "#") (lit ",") false [] true
  | OLabel => mkOP (lit ".") (lit ".") false [] false
  | OPathSegments => mkOP (lit "/") (lit "/") false [] false
  | OPathParams => mkOP (lit ";") (lit ";") true [] false
  | OFormQuery => mkOP (lit "?") (lit "&") true (lit "=") false
  | OFormQueryCont => mkOP (lit "&") (lit "&") true (lit "=") false
  end.

(** A string given to a formatting macro: one chunk. *)
Definition display (s : str) : W unit := ([s], Ret tt).

(** ** Escaping *)
(** expand.rs:407-420: the output function of [escape_write]. *)
Definition escape_frag (S : Spec) (_ : unit) (frag : Frag) : W (unit + unit) :=
  (match frag with
   | FChar s _ => write s
   | NoPctStr s => PercentEncoded S CCharacter (display s)
   | FStrayPercent => write (lit "%25")
   | InvalidUtf8PctTriplets s => write s
   end) >> wret (inl tt).
(** expand.rs:401-445 [escape_write] *)
Definition escape_write (S : Spec) (debug : bool) (v : W unit) (allow_reserved : bool) : W unit :=
  if allow_reserved then process_percent_encoded_best_effort debug (escape_frag S) tt v
  else PercentEncoded S CUnreserve v.

Definition USIZE : N := 18446744073709551616.
(** [a - b] on [usize] *)
Definition usize_sub (debug : bool) (a b : N) : W N :=
  if b <=? a then wret (a - b) else if debug then wpanic else wret (a + USIZE - b).
(** [s.char_indices().by_ref().take(n).last()]: the index of the last character taken, and the
    characters taken. *)
Fixpoint take_chars (n i : N) (s : str) (last : option N) : option N * str :=
  match s with
  | [] => (last, [])
  | c :: r =>
      if n =? 0 then (last, [])
      else let '(l, t) := take_chars (n - 1) (i + N.of_nat (clen c)) r (Some i) in (l, c :: t)
  end.
(** expand.rs:456-494: the output function of [escape_write_with_maxlen]; the state is [max_len]. *)
Definition maxlen_frag (S : Spec) (debug : bool) (max_len : N) (frag : Frag) : W (N + unit) :=
  if max_len =? 0 then wret (inr tt) else
  match frag with
  | FChar s _ => wdo m <- usize_sub debug max_len 1 ; write s >> wret (inl m)
  | NoPctStr s =>
      match take_chars max_len 0 s None with
      | (Some count, taken) =>
          wdo m <- usize_sub debug max_len count ;
          PercentEncoded S CCharacter (display taken) >> wret (inl m)
      | (None, _) => wpanic
      end
  | FStrayPercent => wdo m <- usize_sub debug max_len 1 ; write (lit "%25") >> wret (inl m)
  | InvalidUtf8PctTriplets s =>
      let count := N.min max_len (N.of_nat (length s / 3)) in
      wdo m <- usize_sub debug max_len count ;
      write (firstn (N.to_nat count * 3) s) >> wret (inl m)
  end.
(** expand.rs:526-547 [TruncatePercentEncodeWriter::write_str]; the state is [rest_num_chars]. *)
Definition truncate_write (S : Spec) (debug : bool) (rest_num_chars : N) (s : str) : W N :=
  if rest_num_chars =? 0 then wret rest_num_chars else
  let '(last, truncated) := take_chars rest_num_chars 0 s None in
  let skip_count := match last with Some i => i + 1 | None => 0 end in
  PercentEncoded S CUnreserve (display truncated) >> usize_sub debug rest_num_chars skip_count.
Fixpoint truncate_chunks (S : Spec) (debug : bool) (rest : N) (chunks : list str) : W unit :=
  match chunks with
  | [] => wret tt
  | s :: r => wdo rest <- truncate_write S debug rest s ; truncate_chunks S debug rest r
  end.
(** expand.rs:448-514 [escape_write_with_maxlen] *)
Definition escape_write_with_maxlen (S : Spec) (debug : bool) (v : W unit) (allow_reserved : bool)
  (max_len : option N) : W unit :=
  if allow_reserved then
    process_percent_encoded_best_effort debug (maxlen_frag S debug)
      (match max_len with Some n => n | None => USIZE - 1 end) v
  else
    match max_len with
    | Some n => truncate_chunks S debug n (fst v) >> ([], snd v)
    | None => PercentEncoded S CUnreserve v
    end.
(** expand.rs:550-594 [PrefixOnceWriter]: the prefix goes out before the first chunk; the result tells
    whether it is still unwritten. *)
Definition prefix_once (prefix : option str) (d : W unit) : W bool :=
  match prefix, fst d with
  | None, _ => d >> wret false
  | Some _, [] => d >> wret true
  | Some p, _ :: _ => write p >> d >> wret false
  end.

(** ** Visitors *)
Section Visit.
Variable S : Spec.
Variable debug : bool.
Variable vs : VarSpec.
Variable op : Operator.
Let oppr := OpProps_from_op op.
(** expand.rs:693-717 [visit_string]; the argument and the result are [is_first_varspec]. *)
Definition visit_string (first : bool) (v : W unit) : W bool :=
  write (if first then op_first oppr else op_sep oppr) >>
  (if op_named oppr then write (vs_name vs) else wret tt) >>
  let max_len := match vs_modifier vs with MNone | MExplode => None | MMaxLen n => Some n end in
  wdo unwritten <- prefix_once (if op_named oppr then Some (lit "=") else None)
                     (escape_write_with_maxlen S debug v (op_allow_reserved oppr) max_len) ;
  (if unwritten then write (op_ifemp oppr) else wret tt) >> wret false.
(** expand.rs:766-773, 862-869: a prefix modifier panics here. *)
Definition is_explode : W bool :=
  match vs_modifier vs with MMaxLen _ => wpanic | MNone => wret false | MExplode => wret true end.
(** expand.rs:764-809 [visit_item_impl]; state: [is_first_varspec], and whether [num_elems] is zero. *)
Definition visit_item (st : bool * bool) (item : W unit) : W (bool * bool) :=
  let '(first, zero) := st in
  wdo explode <- is_explode ;
  (if zero then
     write (if first then op_first oppr else op_sep oppr) >>
     (if op_named oppr then write (vs_name vs) >> write (lit "=") else wret tt)
   else
     match op_named oppr, explode with
     | _, false => write (lit ",")
     | false, true => write (op_sep oppr)
     | true, true =>
         write (op_sep oppr) >>
         escape_write S debug (display (vs_name vs)) (op_allow_reserved oppr) >>
         write (lit "=")
     end) >>
  escape_write S debug item (op_allow_reserved oppr) >>
  wret (if zero then false else first, false).
(** expand.rs:855-926 [visit_entry_impl] *)
Definition visit_entry (st : bool * bool) (entry : W unit * W unit) : W (bool * bool) :=
  let '(first, zero) := st in
  let '(key, value) := entry in
  let escape_key := escape_write S debug key (op_allow_reserved oppr) in
  wdo explode <- is_explode ;
  (if zero then
     write (if first then op_first oppr else op_sep oppr) >>
     if explode : bool then escape_key >> write (lit "=")
     else
       (if op_named oppr then
          escape_write S debug (display (vs_name vs)) (op_allow_reserved oppr) >> write (lit "=")
        else wret tt) >>
       escape_key >> write (lit ",")
   else
     match op_named oppr, explode with
     | _, false => write (lit ",") >> escape_key >> write (lit ",")
     | false, true => write (op_sep oppr) >> escape_key >> write (lit "=")
     | true, true => write (op_sep oppr) >> escape_key >> write (lit "=")
     end) >>
  escape_write S debug value (op_allow_reserved oppr) >>
  wret (if zero then false else first, false).
(** [try_for_each] *)
Fixpoint visit_each {A} (visit : bool * bool -> A -> W (bool * bool)) (st : bool * bool) (l : list A) : W (bool * bool) :=
  match l with
  | [] => wret st
  | x :: r => wdo st <- visit st x ; visit_each visit st r
  end.
(** [context.visit(ValueVisitor)] for a context that supplies [v]; the token check of
    expand.rs:387-392 holds since the visitor given is the one used. *)
Definition visit_value (first : bool) (v : Value) : W bool :=
  match v with
  | VUndefined => wret first
  | VString d => visit_string first d
  | VList l => wdo (first, _) <- visit_each visit_item (first, true) l ; wret first
  | VAssoc l => wdo (first, _) <- visit_each visit_entry (first, true) l ; wret first
  end.
End Visit.

(** ** Expansion with an immutable context *)
(** expand.rs:383-393: the loop of [expand]; [fuel] bounds the number of varspecs. *)
Fixpoint expand_vars (fuel : nat) (S : Spec) (debug : bool) (ctx : Ctx) (op : Operator) (first : bool) (rest : str) : W unit :=
  match fuel with
  | O => wpanic
  | Datatypes.S fuel =>
      wdo r <- lift (varlist_next rest) ;
      match r with
      | None => wret tt
      | Some (_, vs, rest) =>
          wdo first <- visit_value S debug vs op first (ctx (vs_name vs)) ;
          expand_vars fuel S debug ctx op first rest
      end
  end.
(** expand.rs:377-397 *)
Definition expand_expr (S : Spec) (debug : bool) (ctx : Ctx) (body : str) : W unit :=
  wdo (op, vars) <- lift (decompose body) ;
  expand_vars (1 + length vars) S debug ctx op true vars.
(** expand.rs:137-150 [<Expanded as Display>::fmt]: the loop *)
Fixpoint expanded_loop (fuel : nat) (S : Spec) (debug : bool) (ctx : Ctx) (template : str) : W unit :=
  match fuel with
  | O => wpanic
  | Datatypes.S fuel =>
      wdo r <- lift (chunks_next debug template) ;
      match r with
      | None => wret tt
      | Some (ChunkLiteral l, rest) => write l >> expanded_loop fuel S debug ctx rest
      | Some (ChunkExpr b, rest) => expand_expr S debug ctx b >> expanded_loop fuel S debug ctx rest
      end
  end.
Definition expanded_fmt (S : Spec) (debug : bool) (ctx : Ctx) (template : str) : W unit :=
  expanded_loop (1 + length template) S debug ctx template.
Definition is_maxlen (m : Modifier) : bool := match m with MMaxLen _ => true | _ => false end.
Definition is_composite (t : ValueType) : bool := match t with TyList | TyAssoc => true | _ => false end.
(** expand.rs:113-129: the loop over the varspecs of [typecheck_context]; the result is [pos]. *)
Fixpoint typecheck_vars (fuel : nat) (ctx : Ctx) (pos : nat) (rest : str) : tres nat :=
  match fuel with
  | O => Panic
  | S fuel =>
      do r <- tlift (varlist_next rest) ;
      match r with
      | None => Ok pos
      | Some (varspec_len, vs, rest) =>
          if is_maxlen (vs_modifier vs) && is_composite (type_of (ctx (vs_name vs)))
          then terr UnexpectedValueType pos
          else typecheck_vars fuel ctx (pos + (varspec_len + 1)) rest
      end
  end.
(** expand.rs:99-133 [typecheck_context] *)
Fixpoint typecheck_loop (fuel : nat) (debug : bool) (ctx : Ctx) (pos : nat) (template : str) : tres unit :=
  match fuel with
  | O => Panic
  | S fuel =>
      do r <- tlift (chunks_next debug template) ;
      match r with
      | None => Ok tt
      | Some (ChunkLiteral l, rest) => typecheck_loop fuel debug ctx (pos + blen l) rest
      | Some (ChunkExpr b, rest) =>
          do (op, vars) <- tlift (decompose b) ;
          let chunk_end_pos := (pos + blen b + 2)%nat in
          do pos <- typecheck_vars (1 + length vars) ctx (pos + (Operator_len op + 1)) vars ;
          if Nat.eqb pos chunk_end_pos then typecheck_loop fuel debug ctx pos rest else Panic
      end
  end.
Definition typecheck_context (debug : bool) (ctx : Ctx) (template : str) : tres unit :=
  typecheck_loop (1 + length template) debug ctx 0 template.
(** expand.rs:89-96 and string.rs:262-267 [UriTemplateStr::expand], then [to_string] of the result. *)
Definition expand_new (debug : bool) (ctx : Ctx) (template : str) : tres unit := typecheck_context debug ctx template.
Definition expand_to_string (S : Spec) (debug : bool) (ctx : Ctx) (template : str) : tres str :=
  expand_new debug ctx template ;; tlift (text (expanded_fmt S debug ctx template)).
(** expand.rs:154-183: [TryFrom<Expanded>] for the string types. *)
Definition try_from_expanded (S : Spec) (debug : bool) (t : ty) (ctx : Ctx) (template : str) : res ErrorKind str :=
  match text (expanded_fmt S debug ctx template) with
  | Ok s => new S t s
  | _ => Panic
  end.

(** ** Expansion with a dynamic context *)
(** context.rs:420-425 *)
Inductive VisitPurpose := Typecheck | Expand.
(** context.rs:382-404 [DynamicContext]: the context is a state; visiting supplies a value and moves to
    a new state, which is supposed not to depend on how the visitor returns. *)
Record DynCtx (St : Type) := mkDC {
  dyn_visit : VisitPurpose -> str -> St -> Value * St;
  dyn_start : St -> St;
  dyn_end : St -> St }.
Arguments dyn_visit {St}. Arguments dyn_start {St}. Arguments dyn_end {St}.
(** A run: the chunks written so far, each with the position reported if writing it fails and the state
    of the context at that time; then how it ends. *)
Inductive dend (St A : Type) := DRet (a : A) (c : St) | DErr (e : TError) (c : St) | DPan.
Arguments DRet {St A}. Arguments DErr {St A}. Arguments DPan {St A}.
Definition D (St A : Type) : Type := (list (str * nat * St) * dend St A)%type.
Definition dret {St A} (a : A) (c : St) : D St A := ([], DRet a c).
Definition dbind {St A B} (x : D St A) (f : A -> St -> D St B) : D St B :=
  match x with
  | (o, DRet a c) => let '(o', r) := f a c in (o ++ o', r)
  | (o, DErr e c) => (o, DErr e c)
  | (o, DPan) => (o, DPan)
  end.
(** Writing with the errors mapped to [WriteFailed] at [pos]. *)
Definition dwrite {St A} (pos : nat) (c : St) (d : W A) : D St A :=
  (map (fun s => (s, pos, c)) (fst d),
   match snd d with Ret a => DRet a c | Fail => DErr (mkTE WriteFailed pos) c | Pan => DPan end).
Definition dlift {St A} (c : St) (x : may A) : D St A :=
  match x with Ok a => dret a c | Err e => match e with end | Panic => ([], DPan) end.
Section Dynamic.
Context {St : Type}.
Variable S : Spec.
Variable debug : bool.
Variable ctx : DynCtx St.
(** expand.rs:237-266: the loop of [expand_expr_mut]; the result is [pos]. *)
Fixpoint dyn_vars (fuel : nat) (op : Operator) (first : bool) (pos : nat) (rest : str) (c : St) : D St nat :=
  match fuel with
  | O => ([], DPan)
  | Datatypes.S fuel =>
      dbind (dlift c (varlist_next rest)) (fun r c =>
      match r with
      | None => dret pos c
      | Some (varspec_len, vs, rest) =>
          let '(v, c) := dyn_visit ctx Typecheck (vs_name vs) c in
          if is_maxlen (vs_modifier vs) && is_composite (type_of v)
          then ([], DErr (mkTE UnexpectedValueType pos) c)
          else
            let '(v, c) := dyn_visit ctx Expand (vs_name vs) c in
            dbind (dwrite pos c (visit_value S debug vs op first v)) (fun first c =>
            dyn_vars fuel op first (pos + (varspec_len + 1)) rest c)
      end)
  end.
(** expand.rs:224-270 [expand_expr_mut] *)
Definition dyn_expr (body : str) (pos : nat) (c : St) : D St nat :=
  dbind (dlift c (decompose body)) (fun '(op, vars) c =>
  let chunk_end_pos := (pos + blen body + 2)%nat in
  dbind (dyn_vars (1 + length vars) op true (pos + (Operator_len op + 1)) vars c) (fun pos c =>
  if Nat.eqb pos chunk_end_pos then dret pos c else ([], DPan))).
(** expand.rs:200-221 [expand_whole_dynamic_impl] *)
Fixpoint dyn_loop (fuel : nat) (pos : nat) (template : str) (c : St) : D St unit :=
  match fuel with
  | O => ([], DPan)
  | Datatypes.S fuel =>
      dbind (dlift c (chunks_next debug template)) (fun r c =>
      match r with
      | None => dret tt c
      | Some (ChunkLiteral l, rest) =>
          dbind (dwrite pos c (write l)) (fun _ c => dyn_loop fuel (pos + blen l) rest c)
      | Some (ChunkExpr b, rest) => dbind (dyn_expr b pos c) (fun pos c => dyn_loop fuel pos rest c)
      end)
  end.
(** Running with a writer [w] (MFormat.v): the state of the writer, the result and the state of the
    context; a failing writer gives [WriteFailed]. *)
Fixpoint drun {Wr} (w : Wr -> str -> wstep Wr) (st : Wr) (chunks : list (str * nat * St)) (e : dend St unit)
  : Wr * tres unit * option St :=
  match chunks with
  | [] => match e with
          | DRet _ c => (st, Ok tt, Some c)
          | DErr e c => (st, Err e, Some c)
          | DPan => (st, Panic, None)
          end
  | (s, pos, c) :: r =>
      match w st s with
      | Cont st => drun w st r e
      | Stop st => (st, terr WriteFailed pos, Some c)
      end
  end.
(** expand.rs:186-195 [expand_whole_dynamic], string.rs:280-286 [expand_dynamic] *)
Definition expand_dynamic {Wr} (w : Wr -> str -> wstep Wr) (st : Wr) (template : str) (c : St)
  : Wr * tres unit * option St :=
  let d := dyn_loop (1 + length template) 0 template (dyn_start ctx c) in
  let '(st, r, c) := drun w st (fst d) (snd d) in
  (st, r, match c with Some c => Some (dyn_end ctx c) | None => None end).
(** string.rs:359-366 [expand_dynamic_to_string]: writing to a [String] does not fail. *)
Definition append_write (st : str) (s : str) : wstep str := Cont (st ++ s).
Definition expand_dynamic_to_string (template : str) (c : St) : tres str * option St :=
  let '(buf, r, c) := expand_dynamic append_write [] template c in
  (match r with Ok _ => Ok buf | Err e => Err e | Panic => Panic end, c).
End Dynamic.
(** context.rs:406-411: every [Context] is a [DynamicContext] with no callbacks. *)
Definition dyn_of (ctx : Ctx) : DynCtx unit :=
  mkDC unit (fun _ name st => (ctx name, st)) (fun st => st) (fun st => st).

(** ** src/template/simple_context.rs *)
(** simple_context.rs:15-24 *)
Inductive SValue := SUndefined | SString (s : str) | SList (l : list str) | SAssoc (l : list (str * str)).
(** simple_context.rs:42-49: [BTreeMap<String, Value>] as an association list (alloc: [insert], [remove]
    and [get] of a map; the order of the keys is never observed). *)
Definition SimpleContext := list (str * SValue).
Fixpoint map_get (k : str) (m : SimpleContext) : option SValue :=
  match m with [] => None | (k', v) :: r => if seqb k k' then Some v else map_get k r end.
Fixpoint map_remove (k : str) (m : SimpleContext) : SimpleContext :=
  match m with [] => [] | (k', v) :: r => if seqb k k' then map_remove k r else (k', v) :: map_remove k r end.
Definition map_insert (k : str) (v : SValue) (m : SimpleContext) : SimpleContext := (k, v) :: map_remove k m.
(** simple_context.rs:76-78, 184-186 *)
Definition sc_new : SimpleContext := [].
Definition sc_clear (m : SimpleContext) : SimpleContext := [].
(** simple_context.rs:136-153 [insert]: the map afterwards and the value returned. *)
Definition sc_insert (m : SimpleContext) (key : str) (value : SValue) : SimpleContext * option SValue :=
  if negb (is_ok (VarName_new key)) then (m, None)
  else match value with
       | SUndefined => (map_remove key m, map_get key m)
       | _ => (map_insert key value m, map_get key m)
       end.
(** simple_context.rs:194-196 *)
Definition sc_get (m : SimpleContext) (key : str) : option SValue := map_get key m.
(** simple_context.rs:199-226 [<SimpleContext as Context>::visit]; the [Display] of a [String] writes
    one chunk. *)
Definition sc_visit (m : SimpleContext) : Ctx := fun name =>
  match map_get name m with
  | None | Some SUndefined => VUndefined
  | Some (SString s) => VString (display s)
  | Some (SList l) => VList (map display l)
  | Some (SAssoc l) => VAssoc (map (fun '(k, v) => (display k, display v)) l)
  end.
