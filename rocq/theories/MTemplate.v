(** * Model of src/template: the parsers (parser/char.rs, parser/validate.rs), components.rs, the
    chunk iterator of expand.rs and the variable iterator of string.rs.

    [debug] tells whether [debug_assert!] is compiled in.  The ASCII bytes the code looks for occur
    in UTF-8 only as the ASCII characters themselves, so searching is modelled on scalars (C33);
    byte positions ([len], slicing, [split_at]) are byte positions here too. *)
From Verif Require Import Base Chars Utf8 MValidate MTrusted MFormat MSearch MPct MEncode.

(** ** src/template/parser/char.rs *)
(** char.rs:7-136 *)
Definition T_CHARS : list N := [
  0; 0; 0; 0; 0; 0; 0; 0; 0; 0; 0; 0; 0; 0; 0; 0;
  0; 0; 0; 0; 0; 0; 0; 0; 0; 0; 0; 0; 0; 0; 0; 0;
  0; 1; 0; 1; 1; 0; 1; 1; 1; 1; 1; 1; 1; 1; 5; 1;
  7; 7; 7; 7; 7; 7; 7; 7; 7; 7; 1; 1; 0; 1; 0; 1;
  1; 7; 7; 7; 7; 7; 7; 7; 7; 7; 7; 7; 7; 7; 7; 7;
  7; 7; 7; 7; 7; 7; 7; 7; 7; 7; 7; 1; 0; 1; 0; 7;
  0; 7; 7; 7; 7; 7; 7; 7; 7; 7; 7; 7; 7; 7; 7; 7;
  7; 7; 7; 7; 7; 7; 7; 7; 7; 7; 7; 0; 0; 0; 1; 0].
(** char.rs:140-150 *)
Definition T_MASK_LITERAL := 0.
Definition T_MASK_VARCHAR_START := 1.
Definition T_MASK_VARCHAR_CONTINUE := 2.
Definition t_tbl (bit : N) (c : N) : bool := N.testbit (nth (N.to_nat c) T_CHARS 0) bit.
(** char.rs:160-162, 173-176, 187-190 *)
Definition is_ascii_literal_char (c : N) : bool := t_tbl T_MASK_LITERAL c.
Definition is_ascii_varchar_start (c : N) : bool := t_tbl T_MASK_VARCHAR_START c.
Definition is_ascii_varchar_continue (c : N) : bool := t_tbl T_MASK_VARCHAR_CONTINUE c.

(** ** src/template/error.rs:10-27, 52-57 *)
Inductive TErrorKind :=
| WriteFailed | ExpressionNotClosed | InvalidCharacter | InvalidExpression
| InvalidPercentEncoding | TInvalidUtf8 | UnexpectedValueType | UnsupportedOperator.
Record TError := mkTE { te_kind : TErrorKind; te_location : nat }.
Definition tres := res TError.
Definition terr {A} (k : TErrorKind) (n : nat) : tres A := Err (mkTE k n).
Definition tlift {A} (x : may A) : tres A :=
  match x with Ok a => Ok a | Err e => match e with end | Panic => Panic end.

(** ** src/template/components.rs: operators *)
(** template/components.rs:242-247, 272-289, 321-332 (the reserved operators need no distinction). *)
Inductive Operator := OString | OReserved | OFragment | OLabel | OPathSegments | OPathParams | OFormQuery | OFormQueryCont.
Inductive MaybeOperator := OpWorking (o : Operator) | OpForFuture.
(** template/components.rs:294-305 *)
Definition Operator_from_byte (b : N) : option Operator :=
  if b =? 43 then Some OReserved
  else if b =? 35 then Some OFragment
  else if b =? 46 then Some OLabel
  else if b =? 47 then Some OPathSegments
  else if b =? 59 then Some OPathParams
  else if b =? 63 then Some OFormQuery
  else if b =? 38 then Some OFormQueryCont
  else None.
(** template/components.rs:251-267 *)
Definition MaybeOperator_from_byte (b : N) : option MaybeOperator :=
  if b =? 43 then Some (OpWorking OReserved)
  else if b =? 35 then Some (OpWorking OFragment)
  else if b =? 46 then Some (OpWorking OLabel)
  else if b =? 47 then Some (OpWorking OPathSegments)
  else if b =? 59 then Some (OpWorking OPathParams)
  else if b =? 63 then Some (OpWorking OFormQuery)
  else if b =? 38 then Some (OpWorking OFormQueryCont)
  else if (b =? 61) || (b =? 44) || (b =? 33) || (b =? 64) || (b =? 124) then Some OpForFuture
  else None.
(** template/components.rs:310-316 *)
Definition Operator_len (o : Operator) : nat := match o with OString => 0%nat | _ => 1%nat end.

(** ** src/template/parser/validate.rs *)
(** template/parser/validate.rs:14-22 *)
Definition validate_literal (s : str) (offset : nat) : tres unit :=
  match position (fun c => negb (is_ascii c) || negb (is_ascii_literal_char c)) s with
  | Some pos => terr InvalidCharacter (offset + pos)
  | None => Ok tt
  end.
(** template/parser/validate.rs:58-69 *)
Definition validate_varname (s : str) (offset : nat) : tres unit :=
  do rest <- match utf8s s with
             | [] => terr InvalidExpression offset
             | b :: bs =>
                 if (b =? PCT) && starts_with_double_hexdigits bs then tlift (str_from s 3)
                 else if is_ascii b && is_ascii_varchar_start b then tlift (str_from s 1)
                 else terr InvalidExpression offset
             end ;
  if satisfy_chars_with_pct_encoded is_ascii_varchar_continue (fun _ => false) rest then Ok tt
  else terr InvalidExpression offset.
(** template/parser/validate.rs:25-55 *)
Definition STAR := 42.
Definition COMMA := 44.
Definition validate_varspec (s : str) (offset : nat) : tres unit :=
  match find_split2_hole s COLON STAR with
  | Some (maybe_varname, sep, rest) =>
      if sep =? COLON then
        validate_varname maybe_varname offset ;;
        (if negb (Nat.leb 1 (blen rest) && Nat.leb (blen rest) 5) then
           terr InvalidExpression (offset + blen maybe_varname + 2)
         else match position (fun b => negb (is_digit b)) (utf8s rest) with
              | Some pos => terr InvalidExpression (offset + blen maybe_varname + 2 + pos)
              | None => Ok tt
              end)
      else if sep =? STAR then
        validate_varname maybe_varname offset ;;
        (if negb (is_empty rest) then terr InvalidExpression (offset + blen maybe_varname + 1)
         else Ok tt)
      else Panic
  | None => validate_varname s offset
  end.
(** core: [str::split] at one ASCII character. *)
Fixpoint split_on (p : N -> bool) (s : str) : list str :=
  match s with
  | [] => [[]]
  | c :: r =>
      if p c then [] :: split_on p r
      else match split_on p r with x :: l => (c :: x) :: l | [] => [[c]] end
  end.
(** template/parser/validate.rs:91-99: the loop over the varspecs. *)
Fixpoint validate_varspecs (spec_i : nat) (specs : list str) (offset : nat) : tres unit :=
  match specs with
  | [] => Ok tt
  | v :: r =>
      let offset := (if Nat.eqb spec_i 0 then offset else offset + 1)%nat in
      validate_varspec v offset ;;
      validate_varspecs (S spec_i) r (offset + blen v)%nat
  end.
(** template/parser/validate.rs:74-102 *)
Definition validate_expr_body (s : str) (offset : nat) : tres unit :=
  match utf8s s with
  | [] => terr InvalidExpression offset
  | b :: _ =>
      match MaybeOperator_from_byte b with
      | Some (OpWorking _) =>
          do vars <- tlift (str_from s 1) ;
          validate_varspecs 0 (split_on (N.eqb COMMA) vars) (offset + 1)%nat
      | Some OpForFuture => terr UnsupportedOperator offset
      | None => validate_varspecs 0 (split_on (N.eqb COMMA) s) offset
      end
  end.
Definition LBRACE := 123.
Definition RBRACE := 125.
(** template/parser/validate.rs:107-161 [validate_template_str]: the loop; [fuel] bounds the number of iterations. *)
Fixpoint validate_template_loop (fuel : nat) (s rest : str) (offset : nat) : tres unit :=
  match fuel with
  | O => Panic
  | S fuel =>
      if is_empty rest then Ok tt else
      match find_split2_hole rest PCT LBRACE with
      | Some (literal, sep, after) =>
          do rest <- (if sep =? PCT then
              validate_literal literal offset ;;
              (if Nat.ltb (blen after) 2 then terr InvalidPercentEncoding (offset + blen literal)
               else
                do (xdigits2, new_rest) <- tlift (str_split_at after 2) ;
                do x0 <- tlift (byte_at (utf8s xdigits2) 0) ;
                (if negb (is_hexdigit x0) then terr InvalidPercentEncoding (offset + blen literal + 1)
                 else
                  do x1 <- tlift (byte_at (utf8s xdigits2) 1) ;
                  (if negb (is_hexdigit x1) then terr InvalidPercentEncoding (offset + blen literal + 2)
                   else Ok new_rest)))
            else if sep =? LBRACE then
              validate_literal literal offset ;;
              match find_split_hole after RBRACE with
              | None => terr ExpressionNotClosed (offset + blen literal)
              | Some (expr, new_rest) =>
                  validate_expr_body expr (offset + blen literal + 1) ;; Ok new_rest
              end
            else Panic) ;
          validate_template_loop fuel s rest (blen s - blen rest)
      | None => validate_literal rest offset
      end
  end.
Definition validate_template_str (s : str) : tres unit := validate_template_loop (1 + length s) s s 0.
(** string.rs:105-107, 146-148, 471-482: [UriTemplateStr::new] / [TryFrom<&str>]. *)
Definition template_new (s : str) : tres str := validate_template_str s ;; Ok s.
(** template/components.rs:99-104 [VarName::new] *)
Definition VarName_new (s : str) : tres str := validate_varname s 0 ;; Ok s.

(** ** src/template/components.rs *)
(** template/components.rs:231-238, 116-121 *)
Inductive Modifier := MNone | MMaxLen (n : N) | MExplode.
Record VarSpec := mkVS { vs_name : str; vs_modifier : Modifier }.
(** core: [str::strip_suffix] with one character. *)
Definition strip_suffix_char (s : str) (c : N) : option str :=
  match rev s with x :: r => if x =? c then Some (rev r) else None | [] => None end.
(** core: [str::parse::<u16>]: an optional "+" (not alone), then decimal digits, no overflow. *)
Fixpoint parse_digits (acc : N) (s : str) : option N :=
  match s with
  | [] => Some acc
  | d :: r =>
      if is_digit d then
        let acc := acc * 10 + (d - 48) in
        if 65535 <? acc then None else parse_digits acc r
      else None
  end.
Definition parse_u16 (s : str) : option N :=
  match s with
  | [] => None
  | c :: r => if (c =? 43) && negb (is_empty r) then parse_digits 0 r else parse_digits 0 s
  end.
(** template/components.rs:144-168 [VarSpec::parse_trusted]: the [expect] is a panic. *)
Definition VarSpec_parse_trusted (s : str) : may VarSpec :=
  match strip_suffix_char s STAR with
  | Some varname => Ok (mkVS varname MExplode)
  | None =>
      match find_split_hole s COLON with
      | Some (varname, max_len) =>
          match parse_u16 max_len with
          | Some n => Ok (mkVS varname (MMaxLen n))
          | None => Panic
          end
      | None => Ok (mkVS s MNone)
      end
  end.
(** template/components.rs:38-57 [ExprBody::decompose] *)
Definition decompose (body : str) : may (Operator * str) :=
  match utf8s body with
  | [] => Panic
  | first :: _ =>
      if is_alpha first || is_digit first || (first =? 95) || (first =? PCT) then Ok (OString, body)
      else match Operator_from_byte first with
           | Some op => do rest <- str_from body 1 ; Ok (op, rest)
           | None => Panic
           end
  end.
(** template/components.rs:209-226 [VarListIter::next]: the item and the new [rest]. *)
Definition varlist_next (rest : str) : may (option (nat * VarSpec * str)) :=
  match find_split_hole rest COMMA with
  | Some (prefix, new_rest) =>
      do v <- VarSpec_parse_trusted prefix ; Ok (Some (blen prefix, v, new_rest))
  | None =>
      if is_empty rest then Ok None
      else do v <- VarSpec_parse_trusted rest ; Ok (Some (blen rest, v, []))
  end.

(** ** src/template/expand.rs:27-73: chunks *)
Inductive Chunk := ChunkLiteral (s : str) | ChunkExpr (body : str).
(** template/components.rs:23-30 [ExprBody::new]: a [debug_assert]. *)
Definition ExprBody_new (debug : bool) (s : str) : may str :=
  if debug && is_empty s then Panic else Ok s.
(** expand.rs:55-72 [Chunks::next]: the chunk and the new [template]. *)
Definition chunks_next (debug : bool) (template : str) : may (option (Chunk * str)) :=
  if is_empty template then Ok None else
  match find_split template LBRACE with
  | Some ([], _) =>
      do inner <- str_from template 1 ;
      match find_split_hole inner RBRACE with
      | Some (expr_body, rest) => do b <- ExprBody_new debug expr_body ; Ok (Some (ChunkExpr b, rest))
      | None => Panic
      end
  | Some (lit, rest) => Ok (Some (ChunkLiteral lit, rest))
  | None => Ok (Some (ChunkLiteral template, []))
  end.

(** ** src/template/string.rs:558-595: [UriTemplateVariables] *)
Record VariablesIter := mkVI { vi_chunks : str; vi_vars : option str }.
Definition variables (template : str) : VariablesIter := mkVI template None.
(** string.rs:588-591: [self.chunks.find_map(..)]: the first expression and the new chunk state. *)
Fixpoint find_expr (fuel : nat) (debug : bool) (template : str) : may (option str * str) :=
  match fuel with
  | O => Panic
  | S fuel =>
      do r <- chunks_next debug template ;
      match r with
      | None => Ok (None, template)
      | Some (ChunkLiteral _, rest) => find_expr fuel debug rest
      | Some (ChunkExpr b, rest) => Ok (Some b, rest)
      end
  end.
(** string.rs:580-594 [next] *)
Fixpoint variables_loop (fuel : nat) (debug : bool) (it : VariablesIter) : may (option str * VariablesIter) :=
  match fuel with
  | O => Panic
  | S fuel =>
      let next_chunk :=
        do (e, chunks) <- find_expr (1 + length (vi_chunks it)) debug (vi_chunks it) ;
        match e with
        | None => Ok (None, mkVI chunks None)
        | Some b =>
            do (_, vars) <- decompose b ;
            variables_loop fuel debug (mkVI chunks (Some vars))
        end in
      match vi_vars it with
      | Some vars =>
          do r <- varlist_next vars ;
          match r with
          | Some (_, spec, rest) => Ok (Some (vs_name spec), mkVI (vi_chunks it) (Some rest))
          | None => next_chunk
          end
      | None => next_chunk
      end
  end.
Definition variables_next (debug : bool) (it : VariablesIter) : may (option str * VariablesIter) :=
  variables_loop (2 + length (vi_chunks it)) debug it.
(** [collect()]: [n] bounds the number of items. *)
Fixpoint variables_collect (n : nat) (debug : bool) (it : VariablesIter) : may (list str) :=
  match n with
  | O => Panic
  | S n =>
      do (v, it) <- variables_next debug it ;
      match v with
      | None => Ok []
      | Some v => do l <- variables_collect n debug it ; Ok (v :: l)
      end
  end.
Definition template_variables (debug : bool) (template : str) : may (list str) :=
  variables_collect (2 + length template) debug (variables template).
