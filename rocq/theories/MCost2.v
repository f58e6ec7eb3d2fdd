(** * Iterating over the chunks and the variables of a template, with the counter of MCost.v. *)
From Verif Require Import Base Chars Utf8 MValidate MTrusted MFormat MSearch MPct MEncode MTemplate MCost.
Open Scope nat_scope.

(** core: [strip_suffix] with one character. *)
Definition k_strip_suffix_char (s : str) (c : N) : K (option str) := (strip_suffix_char s c, Nat.min (length s) 1).
(** core: [parse::<u16>] *)
Definition k_parse_u16 (s : str) : K (option N) := (parse_u16 s, length s).
(** template/components.rs:144-168 *)
Definition k_VarSpec_parse_trusted (s : str) : K (may VarSpec) :=
  kdo o <- k_strip_suffix_char s STAR ;
  match o with
  | Some varname => kret (Ok (mkVS varname MExplode))
  | None =>
      kdo o <- k_find_split_hole s COLON ;
      match o with
      | Some (varname, max_len) =>
          kdo o <- k_parse_u16 max_len ;
          kret match o with Some n => Ok (mkVS varname (MMaxLen n)) | None => Panic end
      | None => kret (Ok (mkVS s MNone))
      end
  end.
(** template/components.rs:38-57: the first byte *)
Definition k_expr_decompose (body : str) : K (may (Operator * str)) := (MTemplate.decompose body, 1).
(** template/components.rs:209-226 *)
Definition k_varlist_next (rest : str) : K (may (option (nat * VarSpec * str))) :=
  kdo o <- k_find_split_hole rest COMMA ;
  match o with
  | Some (prefix, new_rest) => rdo v <- k_VarSpec_parse_trusted prefix ; kret (Ok (Some (blen prefix, v, new_rest)))
  | None => if is_empty rest then kret (Ok None) else rdo v <- k_VarSpec_parse_trusted rest ; kret (Ok (Some (blen rest, v, [])))
  end.
(** expand.rs:55-72 *)
Definition k_chunks_next (debug : bool) (template : str) : K (may (option (Chunk * str))) :=
  if is_empty template then kret (Ok None) else
  kdo o <- k_find_split template LBRACE ;
  match o with
  | Some ([], _) =>
      rdo inner <- kret (str_from template 1) ;
      kdo o <- k_find_split_hole inner RBRACE ;
      match o with
      | Some (expr_body, rest) => rdo b <- kret (ExprBody_new debug expr_body) ; kret (Ok (Some (ChunkExpr b, rest)))
      | None => kret Panic
      end
  | Some (lit, rest) => kret (Ok (Some (ChunkLiteral lit, rest)))
  | None => kret (Ok (Some (ChunkLiteral template, [])))
  end.
(** string.rs:588-591 *)
Fixpoint k_find_expr (fuel : nat) (debug : bool) (template : str) : K (may (option str * str)) :=
  match fuel with
  | O => kret Panic
  | S fuel =>
      rdo r <- k_chunks_next debug template ;
      match r with
      | None => kret (Ok (None, template))
      | Some (ChunkLiteral _, rest) => k_find_expr fuel debug rest
      | Some (ChunkExpr b, rest) => kret (Ok (Some b, rest))
      end
  end.
(** string.rs:580-594 *)
Fixpoint k_variables_loop (fuel : nat) (debug : bool) (it : VariablesIter) : K (may (option str * VariablesIter)) :=
  match fuel with
  | O => kret Panic
  | S fuel =>
      let next_chunk :=
        rdo (e, chunks) <- k_find_expr (1 + length (vi_chunks it)) debug (vi_chunks it) ;
        match e with
        | None => kret (Ok (None, mkVI chunks None))
        | Some b => rdo (_, vars) <- k_expr_decompose b ; k_variables_loop fuel debug (mkVI chunks (Some vars))
        end in
      match vi_vars it with
      | Some vars =>
          rdo r <- k_varlist_next vars ;
          match r with
          | Some (_, spec, rest) => kret (Ok (Some (vs_name spec), mkVI (vi_chunks it) (Some rest)))
          | None => next_chunk
          end
      | None => next_chunk
      end
  end.
Definition k_variables_next (debug : bool) (it : VariablesIter) : K (may (option str * VariablesIter)) :=
  k_variables_loop (2 + length (vi_chunks it)) debug it.
(** [collect()] *)
Fixpoint k_variables_collect (n : nat) (debug : bool) (it : VariablesIter) : K (may (list str)) :=
  match n with
  | O => kret Panic
  | S n =>
      rdo (v, it) <- k_variables_next debug it ;
      match v with
      | None => kret (Ok [])
      | Some v => rdo l <- k_variables_collect n debug it ; kret (Ok (v :: l))
      end
  end.
Definition k_template_variables (debug : bool) (template : str) : K (may (list str)) :=
  k_variables_collect (2 + length template) debug (variables template).
