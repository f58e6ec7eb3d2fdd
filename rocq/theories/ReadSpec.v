(** * Reading the values back from the expansion of an expression (specification of C52). *)
From Verif Require Import Base Chars Rfc3986 Utf8 EncodeSpec TemplateSpec.
Open Scope string_scope. Open Scope N_scope. Open Scope list_scope.

(** ** What a recipient does: split at a separator, take apart "name=value", split at ",", percent-decode. *)
Fixpoint pieces (c : N) (s : str) : list str :=
  match s with
  | [] => [[]]
  | x :: r => if x =? c then [] :: pieces c r else match pieces c r with p :: l => (x :: p) :: l | [] => [[x]] end
  end.
Fixpoint at_equals (s : str) : option (str * str) :=
  match s with
  | [] => None
  | x :: r => if x =? 61 then Some ([], r) else match at_equals r with Some (a, b) => Some (x :: a, b) | None => None end
  end.
(** The bytes of a field of a component (C20: what the percent-decoders of the crate return). *)
Definition decoded (s : str) : list N := percent_decode (utf8s s).
(** A field: its name or key, if it has one, and the values.  With a named operator, a field without "=" is a name
    with an empty value. *)
Definition read_field (named : bool) (f : str) : option (list N) * list (list N) :=
  match at_equals f with
  | Some (a, b) => (Some (decoded a), map decoded (pieces 44 b))
  | None => if named then (Some (decoded f), [[]]) else (None, map decoded (pieces 44 f))
  end.
(** The separator of an operator (section 3.2.1, appendix A). *)
Definition separator (o : rop) : N :=
  match o with Simple | Plus | Hash => 44 | Dot => 46 | Slash => 47 | Semi => 59 | Ques | Amp => 38 end.
Definition read_fields (o : rop) (s : str) : list (option (list N) * list (list N)) :=
  map (read_field (w_named (op_row o))) (pieces (separator o) s).

(** ** What it should get: the fields of a value. *)
Definition field : Type := option str * list str.
Definition own_name (o : rop) (r : rspec) : option str := if w_named (op_row o) then Some (r_name r) else None.
(** Whether the elements of a value are separated by the separator of the operator: if it is exploded, and
    without an operator always. *)
Definition apart (o : rop) (r : rspec) : bool :=
  match o with Simple => true | _ => match r_mod r with Explode => true | _ => false end end.
Definition fields (o : rop) (r : rspec) (v : sval) : list field :=
  match v with
  | Undef => []
  | Str s => [(own_name o r, [s])]
  | Lst [] | Assc [] => []
  | Lst l => if apart o r then map (fun x => (own_name o r, [x])) l else [(own_name o r, l)]
  | Assc l =>
      match r_mod r with
      | Explode => map (fun '(k, x) => (Some k, [x])) l
      | _ => if apart o r then flat_map (fun '(k, x) => [(None, [k]); (None, [x])]) l
             else [(own_name o r, flat_map (fun '(k, x) => [k; x]) l)]
      end
  end.
Definition field_bytes (f : field) : option (list N) * list (list N) := (option_map utf8s (fst f), map utf8s (snd f)).
(** All texts of a value. *)
Definition texts (v : sval) : list str :=
  match v with Undef => [] | Str s => [s] | Lst l => l | Assc l => map fst l ++ map snd l end.
