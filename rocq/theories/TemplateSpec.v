(** * Independent specification: RFC 6570 (URI Template).  Does not mention the code of the parsers and
    of the expansion. *)
From Verif Require Import Base Chars Rfc3986 Utf8 PctSpec EncodeSpec.

(** ** Section 2: syntax.  A template is a list of parts. *)
(** Operators: none, "+", "#", ".", "/", ";", "?", "&". *)
Inductive rop := Simple | Plus | Hash | Dot | Slash | Semi | Ques | Amp.
Definition rop_text (o : rop) : str :=
  match o with
  | Simple => [] | Plus => lit "+" | Hash => lit "#" | Dot => lit "." | Slash => lit "/"
  | Semi => lit ";" | Ques => lit "?" | Amp => lit "&"
  end.
(** Modifiers: none, ":" max-length (with its digits), "*". *)
Inductive rmod := NoMod | Prefix (digits : str) | Explode.
Definition rmod_text (m : rmod) : str :=
  match m with NoMod => [] | Prefix ds => lit ":" ++ ds | Explode => lit "*" end.
Record rspec := mkR { r_name : str; r_mod : rmod }.
Definition rspec_text (r : rspec) : str := r_name r ++ rmod_text (r_mod r).
Fixpoint join (sep : str) (l : list str) : str :=
  match l with [] => [] | [x] => x | x :: r => x ++ sep ++ join sep r end.
Inductive part := Lit (s : str) | Expr (o : rop) (l : list rspec).
Definition part_text (p : part) : str :=
  match p with
  | Lit s => s
  | Expr o l => lit "{" ++ rop_text o ++ join (lit ",") (map rspec_text l) ++ lit "}"
  end.
Definition template_text (T : list part) : str := flat_map part_text T.

(** literals = %x21 / %x23-24 / %x26 / %x28-3B / %x3D / %x3F-5B / %x5D / %x5F / %x61-7A / %x7E
    / ucschar / iprivate / pct-encoded; erratum 6937 adds %x27. *)
Definition literal_ascii (c : N) : bool :=
  (c =? 33) || between 35 36 c || (c =? 38) || (c =? 39) || between 40 59 c || (c =? 61)
  || between 63 91 c || (c =? 93) || (c =? 95) || between 97 122 c || (c =? 126).
Definition literals : lang := cls literal_ascii <|> cls ucschar <|> cls iprivate <|> pct_encoded.
(** varchar = ALPHA / DIGIT / "_" / pct-encoded;  varname = varchar *( ["."] varchar ) *)
Definition varchar : lang := cls (fun c => ALPHA c || DIGIT c || (c =? 95)) <|> pct_encoded.
Definition varname : lang := varchar +++ star (opt (tok ".") +++ varchar).
(** max-length = %x31-39 0*3DIGIT ; positive integer < 10000 *)
Definition max_length : lang := cls (between 49 57) +++ reps 0 3 (cls DIGIT).

Definition rfc_spec (r : rspec) : Prop :=
  varname (r_name r) /\ match r_mod r with Prefix ds => max_length ds | _ => True end.
Definition rfc_part (p : part) : Prop :=
  match p with Lit s => star literals s | Expr _ l => l <> [] /\ Forall rfc_spec l end.
(** URI-Template = *( literals / expression ), without the reserved operators. *)
Definition rfc_template (s : str) : Prop := exists T, Forall rfc_part T /\ s = template_text T.

(** What the crate accepts: only ASCII literals; "." anywhere in a name but at the beginning; any one to
    five digits as max-length. *)
Definition crate_literals : lang := cls literal_ascii <|> pct_encoded.
Definition crate_varname : lang := varchar +++ star (tok "." <|> varchar).
Definition crate_spec (r : rspec) : Prop :=
  crate_varname (r_name r) /\ match r_mod r with Prefix ds => reps 1 5 (cls DIGIT) ds | _ => True end.
Definition crate_part (p : part) : Prop :=
  match p with Lit s => star crate_literals s | Expr _ l => l <> [] /\ Forall crate_spec l end.
Definition crate_template (s : str) : Prop := exists T, Forall crate_part T /\ s = template_text T.

(** The two bytes after a "%" do not end at a character boundary: the first character is longer than two
    bytes, or it is ASCII and the second is not. *)
Definition cut (r : str) : Prop :=
  exists c t, r = c :: t /\ (2048 <= c \/ c < 128 /\ exists d t', t = d :: t' /\ 128 <= d).

(** The value of the digits of a max-length. *)
Definition decimal (ds : str) : N := fold_left (fun a d => 10 * a + (d - 48)) ds 0.
(** Every max-length fits in 16 bits. *)
Definition small_spec (r : rspec) : Prop := match r_mod r with Prefix ds => decimal ds <= 65535 | _ => True end.
Definition small_part (p : part) : Prop := match p with Lit _ => True | Expr _ l => Forall small_spec l end.
(** A template that is accepted and whose max-lengths are all small. *)
Definition usable (T : list part) : Prop := Forall (fun p => crate_part p /\ small_part p) T.
(** The variable names, in order. *)
Definition part_names (p : part) : list str := match p with Lit _ => [] | Expr _ l => map r_name l end.
Definition template_names (T : list part) : list str := flat_map part_names T.

(** ** Section 3: expansion *)
Inductive sval := Undef | Str (s : str) | Lst (l : list str) | Assc (l : list (str * str)).
(** Section 2.3: empty lists and arrays are undefined. *)
Definition defined (v : sval) : bool :=
  match v with Undef => false | Str _ => true | Lst l => negb (Nat.eqb (length l) 0) | Assc l => negb (Nat.eqb (length l) 0) end.
(** Appendix A: first, sep, named, ifemp, allow (U: unreserved; U+R: unreserved, reserved and triplets). *)
Record row := mkRow { w_first : str; w_sep : str; w_named : bool; w_ifemp : str; w_reserved : bool }.
Definition op_row (o : rop) : row :=
  match o with
  | Simple => mkRow [] (lit ",") false [] false
  | Plus => mkRow [] (lit ",") false [] true
  | Hash => mkRow (lit "#") (lit ",") false [] true
  | Dot => mkRow (lit ".") (lit ".") false [] false
  | Slash => mkRow (lit "/") (lit "/") false [] false
  | Semi => mkRow (lit ";") (lit ";") true [] false
  | Ques => mkRow (lit "?") (lit "&") true (lit "=") false
  | Amp => mkRow (lit "&") (lit "&") true (lit "=") false
  end.
(** Section 3.2.1: the characters that are not allowed become triplets.  For [IriSpec], the non-ASCII
    characters that IRIs allow are allowed. *)
Definition enc_U (S : Spec) (s : str) : str := encode (unreserved S) s.
Fixpoint enc_UR (S : Spec) (s : str) : str :=
  match s with
  | [] => []
  | c :: r =>
      match c =? 37, r with
      | true, u :: l :: r' =>
          if HEXDIG u && HEXDIG l then c :: u :: l :: enc_UR S r' else triplets (utf8 c) ++ enc_UR S r
      | _, _ => (if character_char S c then [c] else triplets (utf8 c)) ++ enc_UR S r
      end
  end.
Definition enc (S : Spec) (o : rop) (s : str) : str := if w_reserved (op_row o) then enc_UR S s else enc_U S s.
(** Section 2.4.1: the first characters of the value.  (In U+R expansion the RFC counts a triplet in the
    value as one character; this is used for U+R only where nothing is cut off or there is no "%".) *)
Definition prefix_of (m : rmod) (s : str) : str :=
  match m with Prefix ds => firstn (N.to_nat (decimal ds)) s | _ => s end.

Section Expansion.
Variable S : Spec.
(** Section 3.2.1, for one defined variable.  [pre] is the part of a string value kept by the prefix
    modifier. *)
Definition rfc_string (o : rop) (name : str) (kept : str) : str :=
  let w := op_row o in
  if w_named w then
    enc_UR S name ++ (if is_empty kept then w_ifemp w else lit "=" ++ enc S o kept)
  else enc S o kept.
Definition rfc_list (o : rop) (name : str) (explode : bool) (l : list str) : str :=
  let w := op_row o in
  if explode then
    if w_named w then
      join (w_sep w) (map (fun x => enc_UR S name ++ (if is_empty x then w_ifemp w else lit "=" ++ enc S o x)) l)
    else join (w_sep w) (map (enc S o) l)
  else (if w_named w then enc_UR S name ++ lit "=" else []) ++ join (lit ",") (map (enc S o) l).
Definition rfc_assoc (o : rop) (name : str) (explode : bool) (l : list (str * str)) : str :=
  let w := op_row o in
  if explode then
    if w_named w then
      join (w_sep w) (map (fun '(k, x) => enc_UR S k ++ (if is_empty x then w_ifemp w else lit "=" ++ enc S o x)) l)
    else join (w_sep w) (map (fun '(k, x) => enc S o k ++ lit "=" ++ enc S o x) l)
  else (if w_named w then enc_UR S name ++ lit "=" else [])
       ++ join (lit ",") (map (fun '(k, x) => enc S o k ++ lit "," ++ enc S o x) l).
Definition is_explode_mod (m : rmod) : bool := match m with Explode => true | _ => false end.
Definition rfc_value (o : rop) (r : rspec) (v : sval) : str :=
  match v with
  | Undef => []
  | Str s => rfc_string o (r_name r) (prefix_of (r_mod r) s)
  | Lst l => rfc_list o (r_name r) (is_explode_mod (r_mod r)) l
  | Assc l => rfc_assoc o (r_name r) (is_explode_mod (r_mod r)) l
  end.
(** The defined variables of an expression, separated by [sep], after [first]; nothing if there is none.
    [value] says how one of them is expanded. *)
Definition expression (value : rop -> rspec -> sval -> str) (env : str -> sval) (o : rop) (l : list rspec) : str :=
  let vals := map (fun r => value o r (env (r_name r))) (filter (fun r => defined (env (r_name r))) l) in
  match vals with [] => [] | _ => w_first (op_row o) ++ join (w_sep (op_row o)) vals end.
Definition expansion (value : rop -> rspec -> sval -> str) (env : str -> sval) (T : list part) : str :=
  flat_map (fun p => match p with Lit s => s | Expr o l => expression value env o l end) T.
Definition rfc_expansion := expansion rfc_value.

(** ** What the crate does instead of [rfc_list] and [rfc_assoc] for the operators with names: every
    exploded element has "=", keys are encoded like values, and the name is encoded (again) where it is
    not written for the first time and before an array. *)
Definition crate_list (o : rop) (name : str) (explode : bool) (l : list str) : str :=
  let w := op_row o in
  match w_named w && explode, l with
  | true, x :: r =>
      name ++ lit "=" ++ enc_U S x ++ flat_map (fun y => w_sep w ++ enc_U S name ++ lit "=" ++ enc_U S y) r
  | _, _ => rfc_list o name explode l
  end.
Definition crate_assoc (o : rop) (name : str) (explode : bool) (l : list (str * str)) : str :=
  let w := op_row o in
  if w_named w then
    if explode then join (w_sep w) (map (fun '(k, x) => enc_U S k ++ lit "=" ++ enc_U S x) l)
    else enc_U S name ++ lit "=" ++ join (lit ",") (map (fun '(k, x) => enc_U S k ++ lit "," ++ enc_U S x) l)
  else rfc_assoc o name explode l.
Definition crate_value (o : rop) (r : rspec) (v : sval) : str :=
  match v with
  | Undef => []
  | Str s => rfc_string o (r_name r) (prefix_of (r_mod r) s)
  | Lst l => crate_list o (r_name r) (is_explode_mod (r_mod r)) l
  | Assc l => crate_assoc o (r_name r) (is_explode_mod (r_mod r)) l
  end.
Definition crate_expansion := expansion crate_value.
End Expansion.

(** A variable for which the two agree. *)
Definition regular (S : Spec) (o : rop) (r : rspec) (v : sval) : Prop :=
  match v with
  | Undef | Str _ => True
  | Lst l =>
      w_named (op_row o) = true -> r_mod r = Explode ->
      (o = Semi -> ~ In [] l) /\ ((length l > 1)%nat -> ~ In 37 (r_name r))
  | Assc l =>
      w_named (op_row o) = true ->
      match r_mod r with
      | Explode => (o = Semi -> ~ In [] (map snd l)) /\ Forall (fun k => enc_U S k = enc_UR S k) (map fst l)
      | _ => ~ In 37 (r_name r)
      end
  end.
Definition regular_template (S : Spec) (env : str -> sval) (T : list part) : Prop :=
  forall o l r, In (Expr o l) T -> In r l -> regular S o r (env (r_name r)).
(** Section 2.4.1: prefix modifiers are not applicable to composite values. *)
Definition misused (v : sval) (r : rspec) : bool :=
  match r_mod r, v with
  | Prefix _, Lst (_ :: _) | Prefix _, Assc (_ :: _) => true
  | _, _ => false
  end.
