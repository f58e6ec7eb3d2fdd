(** * Property C78: validation reads bytes, and still accepts exactly the grammar.
    The program walks over the UTF-8 bytes, looks ASCII bytes up in a table of 128 entries (any other index
    panics), finds delimiters with byte searches, cuts strings at byte positions, and contains
    unreachable!() branches and debug assertions.  MBytes.v models it that way, with the portable searches
    ([None]) or with any memchr crate that keeps its contract ([Some]).
    Specification: Rfc3986.v, SearchSpec.v, Utf8.v.  Model: MBytes.v. *)
From Verif Require Import Base Chars Rfc3986 Utf8 SearchSpec MValidate MTrusted MSearch MOffset MBytes PSearch PBytes.

(** The string types: members of the grammar are accepted, everything else gets an error value, no string panics. *)
Theorem C78_types : forall m S, match m with Some m => memchr_contract m | None => True end ->
  recognizes (b_validate m S TIri) (fun _ => tt) (IRI S) /\ recognizes (b_validate m S TReference) (fun _ => tt) (IRI_reference S) /\
  recognizes (b_validate m S TRelative) (fun _ => tt) (relative_ref S) /\
  recognizes (b_validate m S TQuery) (fun _ => tt) (query S) /\ recognizes (b_validate m S TFragment) (fun _ => tt) (fragment S).
Proof. exact (fun m S Hm => conj (bytes_type m Hm S TIri) (conj (bytes_type m Hm S TReference) (conj (bytes_type m Hm S TRelative) (conj (bytes_type m Hm S TQuery) (bytes_type m Hm S TFragment))))). Qed.
Print Assumptions C78_types.
(** [RiAbsoluteStr] also accepts an empty fragment (finding F1, see C02). *)
Theorem C78_absolute : forall m S, match m with Some m => memchr_contract m | None => True end ->
  forall i, b_validate m S TAbsolute i <> Panic /\
    (b_validate m S TAbsolute i = Ok tt <-> absolute_IRI S i \/ exists j, i = j ++ lit "#" /\ absolute_IRI S j).
Proof. exact (fun m S Hm => bytes_absolute m Hm S). Qed.
Print Assumptions C78_absolute.
(** The component validators. *)
Theorem C78_components : forall m S, match m with Some m => memchr_contract m | None => True end ->
  recognizes b_validate_scheme (fun _ => tt) scheme /\ recognizes (b_validate_authority m S) (fun _ => tt) (authority S) /\
  recognizes (b_validate_userinfo S) (fun _ => tt) (userinfo S) /\ recognizes (b_validate_host m S) (fun _ => tt) (host S) /\
  recognizes (b_validate_reg_name m S) (fun _ => tt) (fun s => reg_name S s /\ ~ IPv4address s) /\
  recognizes (b_path_chars S) (fun _ => tt) (path S) /\ recognizes (b_validate_path_segment S) (fun _ => tt) (segment S).
Proof. exact (fun m S Hm => conj bytes_scheme (conj (bytes_authority m Hm S) (conj (bytes_userinfo S) (conj (bytes_host m Hm S) (conj (bytes_reg_name m Hm S) (conj (bytes_path S) (bytes_segment S))))))). Qed.
Print Assumptions C78_components.
(** ... and the error kind is the one the character model of C01-C06 gives, for every string. *)
Theorem C78_same_errors : forall m S t i, match m with Some m => memchr_contract m | None => True end -> b_validate m S t i = validate S t i.
Proof. exact (fun m S t i Hm => validate_eq m Hm S t i). Qed.
Print Assumptions C78_same_errors.
Theorem C78_reg_name_test : forall m h, match m with Some m => memchr_contract m | None => True end -> b_is_host_reg_name m h = Ok (is_host_reg_name h).
Proof. exact (fun m h Hm => is_reg_name_eq m Hm h). Qed.
Print Assumptions C78_reg_name_test.

(** Instances: [é] takes two bytes, [日] three, U+10FFFD (private) four. *)
Definition crate78 : memchr_crate :=
  {| memchr := fun a => position (is1 a); memchr2 := fun a b => position (is2 a b);
     memchr3 := fun a b c => position (is3 a b c); memrchr := fun a => rposition (is1 a);
     memrchr2 := fun a b => rposition (is2 a b) |}.
Definition iri78 : str := lit "http://" ++ [233] ++ lit ":" ++ [26085] ++ lit "@" ++ [26085] ++ lit ".jp:80/" ++ [233] ++ lit "%2f/..?" ++ [1114109] ++ lit "#" ++ [233].
Example C78_applies : memchr_contract crate78.
Proof. exact simple_contract. Qed.
Example C78_ex : forall m, m = None \/ m = Some crate78 ->
  b_validate m IriSpec TIri iri78 = Ok tt /\ b_validate m UriSpec TIri iri78 = Err InvalidUserInfo /\
  b_validate m IriSpec TReference (lit "//[v1." ++ [233] ++ lit "]") = Err InvalidHost /\
  b_validate m IriSpec TReference (lit "//[::" ++ [233] ++ lit "]") = Err InvalidHost /\
  b_validate m IriSpec TReference (lit "//[1:2::ffff:255.1.2.3]:") = Ok tt /\
  b_validate m IriSpec TReference ([233] ++ lit ":a") = Err InvalidPath /\
  b_validate m IriSpec TIri ([233] ++ lit ":a") = Err InvalidScheme /\
  b_validate m IriSpec TReference (lit "a?" ++ [233] ++ lit "#" ++ [1114109]) = Err InvalidFragment /\
  b_validate m IriSpec TReference (lit "a%" ++ [233] ++ lit "0") = Err InvalidPath /\
  b_validate_reg_name m IriSpec [26085] = Ok tt /\ b_validate_reg_name m IriSpec (lit "1.2.3.255") = Err InvalidRegName.
Proof. intros m [-> | ->]; vm_compute; repeat split. Qed.
