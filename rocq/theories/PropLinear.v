(** * Property C84: validating a string, validating a template and reading components take linear time.
    Model: MCost.v and MCost2.v (the functions of MValidate.v, MTemplate.v and MTrusted.v with a counter of the characters looked at). *)
From Verif Require Import Base Chars Utf8 MValidate MTrusted MFormat MTemplate MCost MCost2 PCost PCost2 PCost3 PCost4 PCost5.
Open Scope string_scope. Open Scope list_scope. Open Scope nat_scope.

(** The counting functions return exactly what the functions of the model return. *)
Theorem C84_same : forall S t s, fst (k_validate S t s) = validate S t s.
Proof. exact k_validate_fst. Qed.
Print Assumptions C84_same.
(** Whatever the string: accepted, rejected, ASCII or not. *)
Theorem C84_validate : forall S t s, snd (k_validate S t s) <= 10 * length s + 4.
Proof. exact validate_le. Qed.
Print Assumptions C84_validate.
(** Accepting a string needs a look at each of its characters, so for accepted strings the bound is exact up to a constant factor. *)
Theorem C84_validate_lower : forall S t s, new S t s = Ok s -> length s <= snd (k_validate S t s).
Proof. exact new_ge. Qed.
Print Assumptions C84_validate_lower.
(** The parts, for the constructors of the component types and the checks of the builder. *)
Theorem C84_same_parts : forall S s, fst (k_host S s) = validate_host S s /\ fst (k_authority S s) = validate_authority S s /\ fst (k_userinfo S s) = validate_userinfo S s /\ fst (k_scheme s) = validate_scheme s.
Proof. exact (fun S s => conj (k_host_fst S s) (conj (k_authority_fst S s) (conj (k_userinfo_fst S s) (k_scheme_fst s)))). Qed.
Print Assumptions C84_same_parts.
Theorem C84_parts : forall S s, snd (k_host S s) <= 3 * length s + 2 /\ snd (k_authority S s) <= 6 * length s + 2 /\ snd (k_userinfo S s) <= length s /\ snd (k_scheme s) <= length s.
Proof. exact (fun S s => conj (host_le S s) (conj (authority_le S s) (conj (userinfo_le S s) (scheme_le s)))). Qed.
Print Assumptions C84_parts.
(** URI templates. *)
Theorem C84_same_template : forall s, fst (k_template s) = validate_template_str s.
Proof. exact k_template_fst. Qed.
Print Assumptions C84_same_template.
Theorem C84_template : forall s, snd (k_template s) <= 9 * length s.
Proof. exact template_le. Qed.
Print Assumptions C84_template.
(** Splitting and the accessors. *)
Theorem C84_same_read : forall debug t i,
  fst (k_to_major i) = to_major i /\ fst (k_scheme_str t i) = scheme_str t i /\ fst (k_authority_str t i) = authority_str t i /\ fst (k_path_str t i) = path_str t i /\
  fst (k_query_str debug t i) = query_str debug t i /\ fst (k_fragment_str t i) = fragment_str t i /\ fst (k_decompose_authority i) = decompose_authority i.
Proof. exact (fun debug t i => conj (to_major_fst i) (conj (scheme_str_fst t i) (conj (authority_str_fst t i) (conj (path_str_fst t i) (conj (query_str_fst debug t i) (conj (fragment_str_fst t i) (authority_split_fst i))))))). Qed.
Print Assumptions C84_same_read.
Theorem C84_read : forall debug t i, let bound := 3 * length i + 3 in
  snd (k_to_major i) <= bound /\ snd (k_scheme_str t i) <= bound /\ snd (k_authority_str t i) <= bound /\ snd (k_path_str t i) <= bound /\
  snd (k_query_str debug t i) <= bound /\ snd (k_fragment_str t i) <= bound /\ snd (k_decompose_authority i) <= 2 * length i.
Proof. exact (fun debug t i => conj (to_major_le i) (conj (scheme_str_le t i) (conj (authority_str_le t i) (conj (path_str_le t i) (conj (query_str_le debug t i) (conj (fragment_str_le t i) (authority_split_le i))))))). Qed.
Print Assumptions C84_read.
(** Reading all the variables of a template: the whole list, however many expressions and variables there are. *)
Theorem C84_same_variables : forall debug s, fst (k_template_variables debug s) = template_variables debug s.
Proof. exact template_variables_fst. Qed.
Print Assumptions C84_same_variables.
Theorem C84_variables : forall debug s, snd (k_template_variables debug s) <= 6 * length s.
Proof. exact template_variables_le. Qed.
Print Assumptions C84_variables.

(** An accepted IRI, one that is rejected at its last character, and a template. *)
Example C84_ex : (length (lit "http://u:p@[2001:db8::1]:80/a/b?q#f"), k_validate UriSpec TIri (lit "http://u:p@[2001:db8::1]:80/a/b?q#f")) = (35, (Ok tt, 101)) /\
  k_validate UriSpec TIri (lit "http://h/a/b?q#f<") = (Err InvalidFragment, 33) /\ (length (lit "/a{?x,y*}"), k_template (lit "/a{?x,y*}")) = (9, (Ok tt, 22)).
Proof. vm_compute. auto. Qed.
Example C84_lower_instance := C84_validate_lower UriSpec TIri (lit "http://u:p@[2001:db8::1]:80/a/b?q#f") eq_refl.
Example C84_variables_ex : (length (lit "/a{?x,y*}b{z:3}"), k_template_variables true (lit "/a{?x,y*}b{z:3}")) =
  (15, (template_variables true (lit "/a{?x,y*}b{z:3}"), snd (k_template_variables true (lit "/a{?x,y*}b{z:3}")))) /\
  20 <= snd (k_template_variables true (lit "/a{?x,y*}b{z:3}")) <= 90.
Proof. vm_compute. split; [reflexivity|]. split; repeat constructor. Qed.
