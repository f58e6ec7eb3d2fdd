(** * URI = ASCII-only IRI (proofs only). *)
From Verif Require Import Base Chars Rfc3986 CompSpec MValidate MTrusted PBase PScan PHost PAuth PValidate PTrusted PComps.

Definition asc (A B : lang) : Prop := forall s, A s <-> B s /\ all_ascii s = true.
Definition asc_in (A : lang) : Prop := forall s, A s -> all_ascii s = true.

Lemma all_ascii_app a b : all_ascii (a ++ b) = all_ascii a && all_ascii b.
Proof. apply forallb_app. Qed.
Lemma asc_same A : asc_in A -> asc A A.
Proof. intros H s. split; [auto|tauto]. Qed.
Lemma asc_cat A B C D : asc A B -> asc C D -> asc (A +++ C) (B +++ D).
Proof.
  intros H1 H2 s. split.
  - intros (a & b & -> & Ha & Hb). apply H1 in Ha. apply H2 in Hb. destruct Ha, Hb.
    split; [now apply cat_intro|]. rewrite all_ascii_app. now apply andb_true_intro.
  - intros [(a & b & -> & Ha & Hb) Hs]. rewrite all_ascii_app in Hs. bdestr.
    apply cat_intro; [now apply H1 | now apply H2].
Qed.
Lemma asc_alt A B C D : asc A B -> asc C D -> asc (A <|> C) (B <|> D).
Proof. intros H1 H2 s. unfold alt. rewrite (H1 s), (H2 s). tauto. Qed.
Lemma asc_eps : asc eps eps.
Proof. intros s. unfold eps. split; [intros ->; auto|tauto]. Qed.
Lemma asc_opt A B : asc A B -> asc (opt A) (opt B).
Proof. intros H. apply asc_alt; [apply asc_eps|auto]. Qed.
Lemma asc_tok t : all_ascii (lit t) = true -> asc (tok t) (tok t).
Proof. intros H. apply asc_same. now intros s ->. Qed.
Lemma asc_cls f g : (forall c, f c = true <-> g c = true /\ is_ascii c = true) -> asc (cls f) (cls g).
Proof.
  intros H s. split.
  - intros (c & -> & Hc). apply H in Hc. destruct Hc as [Hc Ha]. split; [exists c; auto|]. cbn. now rewrite Ha.
  - intros [(c & -> & Hc) Ha]. exists c. split; auto. apply H. split; auto. cbn in Ha. bdestr. auto.
Qed.
Lemma asc_star A B : asc A B -> asc (star A) (star B).
Proof.
  intros H s. split.
  - induction 1 as [|a b Ha Hb [IH1 IH2]]; [split; [constructor|auto]|]. apply H in Ha. destruct Ha as [Ha1 Ha2].
    split; [now constructor|]. rewrite all_ascii_app. now apply andb_true_intro.
  - intros [Hs Ha]. induction Hs as [|a b Hx Hy IH]; [constructor|]. rewrite all_ascii_app in Ha. bdestr.
    constructor; [now apply H | auto].
Qed.
Lemma asc_plus A B : asc A B -> asc (plus A) (plus B).
Proof. intros H. apply asc_cat; [auto|now apply asc_star]. Qed.

Lemma asc_unreserved : asc (cls (unreserved UriSpec)) (cls (unreserved IriSpec)).
Proof.
  apply asc_cls. intros c. destruct (is_ascii c) eqn:E.
  - rewrite !(unreserved_ascii _ _ E). tauto.
  - rewrite (unreserved_nonascii UriSpec _ E). cbn. split; [discriminate | intros [_ ?]; discriminate].
Qed.
Lemma asc_ascii_cls f : (forall c, f c = true -> is_ascii c = true) -> asc (cls f) (cls f).
Proof. intros H. apply asc_cls. intros c. split; [auto|tauto]. Qed.
Lemma asc_sub_delims : asc (cls sub_delims) (cls sub_delims).
Proof.
  apply asc_ascii_cls. intros c Hc. destruct (is_ascii c) eqn:E; auto. now rewrite sub_delims_ascii in Hc.
Qed.
Lemma asc_digit : asc (cls DIGIT) (cls DIGIT).
Proof. apply asc_ascii_cls. intros c. unfold DIGIT, between, is_ascii. lia. Qed.
Lemma asc_hex : asc (cls HEXDIG) (cls HEXDIG).
Proof. apply asc_ascii_cls. intros c. unfold HEXDIG, DIGIT, between, is_ascii. lia. Qed.
Lemma asc_pct : asc pct_encoded pct_encoded.
Proof. repeat apply asc_cat; auto using asc_hex, asc_tok. Qed.
Lemma asc_private : asc (cls (iri_only UriSpec iprivate)) (cls (iri_only IriSpec iprivate)).
Proof.
  apply asc_cls. intros c. cbn. split; [discriminate|]. intros [H1 H2]. apply iprivate_nonascii in H1. congruence.
Qed.

Ltac asc_tac := repeat first
  [ apply asc_unreserved | apply asc_sub_delims | apply asc_pct | apply asc_digit | apply asc_private
  | (apply asc_tok; reflexivity) | apply asc_star | apply asc_plus | apply asc_opt | apply asc_eps
  | apply asc_cat | apply asc_alt ].

Lemma asc_abempty : asc (path_abempty UriSpec) (path_abempty IriSpec).
Proof. unfold path_abempty, segment, pchar; asc_tac. Qed.
Lemma asc_absolute : asc (path_absolute UriSpec) (path_absolute IriSpec).
Proof. unfold path_absolute, segment_nz, segment, pchar; asc_tac. Qed.
Lemma asc_rootless : asc (path_rootless UriSpec) (path_rootless IriSpec).
Proof. unfold path_rootless, segment_nz, segment, pchar; asc_tac. Qed.
Lemma asc_noscheme : asc (path_noscheme UriSpec) (path_noscheme IriSpec).
Proof. unfold path_noscheme, segment_nz_nc, segment, pchar; asc_tac. Qed.
Lemma asc_query : asc (query UriSpec) (query IriSpec). Proof. unfold query, pchar; asc_tac. Qed.
Lemma asc_fragment : asc (fragment UriSpec) (fragment IriSpec). Proof. unfold fragment, pchar; asc_tac. Qed.
Lemma asc_userinfo : asc (userinfo UriSpec) (userinfo IriSpec). Proof. unfold userinfo; asc_tac. Qed.
Lemma asc_regname : asc (reg_name UriSpec) (reg_name IriSpec). Proof. unfold reg_name; asc_tac. Qed.

Lemma forallb_asc (f : N -> bool) s : (forall c, f c = true -> is_ascii c = true) -> forallb f s = true -> all_ascii s = true.
Proof. apply forallb_impl. Qed.
Lemma v6c_ascii c : v6c c = true -> is_ascii c = true.
Proof. unfold v6c, is_hexdigit, is_digit, between, is_ascii, COLON, DOT. lia. Qed.
Lemma f_ipvf_ascii c : f_ipvf c = true -> is_ascii c = true.
Proof. rewrite <- ipvf_ok. intros H. now bdestr. Qed.
Lemma hex_ascii c : is_hexdigit c = true -> is_ascii c = true.
Proof. unfold is_hexdigit, is_digit, between, is_ascii. lia. Qed.

Lemma IP_literal_ascii : asc_in IP_literal.
Proof.
  intros s H. apply IP_literal_iff in H. destruct H as (m & -> & H).
  change (all_ascii ([LBRACK] ++ m ++ [RBRACK]) = true). rewrite !all_ascii_app. cbn [all_ascii forallb].
  rewrite andb_true_r. change (is_ascii LBRACK && true) with true. change (is_ascii RBRACK && true) with true. cbn [andb]. rewrite ?andb_true_r.
  destruct H as [H|H].
  - apply IPv6_chars in H. eapply forallb_asc; [apply v6c_ascii|exact H].
  - apply IPvFuture_iff in H. destruct H as (v & ver & a & -> & Hv & _ & Hh & _ & Ha).
    change (all_ascii ([v] ++ ver ++ [DOT] ++ a) = true). rewrite !all_ascii_app.
    rewrite (forallb_asc is_hexdigit ver hex_ascii Hh), (forallb_asc f_ipvf a f_ipvf_ascii Ha).
    destruct Hv; subst v; reflexivity.
Qed.
Lemma IPv4_ascii : asc_in IPv4address.
Proof.
  intros s H. apply v4_v6c in H. eapply forallb_asc; [apply v6c_ascii|exact H].
Qed.
Lemma asc_host : asc (host UriSpec) (host IriSpec).
Proof.
  unfold host. apply asc_alt; [apply asc_same, IP_literal_ascii|].
  apply asc_alt; [apply asc_same, IPv4_ascii | apply asc_regname].
Qed.
Lemma asc_authority : asc (authority UriSpec) (authority IriSpec).
Proof.
  unfold authority, port. repeat apply asc_cat; [|apply asc_host|asc_tac].
  apply asc_opt, asc_cat; [apply asc_userinfo | now apply asc_tok].
Qed.
Lemma asc_scheme : asc scheme scheme.
Proof.
  apply asc_same. intros s H. apply cls_cat in H. destruct H as (c & b & -> & Hc & Hb). apply star_cls in Hb.
  cbn. apply andb_true_intro. split; [unfold ALPHA, between, is_ascii in *; lia|].
  eapply forallb_asc; [|exact Hb]. intros x Hx. destruct (is_ascii x) eqn:E; auto.
  cbv beta in Hx. rewrite (one_of_ascii _ x E) in Hx by reflexivity. unfold ALPHA, DIGIT, between, is_ascii in *. lia.
Qed.
Ltac asc_tac2 := repeat first
  [ apply asc_scheme | apply asc_authority | apply asc_abempty | apply asc_absolute | apply asc_rootless
  | apply asc_noscheme | apply asc_query | apply asc_fragment
  | (apply asc_tok; reflexivity) | apply asc_opt | apply asc_eps | apply asc_cat | apply asc_alt ].
Lemma asc_IRI : asc (IRI UriSpec) (IRI IriSpec).
Proof. unfold IRI, hier_part, q_opt, f_opt, path_empty; asc_tac2. Qed.
Lemma asc_absolute_IRI : asc (absolute_IRI UriSpec) (absolute_IRI IriSpec).
Proof. unfold absolute_IRI, hier_part, q_opt, path_empty; asc_tac2. Qed.
Lemma asc_absolute_code : asc (absolute_code UriSpec) (absolute_code IriSpec).
Proof. unfold absolute_code, hier_part, q_opt, path_empty; asc_tac2. Qed.
Lemma asc_relative : asc (relative_ref UriSpec) (relative_ref IriSpec).
Proof. unfold relative_ref, relative_part, q_opt, f_opt, path_empty; asc_tac2. Qed.
Lemma asc_reference : asc (IRI_reference UriSpec) (IRI_reference IriSpec).
Proof. unfold IRI_reference. apply asc_alt; [apply asc_IRI | apply asc_relative]. Qed.

(** The language each string type accepts. *)
Definition ty_lang (S : Spec) (t : ty) : lang :=
  match t with
  | TAbsolute => absolute_code S | TIri => IRI S | TReference => IRI_reference S
  | TRelative => relative_ref S | TQuery => query S | TFragment => fragment S
  end.
Lemma validate_iff S t s : validate S t s = Ok tt <-> ty_lang S t s.
Proof.
  destruct t; cbn [validate ty_lang].
  - apply validate_absolute_iff. - apply validate_uri_iff. - apply validate_uri_reference_iff.
  - apply hier_rel. - apply validate_query_iff. - apply validate_fragment_iff.
Qed.
Lemma validate_np S t s : validate S t s <> Panic.
Proof.
  destruct t; cbn [validate]; first [apply validate_common_np | apply validate_relative_np | apply check_np].
Qed.
Lemma asc_ty t : asc (ty_lang UriSpec t) (ty_lang IriSpec t).
Proof.
  destruct t; cbn [ty_lang]; auto using asc_IRI, asc_absolute_code, asc_reference, asc_relative, asc_query, asc_fragment.
Qed.
Lemma is_ok_validate S t s : is_ok (validate S t s) = true <-> validate S t s = Ok tt.
Proof. destruct (validate S t s) as [[]| |]; cbn; split; easy. Qed.
Lemma unchecked_ok d S t s : validate S t s = Ok tt -> new_unchecked_justified d S t s = Ok s.
Proof. intros H. unfold new_unchecked_justified. apply is_ok_validate in H. rewrite H. now rewrite andb_false_r. Qed.
