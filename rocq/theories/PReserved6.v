(** * Every expansion (C28, C29): panics and examples. *)
From Verif Require Import Base Chars Rfc3986 Utf8 PctSpec EncodeSpec MValidate MTrusted MFormat MSearch MPct MEncode MTemplate MMaybePct MExpand TemplateSpec ExpandSpec ReservedSpec.
From Verif Require Import PBase PScan PSearch PPct PPct2 PPath2 PEncode PEncode2 PTmpl1 PTmpl2 PTmpl3 PTmpl5 PExp1 PExp2 PExp3 PExp4 PExp5 PExp6 PExp10 PExp11 PReserved5.
Open Scope string_scope. Open Scope N_scope. Open Scope list_scope.

Theorem written_panics S debug ctx env T : supplies_env ctx env -> usable T ->
  (expand_to_string S debug ctx (template_text T) = Panic <-> fine env T /\ written_template S debug ctx env T = None).
Proof.
  intros He HT. destruct (typechecks debug ctx env He T HT) as (H1 & H2 & H3). destruct (expand_new debug ctx (template_text T)) as [[]|e|] eqn:E; [| |contradiction].
  - pose proof (proj1 H1 eq_refl) as Hf. rewrite (written_exact S debug ctx env T He HT Hf). destruct (written_template S debug ctx env T); split; [discriminate|intros [_ X]; discriminate|auto|auto].
  - unfold expand_to_string. rewrite E. split; [discriminate|]. intros [Hf _]. apply H1 in Hf. discriminate.
Qed.
Lemma every_value_example : forall debug S,
  let ctx chunks (_ : str) := VString (chunks, Ret tt) in
  let env chunks (_ : str) := Str (concat chunks) in
  let T m := [Expr Plus [mkR (lit "x") m]] in
  (forall m, m = NoMod \/ m = Prefix (lit "2") -> usable (T m)) /\
  (forall chunks, all_scalar (concat chunks) = true -> supplies_env (ctx chunks) (env chunks) /\ forall m, fine (env chunks) (T m)) /\
  written_template S debug (ctx [lit "%E3%8"; lit "1%82a"]) (env [lit "%E3%8"; lit "1%82a"]) (T NoMod) = Some (lit "%E3%81%82a") /\
  written_template S debug (ctx [lit "a%"; lit "z"]) (env [lit "a%"; lit "z"]) (T NoMod) = Some (lit "az") /\
  written_template S debug (ctx [lit "%E3%41b"]) (env [lit "%E3%41b"]) (T NoMod) = Some (lit "%E3b") /\
  written_template S debug (ctx [lit "%E3%41%42b"]) (env [lit "%E3%41%42b"]) (T NoMod) = Some (lit "%E3%41%42b") /\
  written_template S debug (ctx [lit "%E3%41%E3"]) (env [lit "%E3%41%E3"]) (T NoMod) = None /\
  written_template S debug (ctx [lit "a%E3%81%82bc"]) (env [lit "a%E3%81%82bc"]) (T (Prefix (lit "2"))) = Some (lit "a%E3%81%82b").
Proof.
  intros debug S ctx env T. split; [|split].
  - intros m Hm. unfold usable. assert (R : Forall rfc_part (T m)).
    { apply Forall_cons; [|apply Forall_nil]. split; [discriminate|]. apply Forall_cons; [|apply Forall_nil]. split; [apply word_name; [reflexivity|discriminate]|]. destruct Hm as [-> | ->]; [exact Logic.I|now apply one_digit]. }
    assert (A : all_ascii (template_text (T m)) = true) by (destruct Hm as [-> | ->]; reflexivity).
    pose proof (all_ascii_parts _ A) as A'. rewrite Forall_forall in *. intros p Hp. apply rfc_part_crate; auto.
  - intros chunks SC. split; [intros k; constructor; repeat split; assumption|]. intros m o l r [HH|[]] Hr. injection HH as <- <-. destruct Hr as [<-|[]]. now destruct m.
  - destruct debug, S; repeat split; vm_compute; reflexivity.
Qed.
