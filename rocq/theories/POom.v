(** * Proofs for C82: the fallible operations when memory runs out. *)
From Coq Require Import Lia.
From Verif Require Import Base Chars Rfc3986 Utf8 CompSpec PctSpec RfcResolve NormSpec EditSpec EncodeSpec HistSpec CallSpec BuildSpec OomSpec MValidate MTrusted MTypes MFormat MWriters MPct MPath MNormalize MEdit MEncode MBuild MHist MCalls MProg MOom
  PBase PScan PSearch PTrusted PTypes PEncode2 PEdit PHist PExact PCalls PProg.
Open Scope N_scope. Open Scope list_scope.

Definition refused (mem : memory) : Prop := exists k len n, mem k len n = false.
(** ** Writing *)
Lemma run_mem mem cs : forall dest k, exists w, run (m_write mem) (mkSW dest false k) cs OOk = w /\
  (w = (mkSW (dest ++ concat cs) false (k + length cs), OOk) \/
   exists y z j, concat cs = y ++ z /\ w = (mkSW (dest ++ y) true j, OErr) /\ exists k n, mem k (blen (dest ++ y)) n = false).
Proof.
  induction cs as [|c cs IH]; intros dest k; eexists; (split; [reflexivity|]).
  - left. cbn. now rewrite app_nil_r, Nat.add_0_r.
  - cbn [run m_write sw_error sw_calls sw_buffer concat]. destruct (mem k (blen dest) (blen c)) eqn:E.
    + destruct (IH (dest ++ c) (S k)) as (w & -> & [-> | (y & z & j & Y & -> & N)]).
      * left. rewrite <- app_assoc. cbn [length]. do 2 f_equal. lia.
      * right. exists (c ++ y), z, j. rewrite Y, !app_assoc. rewrite <- app_assoc in N. rewrite <- (app_assoc dest). auto.
    + right. exists [], (c ++ concat cs), (S k). rewrite !app_nil_r. split; [reflexivity|]. split; [reflexivity|]. eauto.
Qed.
Lemma run_limit n cs : forall dest k, (blen dest <= n)%nat ->
  ((blen (dest ++ concat cs) <= n)%nat -> run (m_write (limit n)) (mkSW dest false k) cs OOk = (mkSW (dest ++ concat cs) false (k + length cs), OOk)) /\
  ((n < blen (dest ++ concat cs))%nat -> exists y z j, concat cs = y ++ z /\ (blen (dest ++ y) <= n)%nat /\ run (m_write (limit n)) (mkSW dest false k) cs OOk = (mkSW (dest ++ y) true j, OErr)).
Proof.
  induction cs as [|c cs IH]; intros dest k L.
  - cbn [concat]. rewrite app_nil_r. split; [|lia]. intros _. cbn. now rewrite Nat.add_0_r.
  - cbn [run m_write sw_error sw_calls sw_buffer concat]. unfold limit at 1 3. destruct (Nat.leb_spec (blen dest + blen c) n) as [E|E].
    + destruct (IH (dest ++ c) (S k)) as (A & B); [now rewrite blen_app|]. rewrite <- app_assoc in A, B. split.
      * intros K. rewrite (A K). cbn [length]. do 2 f_equal. lia.
      * intros K. destruct (B K) as (y & z & j & Y & Ly & ->). exists (c ++ y), z, j. rewrite Y, !app_assoc. rewrite <- app_assoc in Ly. rewrite <- (app_assoc dest). auto.
    + split; [rewrite !blen_app; lia|]. intros _. exists [], (c ++ concat cs), (S k). rewrite app_nil_r. auto.
Qed.
Lemma append_mem {A} mem dest (d : W A) x : text d = Ok x ->
  m_append mem dest d = (Ok tt, dest ++ x) \/
  exists y z, x = y ++ z /\ m_append mem dest d = (Err AllocFailed, dest ++ y) /\ exists k n, mem k (blen (dest ++ y)) n = false.
Proof.
  unfold text, m_append, run_display. destruct d as [cs [a| |]]; cbn [fst snd]; try discriminate. intros K. injection K as <-. cbn [end_of].
  destruct (run_mem mem cs dest 0) as (w & -> & [-> | (y & z & j & Y & -> & N)]); [left; reflexivity|right]. exists y, z. auto.
Qed.
Lemma append_limit {A} n dest (d : W A) x : text d = Ok x -> (blen dest <= n)%nat ->
  ((blen (dest ++ x) <= n)%nat -> m_append (limit n) dest d = (Ok tt, dest ++ x)) /\
  ((n < blen (dest ++ x))%nat -> exists y z, x = y ++ z /\ (blen (dest ++ y) <= n)%nat /\ m_append (limit n) dest d = (Err AllocFailed, dest ++ y)).
Proof.
  unfold text, m_append, run_display. destruct d as [cs [a| |]]; cbn [fst snd]; try discriminate. intros K L. injection K as <-. cbn [end_of].
  destruct (run_limit n cs dest 0 L) as (X & Y). split.
  - intros K. now rewrite (X K).
  - intros K. destruct (Y K) as (y & z & j & E & Ly & ->). exists y, z. auto.
Qed.
Lemma run_pan mem cs e : forall st, e <> OOk -> snd (run (m_write mem) st cs e) <> OOk.
Proof. induction cs as [|c cs IH]; intros st He; cbn [run]; [exact He|]. destruct (m_write mem st c); [auto|discriminate]. Qed.
Lemma to_string_text {A} mem (d : W A) x : m_to_string mem d = Ok x -> text d = Ok x.
Proof.
  destruct d as [cs [a| |]].
  - unfold m_to_string. destruct (append_mem mem [] (cs, Ret a) (concat cs) eq_refl) as [-> | (y & z & _ & -> & _)]; [|discriminate]. intros K. injection K as <-. reflexivity.
  - unfold m_to_string, m_append, run_display. cbn [fst snd end_of]. assert (X := run_pan mem cs OErr (mkSW [] false 0)). destruct (run _ _ _ _) as [w []]; cbn [snd] in X; [now destruct X|destruct (sw_error w); discriminate|discriminate].
  - unfold m_to_string, m_append, run_display. cbn [fst snd end_of]. assert (X := run_pan mem cs OPanic (mkSW [] false 0)). destruct (run _ _ _ _) as [w []]; cbn [snd] in X; [now destruct X|destruct (sw_error w); discriminate|discriminate].
Qed.
Lemma unchecked_same debug S t s x : new_unchecked_justified debug S t s = Ok x -> x = s.
Proof. unfold new_unchecked_justified. destruct (debug && _); [discriminate|congruence]. Qed.
Lemma dedicated_text {A} mem debug S t (d : W A) x : m_dedicated mem debug S t d = Ok x -> (do s <- text d ; new_unchecked_justified debug S t s) = Ok x.
Proof.
  unfold m_dedicated. destruct (m_to_string mem d) as [s|e|] eqn:E; try discriminate. apply to_string_text in E. rewrite E. cbn [bind].
  destruct (new_unchecked_justified debug S t s) as [y|[]|]; [congruence|discriminate].
Qed.
Lemma dedicated_mem {A} mem debug S t (d : W A) x : (do s <- text d ; new_unchecked_justified debug S t s) = Ok x ->
  m_dedicated mem debug S t d = Ok x \/ refused mem /\ m_dedicated mem debug S t d = Err AllocFailed.
Proof.
  unfold m_dedicated, m_to_string. destruct (text d) as [s|[]|] eqn:E; cbn [bind]; [|discriminate]. intros Q.
  destruct (append_mem mem [] d s E) as [-> | (y & z & _ & -> & k & n & N)]; [left|right].
  - cbn [app]. now rewrite Q.
  - split; [|reflexivity]. exists k, (blen y), n. exact N.
Qed.
Lemma dedicated_limit {A} n debug S t (d : W A) x : (do s <- text d ; new_unchecked_justified debug S t s) = Ok x ->
  ((blen x <= n)%nat -> m_dedicated (limit n) debug S t d = Ok x) /\ ((n < blen x)%nat -> m_dedicated (limit n) debug S t d = Err AllocFailed).
Proof.
  unfold m_dedicated, m_to_string. destruct (text d) as [s|[]|] eqn:E; cbn [bind]; [|discriminate]. intros Q. assert (X := unchecked_same _ _ _ _ _ Q). subst x.
  destruct (append_limit n [] d s E) as (A1 & A2); [cbn; lia|]. cbn [app] in A1, A2. split.
  - intros K. rewrite (A1 K). now rewrite Q.
  - intros K. destruct (A2 K) as (y & z & _ & _ & ->). reflexivity.
Qed.
(** ** Nothing new *)
Lemma domain_more alloc S i h only r j : replace_domain_impl alloc S i h only = Ok (Ok r, j) -> replace_domain_impl true S i h only = Ok (Ok r, j).
Proof.
  unfold replace_domain_impl. destruct (from_iri_get_offset i) as [[a o]|]; [|auto]. destruct (ac_host a) as [old|[]|]; cbn [bind]; [|auto].
  destruct (is_err (validate_host S h)); [auto|]. destruct (only && negb (is_host_reg_name old)); [auto|]. rewrite andb_false_r. destruct (Nat.leb (blen old) (blen h) && negb alloc); [discriminate|auto].
Qed.
Lemma domain_err alloc S i h only e j : replace_domain_impl alloc S i h only = Ok (Err e, j) -> j = i.
Proof.
  unfold replace_domain_impl. destruct (from_iri_get_offset i) as [[a o]|]; [|discriminate]. destruct (ac_host a) as [old|[]|]; cbn [bind]; [|discriminate].
  destruct (is_err (validate_host S h)); [discriminate|]. destruct (only && negb (is_host_reg_name old)); [discriminate|]. destruct (Nat.leb (blen old) (blen h) && negb alloc); [congruence|].
  destruct (replace_range i _ _ h) as [s|[]|]; discriminate.
Qed.
Lemma host_more debug alloc S t i h only r j : try_replace_host_impl debug alloc S t i h only = Ok (Ok r, j) -> replace_host debug true S t i h only = Ok (r, j).
Proof.
  unfold replace_host, try_replace_host_impl. destruct (replace_domain_impl alloc S i h only) as [[[q|e|] s]|[]|] eqn:E; cbn [bind]; try discriminate.
  - apply domain_more in E. rewrite E. cbn [bind]. destruct (debug_valid _ _ _ s) as [u0|[]|]; cbn [bind]; [|discriminate]. destruct q as [[a b]|]; [destruct (slice_p s a b) as [x|[]|]; cbn [bind]; [|discriminate]|]; intros K; injection K as <- <-; reflexivity.
  - destruct (debug_valid _ _ _ s) as [u0|[]|]; cbn [bind]; discriminate.
  - destruct (debug_valid _ _ _ s) as [u0|[]|]; cbn [bind]; discriminate.
Qed.
Lemma host_err debug alloc S t i h only e j : try_replace_host_impl debug alloc S t i h only = Ok (Err e, j) -> j = i.
Proof.
  unfold try_replace_host_impl. destruct (replace_domain_impl alloc S i h only) as [[[q|e'|] s]|[]|] eqn:E; cbn [bind]; try discriminate.
  - destruct (debug_valid _ _ _ s) as [u0|[]|]; cbn [bind]; [|discriminate]. destruct q as [[a b]|]; [destruct (slice_p s a b) as [x|[]|]; cbn [bind]|]; discriminate.
  - apply domain_err in E. destruct (debug_valid _ _ _ s) as [u0|[]|]; cbn [bind]; [|discriminate]. congruence.
  - destruct (debug_valid _ _ _ s) as [u0|[]|]; cbn [bind]; discriminate.
Qed.
Lemma inline_more alloc debug t i j : try_encode_to_uri_inline alloc debug t i = (Ok tt, j) -> try_encode_to_uri_inline true debug t i = (Ok tt, j).
Proof. unfold try_encode_to_uri_inline, try_percent_encode_iri_inline. destruct (Nat.eqb (count_nonascii (utf8s i)) 0); [auto|]. destruct alloc; [auto|discriminate]. Qed.
Lemma inline_err alloc debug t i e j : try_encode_to_uri_inline alloc debug t i = (Err e, j) -> j = i.
Proof.
  unfold try_encode_to_uri_inline, try_percent_encode_iri_inline. destruct (Nat.eqb (count_nonascii (utf8s i)) 0); [destruct (debug && _); discriminate|]. destruct alloc; cbn [negb]; [|congruence].
  destruct (inline_loop _ _ _ _ _) as [b|[]|]; [|discriminate]. destruct (from_utf8 b); [destruct (debug && _)|]; discriminate.
Qed.
Lemma results_more mem debug S t i c vs : m_results mem debug S t i c = Ok (Done vs) -> results debug S t i c = Ok vs.
Proof.
  assert (R : forall S' t' left r vs, m_returned S' t' left r = Ok (Done vs) -> exists x, r = Ok x /\ vs = [mkV S' t' x]).
  { intros S' t' l [x|e|] vs'; cbn [m_returned]; intros K; try discriminate. injection K as <-. eauto. }
  destruct c; cbn [m_results]; try (destruct (results debug S t i _) as [y|[]|]; cbn [bind]; [|discriminate]; intros K; injection K as <-; reflexivity); cbn [results].
  - destruct (if keep then normalize_preserve i else normalize i) as [n|[]|]; cbn [bind]; [|discriminate]. intros K. apply R in K. destruct K as (x & E & ->). apply dedicated_text in E. unfold to_dedicated_string, display. now rewrite E.
  - destruct (resolve base i) as [n|[]|]; cbn [bind]; [|discriminate]. intros K. apply R in K. destruct K as (x & E & ->). apply dedicated_text in E. unfold to_dedicated_string, display. now rewrite E.
  - intros K. apply R in K. destruct K as (x & E & ->). unfold m_mask in E. unfold mask_to_dedicated_string in *. destruct (password_range_to_hide i) as [[[st e]|]|[]|]; try discriminate.
    + destruct (slice i st e) as [pw|]; [|discriminate]. destruct (negb (mem _ _ _)); [discriminate|]. cbn [negb]. rewrite E. reflexivity.
    + destruct (mem _ _ _); [|discriminate]. injection E as <-. reflexivity.
  - destruct (try_replace_host_impl debug _ S t i h only_reg_name) as [[[r|e|] x]|[]|] eqn:E; cbn [bind]; try discriminate. intros K. injection K as <-. apply host_more in E. now rewrite E.
  - intros K. apply R in K. destruct K as (x & E & ->). apply dedicated_text in E. unfold mapped_to_dedicated_string. now rewrite E.
  - destruct (try_encode_to_uri_inline _ debug t i) as [[[]|e|] x] eqn:E; try discriminate. intros K. injection K as <-. apply inline_more in E. now rewrite E.
  - intros K. apply R in K. destruct K as (x & E & ->). unfold try_encode_into_uri in *. destruct (try_encode_to_uri_inline (m_encode_request mem i) debug t i) as [[[]|e|] y] eqn:Q; try discriminate. apply inline_more in Q. rewrite Q.
    now rewrite E.
Qed.
Lemma results_left mem debug S t i c vs : has S t c -> m_results mem debug S t i c = Ok (NoMemory vs) -> vs = (if in_place c then [mkV S t i] else []).
Proof.
  assert (R : forall S' t' left r vs, m_returned S' t' left r = Ok (NoMemory vs) -> vs = left).
  { intros S' t' l [x|e|] vs'; cbn [m_returned]; intros K; try discriminate. now injection K as <-. }
  intros H. destruct c; cbn [m_results in_place]; try (destruct (results debug S t i _) as [y|[]|]; cbn [bind]; discriminate).
  - destruct (if keep then normalize_preserve i else normalize i) as [n|[]|]; cbn [bind]; [|discriminate]. apply R.
  - destruct (resolve base i) as [n|[]|]; cbn [bind]; [|discriminate]. apply R.
  - apply R.
  - destruct (try_replace_host_impl debug _ S t i h only_reg_name) as [[[r|e|] x]|[]|] eqn:E; cbn [bind]; try discriminate. intros K. injection K as <-. apply host_err in E. now subst.
  - apply R.
  - assert (HS : S = IriSpec) by (unfold has in H; destruct (kind_of t); exact H). destruct (try_encode_to_uri_inline _ debug t i) as [[[]|e|] x] eqn:E; try discriminate. intros K. injection K as <-. apply inline_err in E. now subst.
  - apply R.
Qed.
Lemma program_same debug allowed allowed_build pool : m_reach debug allowed allowed_build pool ->
  exists pool', reach debug allowed allowed_build pool' /\ forall v, In v pool <-> In v pool'.
Proof.
  intros H. induction H as [|pool S t s x H (P & HP & E) Nw|mem pool S t i c vs H (P & HP & E) Hin Hh Ha Al D|mem pool S t b x s H (P & HP & E) Ht B Al D].
  - exists []. split; [constructor|tauto].
  - exists (mkV S t x :: P). split; [econstructor; eauto|]. intros v. cbn [In]. rewrite E. tauto.
  - destruct D as [D|D].
    + apply results_more in D. exists (vs ++ P). split.
      * eapply r_call; [exact HP|apply E; exact Hin|exact Hh| |exact Al|exact D]. intros v Hv. apply E. now apply Ha.
      * intros v. rewrite !in_app_iff, E. tauto.
    + apply results_left in D; [|exact Hh]. exists P. split; [exact HP|]. intros v. rewrite in_app_iff, E. split; [|tauto]. intros [K|K]; [|exact K]. subst vs. destruct (in_place c); [|contradiction]. destruct K as [<-|[]]. now apply E.
  - exists (mkV S t s :: P). split; [|intros v; cbn [In]; rewrite E; tauto]. eapply r_build; eauto. unfold m_built in D. apply dedicated_text in D. exact D.
Qed.
Lemma m_valid debug (allowed : Spec -> ty -> str -> call -> Prop) (allowed_build : Spec -> ty -> Builder -> Prop) pool :
  (debug = true \/ (forall S t i c, allowed S t i c -> careful S t i c) /\ (forall S t b, allowed_build S t b -> careful_build S t b)) ->
  m_reach debug allowed allowed_build pool -> Forall valid pool.
Proof.
  intros A H. apply program_same in H. destruct H as (P & HP & E). assert (V := program_valid debug allowed allowed_build P A HP).
  apply Forall_forall. intros v Hv. apply E in Hv. exact (proj1 (Forall_forall _ _) V v Hv).
Qed.
(** ** Each call *)
Definition no_userinfo (S : Spec) (C : comps) : Prop := forall u h o, ~ parts S C (Some u) h o.
Lemma blen_enc b : length (enc_bytes b) = (length b + count_nonascii b * 2)%nat.
Proof.
  unfold enc_bytes, count_nonascii. induction b as [|x b IH]; [reflexivity|]. cbn [flat_map filter]. rewrite app_length, IH. destruct (is_ascii x); cbn [negb length]; [lia|]. change (length (triplet x)) with 3%nat. lia.
Qed.
Lemma blen_uri t i : new IriSpec t i = Ok i -> blen (to_uri i) = (blen i + count_nonascii (utf8s i) * 2)%nat.
Proof.
  intros H. apply PTypes.new_ok in H. destruct (maps_ty t i H) as [X _]. rewrite <- (utf8s_len (to_uri i)), utf8s_ascii by now apply to_uri_is_ascii.
  rewrite <- enc_utf8s by exact X. now rewrite blen_enc, utf8s_len.
Qed.
Lemma mask_split S i C : reads S i C -> (no_userinfo S C /\ password_range_to_hide i = Ok None) \/
  exists u h o l pw r, parts S C (Some u) h o /\ i = l ++ pw ++ r /\ password_range_to_hide i = Ok (Some (length l, length l + length pw)%nat).
Proof.
  intros R. destruct (password_cases S i C R) as [[(_ & E)|[(h & o & D)|(u & h & o & D & Hc)]]|(user & pw & h & o & D & Hc)].
  - left. split; [intros u h o (P & _); congruence|]. unfold password_range_to_hide. now destruct (no_authority _ _ _ R E) as [-> _].
  - left. split; [|now rewrite (range_spec _ _ _ _ _ _ D)]. intros u h' o' P. assert (P' : parts S C None h o) by (destruct D as (_ & P'); exact P'). assert (U := parts_unique _ _ _ _ _ _ _ _ P P'). discriminate.
  - right. exists u, h, o, ((osch (c_s C) ++ lit "//") ++ u), [], (tail_of C h o). split; [exact (proj2 D)|]. split.
    + rewrite (dissects_render _ _ _ _ _ _ D), render_some. cbn [app]. now rewrite <- !app_assoc.
    + rewrite (range_spec _ _ _ _ _ _ D), find_colon_none by auto. unfold start_of. rewrite (app_length _ u). cbn [length]. now rewrite Nat.add_0_r.
  - right. exists (user_password user pw), h, o, ((osch (c_s C) ++ lit "//") ++ user ++ lit ":"), pw, (tail_of C h o). split; [exact (proj2 D)|]. split.
    + rewrite (dissects_render _ _ _ _ _ _ D). apply render_pw.
    + exact (range_pw _ _ _ _ _ _ _ D Hc).
Qed.
Lemma mask_parts alloc debug S t i l pw r : i = l ++ pw ++ r -> password_range_to_hide i = Ok (Some (length l, length l + length pw)%nat) ->
  slice i (length l) (length l + length pw) = Some pw /\
  mask_to_dedicated_string debug alloc S t i = if alloc then (match new_unchecked_justified debug S t (l ++ r) with Ok x => Ok x | _ => Panic end) else Err AllocFailed.
Proof.
  intros Ei Rg. split; [rewrite Ei; apply PTrusted.slice_mid|]. unfold mask_to_dedicated_string. rewrite Rg. destruct alloc; cbn [negb]; [|reflexivity].
  rewrite (slice_p_some _ _ _ _ (slice_front l (pw ++ r) i _ Ei eq_refl)).
  now rewrite (slice_p_some _ _ _ _ (slice_back (l ++ pw) r i _ ltac:(rewrite Ei, <- !app_assoc; reflexivity) ltac:(now rewrite app_length))).
Qed.
(** The request of a host replacement, and the length of its result. *)
Lemma host_lengths S i C u h o j g : dissects S i C u h o -> dissects S j (with_authority C u g o) u g o ->
  forall mem, m_host_request mem i g = mem 0%nat (blen i) (blen g - blen h)%nat /\ (blen j + blen h = blen i + blen g)%nat.
Proof.
  intros D Dj mem. split.
  - unfold m_host_request. destruct (components_dissects _ _ _ _ _ _ D) as [_ ->]. now destruct (PComps.ac_rec u h o) as (_ & -> & _).
  - rewrite (dissects_render _ _ _ _ _ _ Dj), (dissects_render _ _ _ _ _ _ D), !render_authority. cbn [with_authority c_s c_p c_q c_f]. rewrite !blen_app. lia.
Qed.
Lemma not_trapped debug S t C h only : ~ panicking debug S t C (CReplaceHost h only) -> debug = false \/ of_kind t <> TIri \/ c_f C = None \/ c_f C = Some [].
Proof.
  intros NP. destruct debug; [|now left]. destruct t; try (right; left; discriminate). destruct (c_f C) as [[|x f]|] eqn:E; auto. exfalso. apply NP. now apply (p_replace_host _ _ _ _ _ _ x f).
Qed.
Lemma ok_of debug S t i C c : new S (of_kind t) i = Ok i -> reads S i C -> has_call S t c -> ~ panicking debug S t C c -> call_panics debug S t i c = false.
Proof. intros V R H NP. destruct (call_panics debug S t i c) eqn:E; [|reflexivity]. exfalso. apply NP, (panics_exact debug S t i C c V R H), E. Qed.
Lemma not_panic {A} (r : may A) : is_panic r = false -> exists x, r = Ok x.
Proof. destruct r as [x|[]|]; [eauto|discriminate]. Qed.
Lemma bind_inv {E A B} (x : res E A) (f : A -> res E B) y : (do a <- x ; f a) = Ok y -> exists a, x = Ok a /\ f a = Ok y.
Proof. destruct x; cbn [bind]; try discriminate. eauto. Qed.

(** All there is to know about a call: its result, and which requests decide. *)
Definition kept (c : call) (S : Spec) (t : ty) (i : str) : list value := if in_place c then [mkV S t i] else [].
Inductive decided (S : Spec) (C : comps) (t : ty) (i : str) (c : call) (v : value) (r : memory -> may m_result) : Prop :=
(* no request *)
| dec_none : in_place c = true \/ c = CEncodeIntoUri -> v_str v = i -> (forall mem, r mem = Ok (Done [v])) -> decided S C t i c v r
| dec_shorter : in_place c = true -> (blen (v_str v) <= blen i)%nat -> (forall mem, r mem = Ok (Done [v])) -> decided S C t i c v r
(* one request for the whole *)
| dec_one : forall len n, (len + n = blen (v_str v))%nat -> (forall mem, r mem = if mem 0%nat len n then Ok (Done [v]) else Ok (NoMemory (kept c S t i))) -> decided S C t i c v r
| dec_clone : c = CMaskOwned -> no_userinfo S C -> v_str v = i -> (forall mem, r mem = if mem 0%nat 0%nat (blen i) then Ok (Done [v]) else Panic) -> decided S C t i c v r
(* many requests *)
| dec_many : (forall mem, r mem = Ok (Done [v]) \/ refused mem /\ r mem = Ok (NoMemory (kept c S t i))) ->
    (forall n, ((blen (v_str v) <= n)%nat -> r (limit n) = Ok (Done [v])) /\ ((n < blen (v_str v))%nat -> r (limit n) = Ok (NoMemory (kept c S t i)))) ->
    decided S C t i c v r.
Lemma decide_display {A} debug S C t t' S' i c (d : W A) x (r : memory -> may m_result) : in_place c = false -> (do s <- text d ; new_unchecked_justified debug S' t' s) = Ok x ->
  (forall mem, r mem = m_returned S' t' [] (m_dedicated mem debug S' t' d)) -> decided S C t i c (mkV S' t' x) r.
Proof.
  intros Ip E Er. apply dec_many; unfold kept; rewrite Ip; cbn [v_str].
  - intros mem. rewrite Er. destruct (dedicated_mem mem debug S' t' d x E) as [-> | (N & ->)]; [left|right]; auto.
  - intros n. destruct (dedicated_limit n debug S' t' d x E) as (A1 & A2). split; intros L; rewrite Er; [rewrite (A1 L)|rewrite (A2 L)]; reflexivity.
Qed.
Lemma call_decided debug S t i C c : new S (of_kind t) i = Ok i -> reads S i C -> has_call S t c -> fallible c -> ~ panicking debug S t C c ->
  exists v, results debug S (of_kind t) i c = Ok [v] /\ decided S C (of_kind t) i c v (fun mem => m_results mem debug S (of_kind t) i c).
Proof.
  intros V R H F NP. assert (NP' := ok_of debug S t i C c V R H NP). assert (Ed := kind_editable t).
  destruct c; try contradiction; cbn [results m_results]; cbn [call_panics] in NP'; cbn [has_call] in H.
  - apply not_panic in NP'. destruct NP' as (x & E). apply bind_inv in E. destruct E as (n & En & E). rewrite En. cbn [bind]. rewrite E. cbn [bind]. eexists. split; [reflexivity|].
    eapply (decide_display debug); [reflexivity|exact E|]. reflexivity.
  - apply not_panic in NP'. destruct NP' as (x & E). apply bind_inv in E. destruct E as (n & En & E). rewrite En. cbn [bind]. rewrite E. cbn [bind]. eexists. split; [reflexivity|].
    eapply (decide_display debug); [reflexivity|exact E|]. reflexivity.
  - destruct (mask_split S i C R) as [(Nu & Rg)|(u & h & o & l & pw & r & P & Ei & Rg)].
    + unfold mask_to_dedicated_string. rewrite Rg. cbn [may_of bind]. eexists. split; [reflexivity|]. apply dec_clone; auto. intros mem. unfold m_mask. rewrite Rg. destruct (mem _ _ _); reflexivity.
    + destruct (mask_parts true debug S (of_kind t) i l pw r Ei Rg) as (Sl & M). rewrite M in *.
      assert (X : exists x, new_unchecked_justified debug S (of_kind t) (l ++ r) = Ok x) by (destruct (new_unchecked_justified debug S (of_kind t) (l ++ r)) as [x|[]|]; [eauto|discriminate]).
      destruct X as (x & X). rewrite X. cbn [may_of bind]. eexists. split; [reflexivity|]. assert (Y := unchecked_same _ _ _ _ _ X). subst x.
      apply (dec_one _ _ _ _ _ _ _ 0%nat (blen i - blen pw)%nat).
      * cbn [v_str]. rewrite Ei, !blen_app. lia.
      * intros mem. unfold m_mask. rewrite Rg, Sl. destruct (mask_parts (mem 0%nat 0%nat (blen i - blen pw)%nat) debug S (of_kind t) i l pw r Ei Rg) as (_ & M'). rewrite M'. destruct (mem _ _ _); [now rewrite X|reflexivity].
  - assert (G := not_trapped _ _ _ _ _ _ NP). destruct (edits_defined S i C (EReplaceHost h only_reg_name) R I) as (C' & Ed'). inversion Ed' as [|? ? ? ? ? K|? K| | |u h0 o g only P Hg Ho|g only P|]; subst; try (destruct K; discriminate).
    + apply (parts_dissects S i) in P; auto.
      destruct (replace_host_ok debug true S (of_kind t) i C u h0 o h only_reg_name Ed V P Hg Ho G) as (j & Vj & Dj & J & _). destruct (J (or_introl eq_refl)) as (J1 & _). rewrite J1. cbn [bind]. eexists. split; [reflexivity|].
      destruct (Nat.ltb_spec (blen h) (blen h0)) as [L|L].
      * apply dec_shorter; [reflexivity| |]; destruct (host_lengths S i C u h0 o j h P Dj (limit 0)) as (_ & Lj); [cbn [v_str]; lia|].
        intros mem. destruct (replace_host_ok debug (m_host_request mem i h) S (of_kind t) i C u h0 o h only_reg_name Ed V P Hg Ho G) as (j' & _ & Dj' & J' & _). destruct (J' (or_intror L)) as (_ & ->). cbn [bind].
        rewrite (dissects_render _ _ _ _ _ _ Dj), (dissects_render _ _ _ _ _ _ Dj'). reflexivity.
      * apply (dec_one _ _ _ _ _ _ _ (blen i) (blen h - blen h0)%nat); destruct (host_lengths S i C u h0 o j h P Dj (limit 0)) as (_ & Lj); [cbn [v_str]; lia|].
        intros mem. destruct (host_lengths S i C u h0 o j h P Dj mem) as (Q & _). rewrite <- Q. destruct (replace_host_ok debug (m_host_request mem i h) S (of_kind t) i C u h0 o h only_reg_name Ed V P Hg Ho G) as (j' & _ & Dj' & J' & J'').
        destruct (m_host_request mem i h) eqn:Qm.
        -- destruct (J' (or_introl eq_refl)) as (_ & ->). cbn [bind]. rewrite (dissects_render _ _ _ _ _ _ Dj), (dissects_render _ _ _ _ _ _ Dj'). reflexivity.
        -- destruct (J'' eq_refl L) as (_ & ->). reflexivity.
    + assert (P' : c_a C' = None \/ ~ host S h \/ only_reg_name = true /\ exists u h o, dissects S i C' u h o /\ (IP_literal h \/ IPv4address h)).
      { destruct P as [P|[P|(P & u & h' & o & Q & K)]]; [now left|right; now left|right; right]. split; [exact P|]. exists u, h', o. split; [now apply parts_dissects|exact K]. }
      destruct (replace_host_none debug true S (of_kind t) i C' h only_reg_name Ed V R P' G) as (_ & ->). cbn [bind]. eexists. split; [reflexivity|]. apply dec_none; [now left|reflexivity|].
      intros mem. destruct (replace_host_none debug (m_host_request mem i h) S (of_kind t) i C' h only_reg_name Ed V R P' G) as (-> & _). reflexivity.
  - apply not_panic in NP'. destruct NP' as (x & E). rewrite E. cbn [bind]. eexists. split; [reflexivity|]. eapply (decide_display debug); [reflexivity|exact E|]. reflexivity.
  - subst S. rewrite (inline_typed debug _ i V). cbn [may_of bind]. eexists. split; [reflexivity|]. destruct (inline_typed_fail debug _ i V) as (X1 & X2). destruct (all_ascii i) eqn:A.
    + apply dec_none; [now left|cbn [v_str]; now apply to_uri_ascii|]. intros mem. destruct (m_encode_request mem i); [rewrite (inline_typed debug _ i V)|rewrite (X1 eq_refl)]; [reflexivity|]. now rewrite to_uri_ascii.
    + apply (dec_one _ _ _ _ _ _ _ (blen i) (count_nonascii (utf8s i) * 2)%nat); [symmetry; exact (blen_uri _ _ V)|]. intros mem. unfold m_encode_request. destruct (mem _ _ _); [now rewrite (inline_typed debug _ i V)|now rewrite (X2 eq_refl)].
  - subst S. rewrite (encode_into debug _ i V). cbn [may_of bind]. eexists. split; [reflexivity|]. destruct (encode_into_fail debug _ i V) as (X1 & X2). destruct (all_ascii i) eqn:A.
    + apply dec_none; [now right|cbn [v_str]; now apply to_uri_ascii|]. intros mem. destruct (m_encode_request mem i); [rewrite (encode_into debug _ i V)|rewrite (X1 eq_refl)]; [reflexivity|]. now rewrite to_uri_ascii.
    + apply (dec_one _ _ _ _ _ _ _ (blen i) (count_nonascii (utf8s i) * 2)%nat); [symmetry; exact (blen_uri _ _ V)|]. intros mem. unfold m_encode_request. destruct (mem _ _ _); [now rewrite (encode_into debug _ i V)|now rewrite (X2 eq_refl)].
Qed.
Lemma fallible_panics mem debug S t i C c : new S (of_kind t) i = Ok i -> reads S i C -> fallible c -> panicking debug S t C c -> m_results mem debug S (of_kind t) i c = Panic.
Proof.
  intros V R F P. destruct P as [| | | | |h only x f Hd Ht Hf]; try contradiction. subst debug t. cbn [m_results of_kind] in *.
  destruct (replace_host_panics (m_host_request mem i h) S i C h only V R) as (_ & ->); [congruence..|reflexivity].
Qed.
Lemma call_mem mem debug S t i C c : new S (of_kind t) i = Ok i -> reads S i C -> has_call S t c -> fallible c ->
  (panicking debug S t C c -> m_results mem debug S (of_kind t) i c = Panic) /\
  (~ panicking debug S t C c -> exists v, results debug S (of_kind t) i c = Ok [v] /\
    (m_results mem debug S (of_kind t) i c = Ok (Done [v]) \/
     (exists k len n, mem k len n = false) /\
     (m_results mem debug S (of_kind t) i c = Ok (NoMemory (if in_place c then [mkV S (of_kind t) i] else [])) \/
      c = CMaskOwned /\ (forall u h o, ~ parts S C (Some u) h o) /\ m_results mem debug S (of_kind t) i c = Panic))).
Proof.
  intros V R H F. split; [exact (fallible_panics mem debug S t i C c V R F)|]. intros NP. destruct (call_decided debug S t i C c V R H F NP) as (v & E & D). exists v. split; [exact E|].
  change (if in_place c then [mkV S (of_kind t) i] else []) with (kept c S (of_kind t) i).
  destruct D as [_ _ X|_ _ X|len n _ X|Ec Nu _ X|X _]; try (left; apply X).
  - specialize (X mem). cbv beta in X. destruct (mem 0%nat len n) eqn:Q; [left; exact X|right]. split; [exists 0%nat, len, n; exact Q|left; exact X].
  - specialize (X mem). cbv beta in X. destruct (mem 0%nat 0%nat (blen i)) eqn:Q; [left; exact X|right]. split; [exists 0%nat, 0%nat, (blen i); exact Q|right]. auto.
  - destruct (X mem) as [Y|(N & Y)]; [left; exact Y|right]. split; [exact N|left; exact Y].
Qed.
Lemma call_limit n debug S t i C c : new S (of_kind t) i = Ok i -> reads S i C -> has_call S t c -> fallible c -> ~ panicking debug S t C c ->
  (c = CMaskOwned -> exists u h o, parts S C (Some u) h o) -> (in_place c = true \/ c = CEncodeIntoUri -> (blen i <= n)%nat) ->
  exists v, results debug S (of_kind t) i c = Ok [v] /\
    ((blen (v_str v) <= n)%nat -> m_results (limit n) debug S (of_kind t) i c = Ok (Done [v])) /\
    ((n < blen (v_str v))%nat -> m_results (limit n) debug S (of_kind t) i c = Ok (NoMemory (if in_place c then [mkV S (of_kind t) i] else []))).
Proof.
  intros V R H F NP Hm Hi. destruct (call_decided debug S t i C c V R H F NP) as (v & E & D). exists v. split; [exact E|].
  change (if in_place c then [mkV S (of_kind t) i] else []) with (kept c S (of_kind t) i).
  destruct D as [Ip Ev X|Ip L X|len k L X|Ec Nu _ X|_ X].
  - rewrite Ev. specialize (Hi Ip). split; [intros _; apply X|lia].
  - specialize (Hi (or_introl Ip)). split; [intros _; apply X|lia].
  - specialize (X (limit n)). cbv beta in X. unfold limit at 2 in X. rewrite L in X. split; intros K; rewrite X.
    + now apply Nat.leb_le in K as ->.
    + now apply Nat.leb_gt in K as ->.
  - destruct (Hm Ec) as (u & h & o & P). now destruct (Nu u h o).
  - exact (X n).
Qed.
Lemma mask_aborts mem debug S t i C : reads S i C -> (forall u h o, ~ parts S C (Some u) h o) -> mem 0%nat 0%nat (blen i) = false ->
  m_results mem debug S (of_kind t) i CMaskOwned = Panic.
Proof.
  intros R Nu M. destruct (mask_split S i C R) as [(_ & Rg)|(u & h & o & _ & _ & _ & P & _)]; [|now destruct (Nu u h o)]. cbn [m_results]. unfold m_mask. now rewrite Rg, M.
Qed.
Lemma build_mem debug S t x s : built_to_dedicated_string S debug t x = Ok s ->
  (forall mem, m_built mem debug S t x = Ok s \/ (exists k len n, mem k len n = false) /\ m_built mem debug S t x = Err AllocFailed) /\
  (forall n, ((blen s <= n)%nat -> m_built (limit n) debug S t x = Ok s) /\ ((n < blen s)%nat -> m_built (limit n) debug S t x = Err AllocFailed)).
Proof. intros E. split; [intros mem; exact (dedicated_mem mem debug S t (built_display S x) s E)|intros n; exact (dedicated_limit n debug S t (built_display S x) s E)]. Qed.
