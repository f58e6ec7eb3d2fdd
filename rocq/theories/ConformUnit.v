(** * The model on the unit tests inside /repo/src.
    Like Conform.v: evidence for the model, not a proof. *)
From Verif Require Import Base Chars Rfc3986 Utf8 MValidate MError MTrusted MFormat MPath MPct MNormalize MTemplate MExpand Conform ConformDoc.
Open Scope string_scope. Open Scope N_scope. Open Scope list_scope.

(** parser/validate/authority.rs, [test_ipv6address] *)
Fixpoint sub_groups (n : nat) : str := match n with O => [] | 1%nat => lit "1" | S k => lit "1:" ++ sub_groups k end.
Definition generated_v6 : list str :=
  flat_map (fun pref => flat_map (fun suf =>
    [sub_groups pref ++ lit "::" ++ sub_groups suf] ++
    (if Nat.ltb 2 suf then [sub_groups pref ++ lit "::" ++ sub_groups (suf - 2) ++ lit ":1.1.1.1"]
     else if Nat.eqb suf 2 then [sub_groups pref ++ lit "::1.1.1.1"] else []))
    (seq 1 (7 - pref))) (seq 0 8).
Example unit_ipv6address :
  filter (fun a => is_err_v (validate_ipv6address a))
    ([lit "a:bB:cCc:dDdD:e:F:a:B"; lit "1:1:1:1:1:1:1:1"; lit "1:1:1:1:1:1:1.1.1.1"; lit "2001:db8::7"] ++ generated_v6) = [] /\
  length generated_v6 = 49%nat.
Proof. split; vm_compute; reflexivity. Qed.

(** parser/trusted/authority.rs, [is_host_reg_name] *)
Example unit_is_host_reg_name :
  forallb is_host_reg_name [lit "www.example.com"; lit "example.com"; lit "localhost"; lit "a"; lit ""; lit "255.255.255.256"; lit "127.0.00.1"; lit "127.0.0.01"] = true /\
  existsb is_host_reg_name [lit "0.0.0.0"; lit "127.0.0.1"; lit "255.255.255.255"; lit "[::1]"; lit "[v999.zzz:zzz:zzz:zzz]"] = false.
Proof. split; vm_compute; reflexivity. Qed.

(** components/authority.rs, [test_decompose_authority] *)
Definition t_userinfo : list (option str) := [Some []; Some (lit "user:password"); Some (lit "user"); None].
Definition t_port : list (option str) := [Some []; Some (lit "0"); Some (lit "0000"); Some (lit "80"); Some (lit "1234567890123456789012345678901234567890"); None].
Definition t_host : list str := [[]; lit "localhost"; lit "example.com"; lit "192.0.2.0"; lit "[2001:db8::1]"; lit "[2001:0db8:0:0:0:0:0:1]";
  lit "[2001:0db8::192.0.2.255]"; lit "[v9999.this-is-futuristic-ip-address]"].
Definition unit_decompose (h : str) (u p : option str) : bool :=
  let i := lit "//" ++ match u with Some u => u ++ lit "@" | None => [] end ++ h ++ match p with Some p => lit ":" ++ p | None => [] end in
  match new IriSpec TReference i, authority_components i with
  | Ok _, Some a => is_text (ac_host a) h && is_opt (ac_userinfo a) u && is_opt (ac_port a) p
  | _, _ => false
  end.
Example unit_decompose_authority :
  forallb (fun h => forallb (fun u => forallb (unit_decompose h u) t_port) t_userinfo) t_host = true.
Proof. vm_compute. reflexivity. Qed.

(** format.rs, [eq_str_display_1] *)
Example unit_eq_str_display :
  eq_str_display (lit "hello") (display (lit "hello")) = Ok true /\ eq_str_display (lit "hello") (display (lit "world")) = Ok false /\
  eq_str_display (lit "hello world") (display (lit "hello")) = Ok false /\ eq_str_display (lit "hello") (display (lit "hello world")) = Ok false /\
  eq_str_display (lit "42") (display (lit "4")) = Ok false /\ eq_str_display (lit "4") (display (lit "42")) = Ok false.
Proof. repeat split; vm_compute; reflexivity. Qed.

(** normalize/pct_case.rs *)
Example unit_pct_case :
  forallb (fun '(i, u, r) => is_text (text (PctCaseNormalized UriSpec i)) u && is_text (text (PctCaseNormalized IriSpec i)) r)
    [(lit "%80%cc%cc%cc", lit "%80%CC%CC%CC", lit "%80%CC%CC%CC"); (lit "%ce%b1", lit "%CE%B1", [945]);
     (lit "%ce%ce%b1%b1", lit "%CE%CE%B1%B1", lit "%CE" ++ [945] ++ lit "%B1"); (lit "%3f", lit "%3F", lit "%3F");
     (lit "%3c%3e", lit "%3C%3E", lit "%3C%3E"); (lit "%7ea", lit "~a", lit "~a")] = true.
Proof. vm_compute. reflexivity. Qed.

(** template/string.rs, [expand_error_pos] *)
Definition pos_context (name : str) : Value :=
  if seqb name (lit "str") then VString (display (lit "string")) else
  if seqb name (lit "list") then VList [display (lit "item0"); display (lit "item1"); display (lit "item2")] else
  if seqb name (lit "assoc") then VAssoc [(display (lit "key0"), display (lit "value0")); (display (lit "key1"), display (lit "value1"))] else VUndefined.
Definition error_pos (t : str) : option nat := match expand_new true pos_context t with Err e => Some (te_location e) | _ => None end.
Example unit_expand_error_pos :
  error_pos (lit "foo{list:4}") = Some (length (lit "foo{")) /\
  error_pos (lit "foo{/list*,list:4}") = Some (length (lit "foo{/list*,")) /\
  error_pos (lit "foo{/str:3,list*,assoc:4}") = Some (length (lit "foo{/str:3,list*,")).
Proof. repeat split; vm_compute; reflexivity. Qed.
