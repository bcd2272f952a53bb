(** Theorems about parsing IDL text: C45-C49. *)
From Verif Require Import Base Types TypeBuild Compat Mem Hash MapOps Ops Module ModuleFacts IntOps IdlLit Peg0 Grammar Peg PegFacts IdlParse IdlParseFacts.
Local Open Scope string_scope.

(** [parse] with the context [c] on a context module [root] answers [r], however long it runs. *)
Definition parses fc flt flit (c : ctx) (text : string) (root : modl) (r : res (bool * modl)) : Prop :=
  exists n0, forall n, (n0 <= n)%nat -> parse_idl fc flt flit n c text root = r.
Lemma parses_at : forall fc flt flit c text root n r, parse_idl fc flt flit n c text root = r -> r <> Fail Loop -> parses fc flt flit c text root r.
Proof.
  intros fc flt flit c text root n r E H. exists n. intros m L. rewrite (steady_parse fc flt flit c text root n m L); congruence.
Qed.

(** ** C47: parsing ends *)

(** The grammar decides every text. *)
Theorem C47_grammar_decides : forall text, exists n0, forall n, (n0 <= n)%nat -> parse_document n text <> None /\ parse_document n text = parse_document n0 text.
Proof.
  intros text. destruct (rule_ends R_DOCUMENT text) as (n0 & o & H). exists n0. intros n L.
  unfold parse_document. rewrite !H by lia. split; [|reflexivity]. destruct o as [|c [|a []] ts [|]]; discriminate.
Qed.
(** The answer of parse is the same however long it takes to compute it. *)
Theorem C47_one_answer : forall fc flt flit c text root n m r r', parse_idl fc flt flit n c text root = r -> parse_idl fc flt flit m c text root = r' ->
  r <> Fail Loop -> r' <> Fail Loop -> r = r'.
Proof.
  intros fc flt flit c text root n m r r' H H' N N'. destruct (Nat.le_ge_cases n m) as [L|L].
  - rewrite <- H, <- H'. symmetry. apply (steady_parse fc flt flit c text root n m L). congruence.
  - rewrite <- H, <- H'. apply (steady_parse fc flt flit c text root m n L). congruence.
Qed.

(** A member of type any: parse never returns, although the text is an IDL document. *)
Definition any_text : string := "struct A { any x; };".
Lemma is_token_at : forall n m c x b, is_token n c x = Ok b -> (n <= m)%nat -> is_token m c x = Ok b.
Proof. intros n m c x b H L. rewrite (steady_is_token c x n m L); congruence. Qed.
Lemma document_at : forall n m s r, parse_document n s = Some r -> (n <= m)%nat -> parse_document m s = Some r.
Proof.
  intros n m s r H L. unfold parse_document in *. destruct (peg n (Ref R_DOCUMENT) s) as [o|] eqn:E; [|discriminate H].
  rewrite (peg_mono _ _ _ _ _ L E). exact H.
Qed.
Lemma loops_from : forall fc flt flit c text root k, (forall n, (k <= n)%nat -> parse_idl fc flt flit n c text root = Fail Loop) ->
  forall n, parse_idl fc flt flit n c text root = Fail Loop.
Proof.
  intros fc flt flit c text root k H n. destruct (parse_idl fc flt flit n c text root) as [r|e] eqn:E.
  - exfalso. pose proof (steady_parse fc flt flit c text root n (n + k)%nat ltac:(lia) ltac:(congruence)) as S. cbv beta in S. rewrite H in S by lia. congruence.
  - destruct e; try reflexivity; exfalso;
      pose proof (steady_parse fc flt flit c text root n (n + k)%nat ltac:(lia) ltac:(congruence)) as S; cbv beta in S; rewrite H in S by lia; congruence.
Qed.
Ltac at_fuel k L :=
  match goal with |- context [parse_document ?n ?t] =>
    let d := eval vm_compute in (parse_document k t) in
    match d with Some ?r => rewrite (document_at k n t r ltac:(vm_compute; reflexivity) L) end
  end.
Theorem C69_any_refuted : forall fc flt flit, (exists a, parse_document 300 any_text = Some (Some a)) /\ forall n, parse_idl fc flt flit n default_ctx any_text root_module = Fail Loop.
Proof.
  intros fc flt flit. split; [eexists; vm_compute; reflexivity|]. apply (loops_from _ _ _ _ _ _ 300). intros n L. unfold parse_idl.
  at_fuel 300%nat L. cbn [build]. unfold struct_def. cbn [struct_parts a_orig a_sub a_tok sa_root].
  unfold declare_struct, resolve_identifier. rewrite (is_token_at 300 n default_ctx "A" false) by (try exact L; vm_compute; reflexivity).
  vm_compute (has_symbol _ _ _). cbn [bind andb negb allow_keyword_identifiers default_ctx].
  vm_compute (call_register _ _ _ _ _). cbn [bind fst snd struct_parts a_orig a_sub a_tok sa_root sa_ms member_def type_spec]. reflexivity.
Qed.
(** A name with an empty part: resolve_scope never returns (C29). *)
Definition tree_AX : modl := Mod "" no_tables [("A", Some (Mod "A" (mkTables [("X", TStruct "A::X" 4 [("a", 0%N, TPrim PI32)])] [] [] [] [] [] []) []))].
Definition empty_part_text : string := "struct B { A::::X y; };".
Lemma empty_part_loops : forall root, (exists X, root = Mod "" X [("A", Some (Mod "A" (mkTables [("X", TStruct "A::X" 4 [("a", 0%N, TPrim PI32)])] [] [] [] [] [] []) []))]) ->
  forall n, resolve_scope n root [] "A::::X" "A::::X" true = Fail Loop /\ resolve_scope n root ["A"%string] "::X" "A::::X" false = Fail Loop.
Proof.
  intros root (X & ->). induction n as [|n [IH1 IH2]]; [split; reflexivity|]. split; cbn [resolve_scope mod_at]; cbn [split_scope]; cbn; [exact IH2|exact IH1].
Qed.
Theorem C69_empty_part_refuted : forall fc flt flit, (exists a, parse_document 300 empty_part_text = Some (Some a)) /\ forall n, parse_idl fc flt flit n default_ctx empty_part_text tree_AX = Fail Loop.
Proof.
  intros fc flt flit. split; [eexists; vm_compute; reflexivity|]. apply (loops_from _ _ _ _ _ _ 300). intros n L. unfold parse_idl.
  at_fuel 300%nat L. cbn [build]. unfold struct_def. cbn [struct_parts a_orig a_sub a_tok sa_root].
  unfold declare_struct, resolve_identifier. rewrite (is_token_at 300 n default_ctx "B" false) by (try exact L; vm_compute; reflexivity).
  vm_compute (has_symbol _ _ _). cbn [bind andb negb allow_keyword_identifiers default_ctx].
  vm_compute (call_register _ _ _ _ _). cbn [bind fst snd struct_parts a_orig a_sub a_tok sa_root sa_ms member_def type_spec].
  unfold type_named, resolve. rewrite (proj1 (empty_part_loops _ (ex_intro _ _ eq_refl) n)). reflexivity.
Qed.

(** ** C45: a legal identifier can name a type *)
Definition declared (root : modl) (x : string) : option ty := assoc x (structs (tab_at root [])).
Ltac parsed := eapply (parses_at _ _ _ _ _ _ 600); [vm_compute; reflexivity|discriminate].
(** The struct float2 can be declared, but not used: "float2" is read as the keyword float and "2". *)
Theorem C45_keyword_and_digit_refuted : forall fc flt flit, exists root,
  parses fc flt flit default_ctx "struct float2 { long a; };" root_module (Ok (true, root)) /\
  declared root "float2" = Some (TStruct "float2" 4 [("a", 0%N, TPrim PI32)]) /\
  parses fc flt flit default_ctx "struct B { float2 x; };" root (Ok (false, root)).
Proof. intros fc flt flit. eexists. split; [parsed|]. split; [reflexivity|parsed]. Qed.
(** An enumerator whose name starts with TRUE cannot be the label of a case. *)
Theorem C45_boolean_prefix_refuted : forall fc flt flit, exists root,
  parses fc flt flit default_ctx "enum E { TRUEx, b };" root_module (Ok (true, root)) /\
  assoc "E" (enums (tab_at root [])) = Some (TEnum "E" 4 [("TRUEx", 0); ("b", 1)])%N /\
  parses fc flt flit default_ctx "union U switch (E) { case TRUEx: long x; case b: long y; };" root (Ok (false, root)).
Proof. intros fc flt flit. eexists. split; [parsed|]. split; [reflexivity|parsed]. Qed.

(** ** C46: the value of a constant is the value of its literal *)
Definition const_value (root : modl) (x : string) : option data := assoc x (consts (tab_at root [])).
(** The character constant 'a' has the value of the apostrophe, 39, not 97. *)
Theorem C46_char_refuted : forall fc flt flit, exists root d,
  parses fc flt flit default_ctx "const char c = 'a';" root_module (Ok (true, root)) /\
  const_value root "c" = Some d /\ operand PC8 d = Ok [39%N].
Proof. intros fc flt flit. do 2 eexists. split; [parsed|]. split; [vm_compute; reflexivity|vm_compute; reflexivity]. Qed.
(** A wchar constant ends in an assertion. *)
Theorem C46_wchar_refuted : forall fc flt flit, parses fc flt flit default_ctx "const wchar c = L'a';" root_module (Fail Assert).
Proof. intros fc flt flit. parsed. Qed.
(** The wide string constant L"ab" has the value "ab" with the quotes. *)
Theorem C46_wstring_refuted : forall fc flt flit, exists root d,
  parses fc flt flit default_ctx "const wstring w = L""ab"";" root_module (Ok (true, root)) /\
  const_value root "w" = Some d /\ get_value (StStr SKW) (d_type d) (d_mem d) 0 = Ok (ScStr SKW [34; 97; 98; 34]%N).
Proof. intros fc flt flit. do 2 eexists. split; [parsed|]. split; [vm_compute; reflexivity|vm_compute; reflexivity]. Qed.
Theorem C46_boolean : forall fc flt flit,
  (exists root d, parses fc flt flit default_ctx "const boolean b = TRUE;" root_module (Ok (true, root)) /\ const_value root "b" = Some d /\ operand PBool d = Ok [1%N]) /\
  (exists root d, parses fc flt flit default_ctx "const boolean b = FALSE;" root_module (Ok (true, root)) /\ const_value root "b" = Some d /\ operand PBool d = Ok [0%N]).
Proof. intros fc flt flit. split; do 2 eexists; (split; [parsed|]; split; [vm_compute; reflexivity|vm_compute; reflexivity]). Qed.

(** ** C48: sizes *)
(** With const long N = 5: string<N>, sequence<long, N> and a member a[N] have the size 5; wstring<N> is unbounded. *)
Definition N_is_5 : string := "const long N = 5;".
Theorem C48_wstring_constant_refuted : forall fc flt flit, exists root root', 
  parses fc flt flit default_ctx N_is_5 root_module (Ok (true, root)) /\
  parses fc flt flit default_ctx "struct A { wstring<N> w; string<N> s; sequence<long, N> q; map<long, long, N> m; long a[N]; };" root (Ok (true, root')) /\
  exists sz o1 o2 o3 o4 o5 nm, declared root' "A" = Some (TStruct "A" sz [("w", o1, TStr SKW 0); ("s", o2, TStr SK8 5); ("q", o3, TSeq (TPrim PI32) 5);
    ("m", o4, TMap (TPrim PI32) (TPrim PI32) 5); ("a", o5, TArr nm (TPrim PI32) 5)])%N.
Proof. intros fc flt flit. do 2 eexists. split; [parsed|]. split; [parsed|]. do 7 eexists. vm_compute. reflexivity. Qed.
(** In a typedef the dimension N is 0. *)
Theorem C48_typedef_constant_refuted : forall fc flt flit, exists root root', 
  parses fc flt flit default_ctx N_is_5 root_module (Ok (true, root)) /\
  parses fc flt flit default_ctx "typedef long T[N];" root (Ok (true, root')) /\
  assoc "T" (aliases (tab_at root' [])) = Some (TAlias "T" (TArr "array_0_int32_t" (TPrim PI32) 0)).
Proof. intros fc flt flit. do 2 eexists. split; [parsed|]. split; [parsed|]. vm_compute. reflexivity. Qed.
(** Hexadecimal and octal literals are read in base 10: 0x10 is 0, 010 is 10. *)
Theorem C48_base_refuted : forall fc flt flit, exists root, 
  parses fc flt flit default_ctx "struct A { string<0x10> s; sequence<long, 0x10> q; long a[010]; };" root_module (Ok (true, root)) /\
  exists sz o1 o2 o3, declared root "A" = Some (TStruct "A" sz [("s", o1, TStr SK8 0); ("q", o2, TSeq (TPrim PI32) 0); ("a", o3, TArr "array_10_int32_t" (TPrim PI32) 10)])%N.
Proof. intros fc flt flit. eexists. split; [parsed|]. do 4 eexists. vm_compute. reflexivity. Qed.

(** ** C49: the declared members *)
(** A union with one case has no member. *)
Theorem C49_single_case_refuted : forall fc flt flit, exists root a b c,
  parses fc flt flit default_ctx "union U switch (long) { case 1: long x; };" root_module (Ok (true, root)) /\
  assoc "U" (unions (tab_at root [])) = Some (TUnion "U" 4 [("discriminator", 0%N, TPrim PI32)] [] a b c).
Proof. intros fc flt flit. do 4 eexists. split; [parsed|]. vm_compute. reflexivity. Qed.
(** typedef long A, B declares neither A nor B but an alias without a name. *)
Theorem C49_typedef_list_refuted : forall fc flt flit, exists root,
  parses fc flt flit default_ctx "typedef long A, B;" root_module (Ok (true, root)) /\
  aliases (tab_at root []) = [("", TAlias "" (TPrim PI32))].
Proof. intros fc flt flit. eexists. split; [parsed|]. vm_compute. reflexivity. Qed.
(** "default" before a space is no default: it is the label 0. *)
Theorem C49_default_refuted : forall fc flt flit, exists root a b c o p sz,
  parses fc flt flit default_ctx "union U switch (long) { case 1: long x; default : long y; };" root_module (Ok (true, root)) /\
  assoc "U" (unions (tab_at root [])) = Some (TUnion "U" sz [("discriminator", 0%N, TPrim PI32); ("x", o, TPrim PI32); ("y", p, TPrim PI32)] [(0%Z, "y"); (1%Z, "x")] a b c).
Proof. intros fc flt flit. do 7 eexists. split; [parsed|]. vm_compute. reflexivity. Qed.

Print Assumptions C47_grammar_decides.
Print Assumptions C47_one_answer.
Print Assumptions C69_any_refuted.
Print Assumptions C69_empty_part_refuted.
Print Assumptions C45_keyword_and_digit_refuted.
Print Assumptions C45_boolean_prefix_refuted.
Print Assumptions C46_char_refuted.
Print Assumptions C46_wchar_refuted.
Print Assumptions C46_wstring_refuted.
Print Assumptions C46_boolean.
Print Assumptions C48_wstring_constant_refuted.
Print Assumptions C48_typedef_constant_refuted.
Print Assumptions C48_base_refuted.
Print Assumptions C49_single_case_refuted.
Print Assumptions C49_typedef_list_refuted.
Print Assumptions C49_default_refuted.
