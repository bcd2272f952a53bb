(** Theorems about constants of declared types: C84. *)
From Verif Require Import Base Types TypeBuild Mem MemSpec ValueSpec OpsSpec DataSpec DataFacts Hash MapOps Ops IntOps ModuleSpec ModuleFacts Module NumSpec IntSpec IntFacts Peg0 Grammar Peg PegRules IdlParse IdlParseFacts GenIdl GenSpec TypeText StructText StructRead DocFacts PegFacts ExprSpec IdlExpr IdlSpec IdlLit EnumFacts EnumText IdlLitFacts LitText NumText ConstText NoteSpec FreeSpec TextSpec TextConst PropParse PropModule PropExpr PropConst.
From Verif Require Import GapSpec GapText.
Local Open Scope string_scope.

(** The type of the constant is written [n], the name of a typedef (of a typedef ...) of an integer type: the constant has
    the value of the expression.  Texts and booleans: C46_string_partial, C46_boolean_constant. *)
Theorem C84_typedef : forall fc flt flit c root env p n t x w0 w1 w2 e ts s w3 w4 z,
  plain_scoped n -> names_type root [] n t -> rget t = TPrim p -> int_kind p = true -> is_ident x = true -> no_nulls root -> consts_paired root ->
  gap w0 -> all_chars is_ws w1 = true -> all_chars is_ws w2 = true -> all_chars is_ws w3 = true -> gap w4 ->
  idl_expr e ts -> text_of ts s -> sees root [] env -> evaluates p env e z -> right_safe p env e -> unary_safe p e ->
  declares_constant fc flt flit c root w0 n x w1 w2 s w3 w4 (fun d => is_int d p z).
Proof.
  intros fc flt flit c root env p n t x w0 w1 w2 e ts s w3 w4 z P Nm R Hk I N Cp W0 W1 W2 W3 W4 De T Se Ev Rs Us.
  exact (C33_text_partial fc flt flit c root env p n x w0 w1 w2 e ts s w3 w4 z Hk (cs_name _ x n t _ P Nm R) I N Cp W0 W1 W2 W3 W4 De T Se Ev Rs Us).
Qed.
(** The type of the constant is an enumeration, or a typedef of one, and its value is written as the name of an enumerator,
    or of a constant of an enumeration type, [v]: the constant is of the enumeration and value<uint32_t>() is [v].
    Missing: that [v] is a value of the enumeration ([C84_foreign_refuted]). *)
Theorem C84_enumerator_partial : forall fc flt flit c root env n t en vals x w0 w1 w2 y s w3 w4 T d0 v,
  plain_scoped n -> names_type root [] n t -> rget t = TEnum en 4 vals -> Forall (fun k => snd k < 2 ^ 32)%N vals -> is_ident x = true -> no_nulls root -> consts_paired root ->
  gap w0 -> all_chars is_ws w1 = true -> all_chars is_ws w2 = true -> all_chars is_ws w3 = true -> gap w4 ->
  token_text (KName y) s -> sees root [] env -> env y = Some d0 -> enumerator_type T -> is_enum T d0 v ->
  declares_constant fc flt flit c root w0 n x w1 w2 s w3 w4
    (fun d => d_type d = TEnum en 4 vals /\ exists bs, get_value (StPrim PU32) (d_type d) (d_mem d) 0 = Ok (ScPrim PU32 bs) /\ number PU32 bs v).
Proof.
  intros fc flt flit c root env n t en vals x w0 w1 w2 y s w3 w4 T d0 v P Nm R Fv I N Cp W0 W1 W2 W3 W4 Tk Se Ey ET H0.
  destruct (chosen_sentence fc flt flit c [] root env n x w1 w2 y s w3 en vals T d0 v eq_refl Fv (cs_name _ x n t _ P Nm R) I W1 W2 W3 Tk Se Ey ET H0) as (d & b & root' & (Td & bs & Hd & Hn) & CC & Sn).
  apply (sentence_constant fc flt flit c root w0 n x w1 w2 s w3 w4 d (VBytes bs)); try assumption; try (rewrite Td; exact Logic.I).
  - intros d' T' H'. rewrite Td in T'. split; [exact T'|]. exists bs. split; [|exact Hn]. destruct H' as (_ & _ & _ & _ & R'). rewrite T' in R'. cbn [read] in R'. apply bind_ok_iff in R' as (b' & R' & E). injection E as ->.
    unfold get_value. rewrite T'. cbn [rget type_check sizeof prim_size]. change (4 =? 4)%N with true. cbv iota. rewrite R'. reflexivity.
  - eauto.
Qed.

(** A module with an enumeration, a typedef of it and one of an integer. *)
Definition nm_text : string := "enum E { A, B, C }; typedef E F; typedef F G; typedef long L; module M { typedef L K; };".
Definition nm_root : modl := match parse_idl (fun _ _ b => b) (fun _ _ _ b => b) (fun _ _ => Fail Throw) 200 default_ctx nm_text root_module with Ok (_, m) => m | Fail _ => root_module end.
Definition nm_inner : modl := match mod_at nm_root ["M"] with Some m => m | None => root_module end.
Lemma nm_places : forall q, mod_at nm_root q = None \/ mod_at nm_root q = Some nm_root \/ mod_at nm_root q = Some nm_inner.
Proof.
  assert (A : m_inner nm_root = [("M", Some nm_inner)]) by (vm_compute; reflexivity). assert (B : m_inner nm_inner = []) by (vm_compute; reflexivity).
  induction q as [|x q IH]; [right; left; reflexivity|]. cbn [mod_at]. destruct IH as [->|[->| ->]]; [left; reflexivity| |left; rewrite B; reflexivity].
  rewrite A. cbn [assoc]. destruct (String.eqb x "M"); [right; right; reflexivity|left; reflexivity].
Qed.
Lemma mem_names : forall A B (l : list (string * A)) (k : list (string * B)) y, map fst l = map fst k -> mem y l = mem y k.
Proof.
  intros A B. unfold mem. induction l as [|[x a] l IH]; intros [|[z b] k] y E; try discriminate E; [reflexivity|]. cbn [map fst] in E. injection E as <- E. cbn [assoc]. destruct (String.eqb y x); [reflexivity|]. apply IH, E.
Qed.
Lemma some_same : forall A (a b : A), Some a = Some b -> a = b.
Proof. congruence. Qed.
Example C84_nontrivial : parse_idl (fun _ _ b => b) (fun _ _ _ b => b) (fun _ _ => Fail Throw) 200 default_ctx nm_text root_module = Ok (true, nm_root) /\
  (plain_scoped "G" /\ exists t vals, names_type nm_root [] "G" t /\ rget t = TEnum "E" 4 vals /\ Forall (fun k => snd k < 2 ^ 32)%N vals /\ In ("B", 1%N) vals) /\
  (plain_scoped "::M::K" /\ exists t, names_type nm_root [] "::M::K" t /\ t <> TPrim PI32 /\ rget t = TPrim PI32) /\
  no_nulls nm_root /\ consts_paired nm_root /\ token_text (KName "B") "B" /\
  exists d0, find_in 9 nm_root [] consts "B" = Ok (Some d0) /\ is_enum (TPrim PU32) d0 1.
Proof.
  split; [vm_compute; reflexivity|]. split; [split|split; [split|split; [|split; [|split]]]].
  - exists false, [], "G". split; [reflexivity|]. split; [repeat constructor|right; reflexivity].
  - eexists. eexists. split; [exists 50%nat; vm_compute; reflexivity|]. split; [reflexivity|]. split; [repeat constructor|]. right. left. reflexivity.
  - exists true, ["M"], "K". split; [reflexivity|]. split; [repeat constructor|left; reflexivity].
  - eexists. split; [exists 50%nat; vm_compute; reflexivity|]. split; [discriminate|reflexivity].
  - intros a q m H. destruct (nm_places q) as [E|[E|E]]; rewrite E in H; [discriminate H| |]; apply some_same in H; subst m.
    + replace (m_inner nm_root) with [("M", Some nm_inner)] by (vm_compute; reflexivity). cbn [assoc]. destruct (String.eqb a "M"); discriminate.
    + replace (m_inner nm_inner) with (@nil (string * option modl)) by (vm_compute; reflexivity). discriminate.
  - intros q y. apply mem_names. unfold tab_at. destruct (nm_places q) as [->|[->| ->]]; vm_compute; reflexivity.
  - apply (tt_name [] "B"); [repeat constructor|reflexivity|reflexivity].
  - eexists. split; [vm_compute; reflexivity|]. split; [reflexivity|]. exists [1; 0; 0; 0]%N. split.
    + split; [exact I|]. split; [exact I|]. split; [reflexivity|]. cbn [d_type d_mem]. split; [|reflexivity]. cbn [live prim_size]. intros i Hi.
      assert (Q : (i = 0 \/ i = 1 \/ i = 2 \/ i = 3)%N) by lia. destruct Q as [->|[->|[->| ->]]]; cbn; eexists; (split; [reflexivity|lia]) || reflexivity.
    + split; [unfold fits, least, greatest, width; cbn; lia|]. exists 0%Z. reflexivity.
Qed.

(** ** What is not so *)
(** A constant [c] of the enumeration E { A, B, C }. *)
Definition enum_constant fc flt flit (text : string) (v : list N) : Prop := exists root d vals, parses fc flt flit default_ctx text root_module (Ok (true, root)) /\
  PropParse.const_value root "c" = Some d /\ d_type d = TEnum "E" 4 vals /\ map snd vals = [0; 1; 2]%N /\ get_value (StPrim PU32) (d_type d) (d_mem d) 0 = Ok (ScPrim PU32 v).
(** A number as its value is taken for 0. *)
Theorem C84_number_refuted : forall fc flt flit, enum_constant fc flt flit "enum E { A, B, C }; const E c = 1;" [0; 0; 0; 0]%N.
Proof. intros fc flt flit. do 3 eexists. split; [parsed|]. repeat split; vm_compute; reflexivity. Qed.
(** An enumerator of another enumeration is taken, and the constant has a value that its type does not have. *)
Theorem C84_foreign_refuted : forall fc flt flit, enum_constant fc flt flit "enum E { A, B, C }; enum F { W, X, Y, Z }; const E c = Z;" [3; 0; 0; 0]%N.
Proof. intros fc flt flit. do 3 eexists. split; [parsed|]. repeat split; vm_compute; reflexivity. Qed.
(** A constant of a struct, an array or a sequence type is accepted, and its value is ignored. *)
Theorem C84_struct_refuted : forall fc flt flit, exists root d, parses fc flt flit default_ctx "struct S { long a; }; const S c = 5;" root_module (Ok (true, root)) /\
  PropParse.const_value root "c" = Some d /\ d_type d = TStruct "S" 4 [("a", 0%N, TPrim PI32)] /\ read (d_type d) (d_mem d) 0 = Ok (VNode [VBytes [0; 0; 0; 0]%N]).
Proof. intros fc flt flit. do 2 eexists. split; [parsed|]. repeat split; vm_compute; reflexivity. Qed.

Print Assumptions C84_typedef.
Print Assumptions C84_enumerator_partial.
Print Assumptions C84_number_refuted.
Print Assumptions C84_foreign_refuted.
Print Assumptions C84_struct_refuted.
