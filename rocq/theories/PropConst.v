(** Theorems about text and boolean constants: C46. *)
From Verif Require Import Base Types TypeBuild Mem MemSpec ValueSpec OpsSpec DataSpec DataFacts Hash MapOps Ops IntOps ModuleSpec ModuleFacts Module IntSpec IntFacts Peg0 Grammar Peg PegRules IdlParse IdlParseFacts GenIdl GenSpec TypeText StructText StructRead DocFacts PegFacts ExprSpec EnumFacts EnumText IdlLitFacts LitText NumText GrowFacts NoteSpec FreeSpec TextSpec TextConst PropModule PropParse PropCast BlankSpec ModuleText GenText PropGen PropDoc PropDecl IdlLit IdlExpr IdlSpec.
From Verif Require Import GapSpec GapText.
Local Open Scope string_scope.

(** The document with the constant [x] of the type [n] and the text [s] of its value: what a user sees is that [x] is
    [good] if it is new; all else is as before. *)
Definition declares_constant fc flt flit (c : ctx) (root : modl) (w0 n x w1 w2 s w3 w4 : string) (good : data -> Prop) : Prop :=
  exists b root', parses fc flt flit c (w0 ++ "const " ++ n ++ " " ++ x ++ w1 ++ "=" ++ w2 ++ s ++ w3 ++ ";" ++ w4) root (Ok (true, root')) /\
    (b = true <-> const_entry root [] x = None) /\ (b = true -> exists d, const_entry root' [] x = Some d /\ good d) /\
    (forall q y, b = false \/ q <> [] \/ y <> x -> const_entry root' q y = const_entry root q y) /\
    (forall q k y, entry root' q k y = entry root q k y) /\ consts_paired root'.
Lemma sentence_constant : forall fc flt flit c root w0 n x w1 w2 s w3 w4 d v (good : data -> Prop), no_nulls root -> consts_paired root -> is_ident x = true -> gap w0 -> gap w4 ->
  holds d v -> copy_ok (d_type d) -> vselected (d_type d) v -> (forall d', d_type d' = d_type d -> holds d' v -> good d') ->
  (exists b root', call_create_constant fc x d false false root [] = Ok (b, root') /\ sentence fc flt flit c [] ("const " ++ n ++ " " ++ x ++ w1 ++ "=" ++ w2 ++ s ++ w3) root root') ->
  declares_constant fc flt flit c root w0 n x w1 w2 s w3 w4 good.
Proof.
  intros fc flt flit c root w0 n x w1 w2 s w3 w4 d v good N Cp I W0 W4 Hh Co Vs G (b & root' & CC & Sn).
  destruct (C32_create_constant_partial fc x d v false false root [] N eq_refl Cp (is_ident_name x I) Hh Co Vs) as (b' & root2 & E & Hb & Hnew & Hold & Hent & _ & _ & Cp').
  rewrite CC in E. injection E as <- <-. exists b, root'. split; [|split; [rewrite Hb; split; [intros [H|H]; [discriminate H|exact H]|auto]|split; [|split; [exact Hold|split; [exact Hent|exact Cp']]]]].
  - pose proof (document_reads fc flt flit c w0 [("const " ++ n ++ " " ++ x ++ w1 ++ "=" ++ w2 ++ s ++ w3, w4)] root root') as DR. cbn [in_row] in DR. rewrite !app_assoc_s in DR. rewrite !app_nil_s in DR.
    apply DR; [discriminate|exact W0|]. econstructor; [exact Sn|exact W4|constructor].
  - intros Hbt. destruct (Hnew Hbt) as (d' & Ed & Td & Hd'). exists d'. split; [exact Ed|]. apply G; assumption.
Qed.
(** value<std::string>() of the constant is the text between the quotes; several texts with blanks between them are one.
    Missing: escape sequences ([C46_escape_refuted]), texts with nothing between them ([C46_adjacent_refuted]),
    apostrophes around a text, wide texts ([C46_wstring_refuted]). *)
Theorem C46_string_partial : forall fc flt flit c root w0 n x w1 w2 s v w3 w4, no_nulls root -> consts_paired root -> const_type_says (names_type root []) x n (TStr SK8 0) -> is_ident x = true ->
  gap w0 -> all_chars is_ws w1 = true -> all_chars is_ws w2 = true -> all_chars is_ws w3 = true -> gap w4 -> strings_text s v ->
  declares_constant fc flt flit c root w0 n x w1 w2 s w3 w4 (fun d => d_type d = TStr SK8 0 /\ get_value (StStr SK8) (d_type d) (d_mem d) 0 = Ok (ScStr SK8 (char_codes v))).
Proof.
  intros fc flt flit c root w0 n x w1 w2 s v w3 w4 N Cp CT I W0 W1 W2 W3 W4 St. destruct (text_sentence fc flt flit c [] root n x w1 w2 s v w3 eq_refl CT I W1 W2 W3 St) as (d & b & root' & [T H] & CC & Sn).
  apply (sentence_constant fc flt flit c root w0 n x w1 w2 s w3 w4 d (VStr (char_codes v))); try assumption; try (rewrite T; exact Logic.I).
  - intros d' T' H'. rewrite T in T'. split; [exact T'|]. rewrite T'. apply (str_value d' SK8 0 _ T' H').
  - eauto.
Qed.
(** TRUE is true and FALSE is false. *)
Theorem C46_boolean_constant : forall fc flt flit c root w0 n x w1 w2 t w3 w4, no_nulls root -> consts_paired root -> const_type_says (names_type root []) x n (TPrim PBool) -> is_ident x = true ->
  gap w0 -> all_chars is_ws w1 = true -> all_chars is_ws w2 = true -> all_chars is_ws w3 = true -> gap w4 ->
  declares_constant fc flt flit c root w0 n x w1 w2 (if t : bool then "TRUE" else "FALSE") w3 w4 (fun d => d_type d = TPrim PBool /\ operand PBool d = Ok [if t then 1%N else 0%N]).
Proof.
  intros fc flt flit c root w0 n x w1 w2 t w3 w4 N Cp CT I W0 W1 W2 W3 W4. destruct (boolean_sentence fc flt flit c [] root n x w1 w2 t w3 eq_refl CT I W1 W2 W3) as (d & b & root' & [T H] & CC & Sn).
  apply (sentence_constant fc flt flit c root w0 n x w1 w2 (boolean_text t) w3 w4 d (VBytes [if t then 1%N else 0%N])); try assumption; try (rewrite T; exact Logic.I).
  - intros d' T' H'. rewrite T in T'. split; [exact T'|]. apply (operand_holds d' PBool _ H' T').
  - eauto.
Qed.
(** A document with a text in three parts. *)
Example C46_nontrivial : strings_text ("""ab"" """" " ++ NL ++ """c d's""") "abc d's" /\ no_nulls root_module /\ consts_paired root_module /\ const_entry root_module [] "s" = None.
Proof.
  split; [|split; [apply flat_no_nulls|split; [|reflexivity]]].
  - refine (st_more "ab" " " _ "c d's" eq_refl eq_refl _ _); [discriminate|]. refine (st_more "" (" " ++ NL) _ "c d's" eq_refl eq_refl _ _); [discriminate|]. exact (st_one "c d's" eq_refl).
  - intros q y. unfold const_entry. assert (X : forall m, mod_at root_module q = Some m -> m = root_module).
    { induction q as [|a q IH]; intros m M; cbn [mod_at] in M; [congruence|]. destruct (mod_at root_module q) as [m0|]; [|discriminate M]. rewrite (IH m0 eq_refl) in M. discriminate M. }
    unfold tab_at. destruct (mod_at root_module q) as [m|] eqn:M; [|reflexivity]. rewrite (X m eq_refl). reflexivity.
Qed.

(** ** What is not so *)
Definition text_of_constant fc flt flit (text : string) (v : list N) : Prop := exists root d, parses fc flt flit default_ctx text root_module (Ok (true, root)) /\
  PropParse.const_value root "s" = Some d /\ get_value (StStr SK8) (d_type d) (d_mem d) 0 = Ok (ScStr SK8 v).
(** An escape sequence stays as it is written: "a\n" has three characters, the last two a backslash and an n. *)
Theorem C46_escape_refuted : forall fc flt flit, text_of_constant fc flt flit ("const string s = ""a\n"";") [97; 92; 110]%N.
Proof. intros fc flt flit. do 2 eexists. split; [parsed|]. split; vm_compute; reflexivity. Qed.
(** "a"" ""b" is read as "a" and "b": the text of blanks that follows a text at once is lost. *)
Theorem C46_adjacent_refuted : forall fc flt flit, text_of_constant fc flt flit ("const string s = ""a"""" """"b"";") [97; 98]%N /\
  text_of_constant fc flt flit ("const string s = ""a"" "" "" ""b"";") [97; 32; 98]%N.
Proof. intros fc flt flit. split; do 2 eexists; (split; [parsed|]; split; vm_compute; reflexivity). Qed.
(** A text between apostrophes keeps them. *)
Theorem C46_apostrophes_refuted : forall fc flt flit, text_of_constant fc flt flit "const string s = 'abc';" [39; 97; 98; 99; 39]%N.
Proof. intros fc flt flit. do 2 eexists. split; [parsed|]. split; vm_compute; reflexivity. Qed.
(** An octet constant is refused: octet is taken for the name of a type. *)
Theorem C46_octet_refuted : forall fc flt flit, parses fc flt flit default_ctx "const octet c = 5;" root_module (Fail Throw).
Proof. intros fc flt flit. parsed. Qed.

Print Assumptions C46_string_partial.
Print Assumptions C46_boolean_constant.
Print Assumptions C46_escape_refuted.
Print Assumptions C46_adjacent_refuted.
Print Assumptions C46_apostrophes_refuted.
Print Assumptions C46_octet_refuted.
