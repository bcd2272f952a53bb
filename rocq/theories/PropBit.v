(** Theorems about declarations that the parser passes over: C83. *)
From Verif Require Import Base Types TypeBuild Compat Mem MemSpec Hash MapOps Ops Module ModuleSpec ModuleFacts NumSpec IntSpec IntOps IdlLit IdlLitFacts IdlExpr IdlSpec Peg0 Grammar Peg PegRules IdlParse IdlParseFacts GenIdl GenSpec ExprSpec DocSpec NoteSpec FreeSpec BitSpec DeclSpec PropParse PropIdl PropGen PropDoc PropDecl TypeText StructText StructRead DocFacts GenStruct GenText ConstText FreeStruct FreeDecl TreeSpec PropForward DocText BitText BitDecl DeclText PropCase.
From Verif Require Import GapSpec GapText.
Local Open Scope string_scope.

(** [longer l l']: [l'] is [l] with declarations of BitSpec put in anywhere. *)
Inductive longer : list (string * string) -> list (string * string) -> Prop :=
| longer_end : longer [] []
| longer_same : forall x l l', longer l l' -> longer (x :: l) (x :: l')
| longer_put : forall s w l l', passed_over s -> gap w -> longer l l' -> longer l ((s, w) :: l').
Lemma longer_says : forall fc p l l', longer l l' -> forall root root', say fc p l root root' -> say fc p l' root root'.
Proof.
  intros fc p l l' H. induction H as [|[s w] l l' _ IH|s w l l' P W _ IH]; intros root root' S; [exact S| |].
  - inversion S as [|? ? ? ? root1 ? Hs Hw Hl]; subst. econstructor; [exact Hs|exact Hw|apply IH, Hl].
  - econstructor; [apply say_passed, P|exact W|apply IH, S].
Qed.
(** A bitmask, a bitset with fields or a parent, or an annotation type declares nothing: whatever names it has or mentions. *)
Theorem C83_passed_over_partial : forall fc flt flit c s root, ignore_case c = false -> passed_over s -> parses fc flt flit c (s ++ ";") root (Ok (true, root)).
Proof. intros fc flt flit c s root IC P. apply sentence_document, passed_sentence; assumption. Qed.
(** A document with such declarations among the others declares what it declares without them. *)
Theorem C83_in_document_partial : forall fc flt flit c w l l' root root', usual c -> no_nulls root -> ident_symbols root -> l <> [] -> gap w ->
  longer l l' -> say fc [] l root root' -> parses fc flt flit c (w ++ row_text l) root (Ok (true, root')) /\ parses fc flt flit c (w ++ row_text l') root (Ok (true, root')).
Proof.
  intros fc flt flit c w l l' root root' U N IS NE W L S. split; (apply C49_document_partial; try assumption).
  - intros ->. inversion L; subst; apply NE; reflexivity.
  - eapply longer_says; eassumption.
Qed.
(** The full statement fails: [native x] and an empty bitset declare an empty struct of that name, for every name. *)
Theorem C83_bare_refuted : forall fc flt flit c x s root, usual c -> no_nulls root -> ident_symbols root -> free_name x = true -> declares root x [] = false -> bare_text x s ->
  exists root', parses fc flt flit c (s ++ ";") root (Ok (true, root')) /\ declared root x = None /\ declared root' x = Some (TStruct x 0 []).
Proof.
  intros fc flt flit c x s root U N IS F D B. pose proof (free_name_ident _ F) as I.
  pose proof (declares_structs root x [] (eq_refl true) D) as M. pose proof (register_new root [] x (TStruct x 0 []) (eq_refl true) I (eq_refl x) M) as R.
  destruct (with_tables root [] (set_structs (emplace x (rename (TStruct x 0 []) (scoped (scope []) x)) (structs (tab_at root []))) (tab_at root []))) as [root'|] eqn:W.
  2: { destruct root as [nm tab inner]; discriminate W. }
  cbn [bind] in R. destruct (with_tables_here root [] _ root' (eq_refl true) W) as [Tb _]. exists root'. split; [|split].
  - apply sentence_document. eapply bare_sentence; try eassumption; [reflexivity|]. apply tidy_idents, IS.
  - unfold declared. unfold mem in M. destruct (assoc x _); [discriminate M|reflexivity].
  - unfold declared. rewrite Tb. cbn [set_structs structs]. rewrite (mem_emplace _ _ _ _ M). reflexivity.
Qed.

(** A bitmask with positions, a bitset with a parent, a destination and an unnamed field, an annotation type with defaults. *)
Definition pb_mask : string := "bitmask Flags {" ++ NL ++ "  f0, @position(5) f5, f6" ++ NL ++ "}".
Definition pb_set : string := "bitset S : M::Base {" ++ NL ++ "  bitfield<3> a; bitfield<10, unsigned long> b; bitfield<4>;" ++ NL ++ "}".
Definition pb_note : string := "@annotation unit {" ++ NL ++ "  string name default ""m""; long factor default 2*N; any thing;" ++ NL ++ "}".
Example C83_nontrivial : passed_over pb_mask /\ passed_over pb_set /\ passed_over pb_note /\ bare_text "handle" "native handle" /\ bare_text "S" "bitset S { }" /\
  declares root_module "handle" [] = false /\ free_name "handle" = true.
Proof.
  assert (L : forall s z, literal s 10 z -> value_text s).
  { intros s z H. apply (vt_expr (ELit s "") [KLit s ""]); [|constructor; econstructor; exact H]. unfold idl_expr. apply (derives_up 7); [lia|apply de_lit]. }
  assert (L5 : literal "5" 10 5) by (apply (decimal_literal "5"); reflexivity). assert (L2 : literal "2" 10 2) by (apply (decimal_literal "2"); reflexivity).
  split; [|split; [|split; [|split; [|split; [|split; reflexivity]]]]].
  - refine (a_bitmask "Flags" " " (NL ++ "  ") _ NL eq_refl eq_refl eq_refl eq_refl (flags_more "" "f0" "" " " _ no_notes eq_refl eq_refl eq_refl (flags_more "@position(5) " "f5" "" " " _ _ eq_refl eq_refl eq_refl (flags_one "" "f6" no_notes eq_refl)))).
    apply (note_with false [] "position" "" "" "5" "" " " ""); try reflexivity; [repeat constructor|apply ps_one, pt_value, (L "5" 5%Z L5)|constructor].
  - refine (a_bitset_of "S" false ["M"] "Base" " " (NL ++ "  ") ("bitfield<3> a; bitfield<10, unsigned long> b; bitfield<4>;" ++ NL) eq_refl _ eq_refl eq_refl _); [repeat constructor|].
    refine (fields_more "" 3 "" " a" " " ("bitfield<10, unsigned long> b; bitfield<4>;" ++ NL) no_notes no_destination (a_field_name "a" eq_refl) eq_refl _).
    refine (fields_more "" 10 ", unsigned long" " b" " " ("bitfield<4>;" ++ NL) no_notes (a_destination "unsigned long" PU32 _ eq_refl) (a_field_name "b" eq_refl) eq_refl _); [cbn; intuition|].
    refine (fields_more "" 4 "" "" NL "" no_notes no_destination no_field_name eq_refl fields_none).
  - refine (an_annotation "unit" " " (NL ++ "  ") ("string name default ""m""; long factor default 2*N; any thing;" ++ NL) eq_refl eq_refl eq_refl _).
    refine (values_more "string" "name" " default ""m""" " " ("long factor default 2*N; any thing;" ++ NL) vt_text eq_refl (a_default """m""" "" (vt_string "m" eq_refl) eq_refl) eq_refl _).
    refine (values_more "long" "factor" " default 2*N" " " ("any thing;" ++ NL) (vt_base "long" PI32 _) eq_refl (a_default "2*N" "" _ eq_refl) eq_refl _); [cbn; intuition| |].
    + apply (vt_expr (EBin Mul (ELit "2" "") (EName "N")) [KLit "2" ""; KOp Mul; KName "N"]).
      * unfold idl_expr. apply (derives_up 5); [cbn; lia|]. refine (de_bin Mul _ _ [_] [_] _ _); [apply (derives_up 2); [cbn; lia|apply de_lit]|apply (derives_up 1); [cbn; lia|apply de_name]].
      * refine (to_more _ "2" "" _ _ (tt_lit _ _ _ L2) eq_refl _). refine (to_more _ "*" "" _ _ (tt_op Mul) eq_refl _). refine (to_one _ _ (tt_name [] "N" _ eq_refl eq_refl)). repeat constructor.
    + exact (values_more "any" "thing" "" NL "" vt_any eq_refl no_default eq_refl values_none).
  - apply bare_native.
  - exact (bare_bitset "S" " " " " eq_refl eq_refl).
Qed.

Print Assumptions C83_passed_over_partial.
Print Assumptions C83_in_document_partial.
Print Assumptions C83_bare_refuted.
