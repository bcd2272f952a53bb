(** Theorems about the comments of an IDL text: C85. *)
From Verif Require Import Base Types TypeBuild Compat Mem MemSpec OpsSpec ValueSpec DataSpec Hash MapOps Ops Module ModuleSpec ModuleFacts NumSpec IntSpec IntOps IdlLit IdlExpr IdlSpec DepTree Peg0 Grammar Peg PegRules IdlParse IdlParseFacts GenIdl GenSpec TypeText StructText StructRead GrowFacts DocFacts GenStruct AliasText EnumFacts EnumText GenText ModuleText ExprSpec ConstText DocSpec DocText BlankSpec FreeSpec TokenFacts FreeText FreeStruct FreeDecl DeclSpec DeclText PropParse PropGen PropExpr PropIdl PropModule PropDoc PropBlank GapSpec GapText PropDecl EnumSpec FreeEnum IdlLitFacts NoteSpec UnionSpec UnionBuilt UnionRead GenUnion CaseSpec CaseText CaseBuilt CaseDecl PropNote PropCase.
From Coq Require Import Sorting.
Local Open Scope string_scope.

(** ** C85: comments *)
(** The same declarations with other blanks and comments between them. *)
Definition same_sentences (l l' : list (string * string)) : Prop := map fst l = map fst l' /\ Forall (fun s => gap (snd s)) l'.
Lemma says_gaps : forall fc p l root root', say fc p l root root' -> forall l', same_sentences l l' -> say fc p l' root root'.
Proof.
  intros fc p l root root' H. induction H as [?|pp s w l root root1 root' S W H IH]; intros [|[s' w'] l'] [E G]; try discriminate E; [constructor|].
  cbn [map fst] in E. injection E as <- E. inversion G as [|? ? G1 G2]; subst. cbn [snd] in G1. eapply say_more; [exact S|exact G1|apply IH; exact (conj E G2)].
Qed.
(** Comments of both kinds before, between and after the declarations of a text (and before, between and after the members of a
    struct, which body_says allows) change nothing. *)
Theorem C85_declarations_partial : forall fc flt flit c w w' l l' root root', usual c -> no_nulls root -> ident_symbols root -> l <> [] -> gap w -> gap w' ->
  say fc [] l root root' -> same_sentences l l' ->
  parses fc flt flit c (w ++ row_text l) root (Ok (true, root')) /\ parses fc flt flit c (w' ++ row_text l') root (Ok (true, root')).
Proof.
  intros fc flt flit c w w' l l' root root' U N IS NE W W' H E. split; apply C49_document_partial; try assumption.
  - intros ->. destruct E as [E _]. destruct l; [congruence|discriminate E].
  - eapply says_gaps; eassumption.
Qed.
(** The members of a struct, [w] in front of the first one: the text of the type, the type, the declarators, and what stands behind the semicolon. *)
Record spaced_member : Type := SM { sm_text : string; sm_type : ty; sm_decls : string; sm_names : list (string * list N); sm_gap : string }.
Fixpoint spaced_text (l : list spaced_member) : string := match l with [] => "" | m :: r => sm_text m ++ " " ++ sm_decls m ++ ";" ++ sm_gap m ++ spaced_text r end.
Fixpoint bare_members (l : list spaced_member) : string := match l with [] => "" | m :: r => sm_text m ++ " " ++ sm_decls m ++ "; " ++ bare_members r end.
Definition spaced_types (l : list spaced_member) : list (string * ty) := List.concat (map (fun m => map (fun x => (fst x, array_of (sm_type m) (snd x))) (sm_names m)) l).
Definition good_spaced (root : modl) (x : string) (m : spaced_member) : Prop :=
  gap (sm_gap m) /\ type_says (types_for root [] x) (sizes_for root [] x) (sm_text m) (sm_type m) /\ names_say (sizes_for root [] x) (sm_decls m) (sm_names m).
Theorem C85_members_partial : forall fc flt flit c root x pn bt w l, usual c -> no_nulls root -> idents_only root [] ->
  free_name x = true -> declares root x [] = false -> gap w -> Forall (good_spaced root x) l -> Forall (fun m => fresh_member root [] x (fst m)) (spaced_types l) ->
  base_named root [] x pn bt -> match bt with Some b => is_struct b = true | None => True end -> NoDup (map fst ((match bt with Some b => member_list b | None => [] end) ++ spaced_types l)) ->
  exists root' t, parses fc flt flit c (struct_text x pn (w ++ spaced_text l) ++ ";") root (Ok (true, root')) /\ parses fc flt flit c (struct_text x pn (bare_members l) ++ ";") root (Ok (true, root')) /\
    names_struct root' [] x t /\ member_list t = ((match bt with Some b => member_list b | None => [] end) ++ spaced_types l)%list.
Proof.
  intros fc flt flit c root x pn bt w l U N IO FN D Gw G FM BN IS ND.
  assert (A : members_say (types_for root [] x) (sizes_for root [] x) (spaced_text l) (spaced_types l)).
  { clear - G. induction G as [|m l (Hg & Ht & Hd) _ IH]; [constructor|]. cbn [spaced_text]. unfold spaced_types. cbn [map List.concat]. exact (members_more _ _ (sm_text m) (sm_type m) (sm_decls m) (sm_names m) (sm_gap m) _ _ Ht Hd Hg IH). }
  assert (B : members_say (types_for root [] x) (sizes_for root [] x) (bare_members l) (spaced_types l)).
  { clear - G. induction G as [|m l (Hg & Ht & Hd) _ IH]; [constructor|]. cbn [bare_members]. unfold spaced_types. cbn [map List.concat]. exact (members_more _ _ (sm_text m) (sm_type m) (sm_decls m) (sm_names m) " " _ _ Ht Hd gap_space IH). }
  destruct (struct_of_exact x bt (spaced_types l) IS ND) as (t & S & TS & ML).
  assert (ND' : NoDup (map fst (spaced_types l))) by (rewrite map_app in ND; clear - ND; induction (map fst (match bt with Some b => member_list b | None => [] end)) as [|a q IH]; [exact ND|]; apply IH; inversion ND; assumption).
  destruct (free_struct_sentence fc flt flit c [] root x pn bt _ _ t U eq_refl N IO FN D (body_led _ _ w _ _ Gw A) FM ND' BN S) as (root' & R & Se).
  destruct (free_struct_sentence fc flt flit c [] root x pn bt _ _ t U eq_refl N IO FN D (FreeStruct.plain_body _ _ _ _ B) FM ND' BN S) as (root2 & R2 & Se2). rewrite R in R2. injection R2 as <-.
  exists root', t.
  assert (P : forall body, sentence fc flt flit c [] (struct_text x pn body) root root' -> parses fc flt flit c (struct_text x pn body ++ ";") root (Ok (true, root'))).
  { intros body Sb. pose proof (document_reads fc flt flit c "" [(struct_text x pn body, "")] root root') as DR. cbn [in_row] in DR. apply DR; [discriminate|blanks|]. econstructor; [exact Sb|blanks|constructor]. }
  split; [apply P, Se|]. split; [apply P, Se2|]. split; [|exact ML].
  destruct (struct_of_members _ _ _ _ S) as [T _]. eapply registered_struct; [reflexivity|apply free_name_ident, FN|exact T|exact TS|apply declares_structs; [reflexivity|exact D]|exact R].
Qed.

(** The enumerators of an enumeration: however the enumeration is laid out, and whatever comments stand around its names,
    commas and braces, its enumerators are the names in that order, numbered from 0. *)
Theorem C85_enumerators_partial : forall fc flt flit c root x l, is_ident x = true -> declares root x [] = false -> NoDup l -> (N.of_nat (List.length l) <= 2 ^ 32)%N -> (exists body, enumerators_say l body) ->
  exists vals root', counted l vals /\ names_type root' [] x (TEnum x 4 vals) /\
    forall w1 w2 body, gap w1 -> gap w2 -> enumerators_say l body -> parses fc flt flit c (free_enum_text x w1 w2 body ++ ";") root (Ok (true, root')).
Proof.
  intros fc flt flit c root x l I D ND L [body0 ES0]. destruct (enumerators_idents _ _ ES0) as [NE Il].
  destruct (emplaced_spec (numbers 0 l) []) as [So A]; [rewrite numbers_names; exact ND|reflexivity|exact Logic.I|]. set (vals := emplaced (numbers 0 l) []) in *.
  assert (C : counted l vals).
  { split; [exact So|]. intros e v. rewrite <- (N.sub_0_r v) at 2. assert (X : In (e, v) vals <-> assoc e vals = Some v) by (split; [apply in_assoc, sorted_names_nodup, So|apply assoc_in]). rewrite X, A. cbn [assoc].
    assert (Y : In (e, v) (numbers 0 l) <-> assoc e (numbers 0 l) = Some v) by (split; [apply in_assoc; rewrite numbers_names; exact ND|apply assoc_in]). rewrite numbers_in in Y.
    split; [intros H; apply Y; destruct (assoc e (numbers 0 l)); congruence|]. intros H. assert (Z : assoc e (numbers 0 l) = Some v) by (apply Y; split; [lia|exact H]). rewrite Z. reflexivity. }
  pose proof (sort_counted _ _ C) as SC.
  assert (NV : vals <> []) by (intros E; destruct l as [|e l]; [congruence|]; destruct C as [_ C]; rewrite E in C; apply (proj2 (C e 0%N)); reflexivity).
  assert (LV : (N.of_nat (List.length vals) <= 2 ^ 32)%N) by (rewrite <- sort_length, SC, numbers_length; exact L).
  assert (NU : numbered 0 (sort_by_value vals)) by (rewrite SC; apply numbers_numbered).
  destruct (C39_enum_partial fc flt flit c root x vals I D NV (counted_idents _ _ C Il) So NU LV) as (root1 & root' & D1 & R1 & _ & T).
  exists vals, root'. split; [exact C|]. split; [exact T|]. intros w1 w2 body G1 G2 ES.
  destruct (enum_sentence_of fc flt flit c [] (free_enum_text x w1 w2 body) root x vals) as (r1 & b & r & D2 & R2 & Se).
  - intros s. reflexivity.
  - intros w s W Sd. apply (ok_free_enum x w1 w2 l body); try assumption. rewrite SC. apply numbers_names.
  - reflexivity.
  - exact I.
  - exact NV.
  - exact (counted_idents _ _ C Il).
  - exact So.
  - exact NU.
  - exact LV.
  - rewrite D1 in D2. injection D2 as <-. rewrite R1 in R2. injection R2 as _ <-.
    pose proof (document_reads fc flt flit c "" [(free_enum_text x w1 w2 body, "")] root root') as DR. cbn [in_row] in DR. apply DR; [discriminate|blanks|]. econstructor; [exact Se|blanks|constructor].
Qed.

(** The cases of a union: however they are laid out, and whatever comments stand before, between and behind labels and members,
    the union is the same. *)
Theorem C85_cases_partial : forall fc flt flit c root x s disc body body' cs, usual c -> no_nulls root -> idents_only root [] ->
  free_name x = true -> declares root x [] = false -> switch_says (names_type root []) s disc ->
  switch_body_says root [] x disc (types_for root [] x) (sizes_for root [] x) body cs -> switch_body_says root [] x disc (types_for root [] x) (sizes_for root [] x) body' cs ->
  Forall (fun k => fresh_member root [] x (fst (snd k))) cs -> (2 <= List.length cs)%nat -> good_union disc cs ->
  exists root' u, parses fc flt flit c (union_text x s body ++ ";") root (Ok (true, root')) /\ parses fc flt flit c (union_text x s body' ++ ";") root (Ok (true, root')) /\
    names_type root' [] x u /\ case_members u = (UNION_DISCRIMINATOR, disc) :: map snd cs.
Proof.
  intros fc flt flit c root x s disc body body' cs U N IO FN D Sw C C' FM Two Gu. destruct (union_of_exact x disc cs Gu) as (u & S & B).
  destruct (free_union_sentence fc flt flit c [] root x s disc _ _ u U eq_refl N IO FN D Sw C FM Two S) as (root' & R & Se).
  destruct (free_union_sentence fc flt flit c [] root x s disc _ _ u U eq_refl N IO FN D Sw C' FM Two S) as (root2 & R2 & Se2). rewrite R in R2. injection R2 as <-.
  exists root', u. split; [apply sentence_document, Se|]. split; [apply sentence_document, Se2|]. split; [eapply registered_union; [exact D|apply free_name_ident, FN|exact B|exact R]|]. eapply built_cases, B.
Qed.

(** ** Where comments are not blanks *)
(** A tab (or a carriage return) in front of a comment: WS takes the tab and not the comment.  The comments of an indented
    text, or of a text whose lines end with CR LF and that has empty lines, make the whole text no IDL; written with spaces,
    or with LF, the same text declares the struct. *)
Definition TAB : string := String "009" "".
Definition EOL : string := String "013" NL.
Definition two_comments (indent : string) : string := indent ++ "// first" ++ NL ++ indent ++ "// second" ++ NL ++ "struct S { long a; };".
Definition three_comments (e : string) : string := "// first" ++ e ++ e ++ "// second" ++ e ++ e ++ "// third" ++ e ++ "struct S { long a; };".
Theorem C85_tab_refuted : forall fc flt flit, parses fc flt flit default_ctx (two_comments TAB) root_module (Ok (false, root_module)) /\
  exists root, parses fc flt flit default_ctx (two_comments " ") root_module (Ok (true, root)) /\ declares root "S" [] = true.
Proof. intros fc flt flit. split; [|eexists; split]; [eapply (parses_at _ _ _ _ _ _ 600); [vm_compute; reflexivity|discriminate]|eapply (parses_at _ _ _ _ _ _ 600); [vm_compute; reflexivity|discriminate]|reflexivity]. Qed.
Theorem C85_carriage_return_refuted : forall fc flt flit, parses fc flt flit default_ctx (three_comments EOL) root_module (Ok (false, root_module)) /\
  exists root, parses fc flt flit default_ctx (three_comments NL) root_module (Ok (true, root)) /\ declares root "S" [] = true.
Proof. intros fc flt flit. split; [|eexists; split]; [eapply (parses_at _ _ _ _ _ _ 600); [vm_compute; reflexivity|discriminate]|eapply (parses_at _ _ _ _ _ _ 600); [vm_compute; reflexivity|discriminate]|reflexivity]. Qed.
(** A comment that ends with a backslash takes the next line with it: the struct on that line is not declared, and parse says
    that all went well. *)
Theorem C85_backslash_refuted : forall fc flt flit, exists root,
  parses fc flt flit default_ctx ("// see C:\idl\" ++ NL ++ "struct S { long a; };" ++ NL ++ "struct T { long a; };") root_module (Ok (true, root)) /\ declares root "S" [] = false /\ declares root "T" [] = true.
Proof. intros fc flt flit. eexists. split; [|split]; [eapply (parses_at _ _ _ _ _ _ 600); [vm_compute; reflexivity|discriminate]|reflexivity|reflexivity]. Qed.

Definition co_gap : string := " " ++ "// it's ""one"" \ two /* three" ++ NL ++ NL ++ "  /* four * // **/ " ++ String "009" "".
Definition co_row : list (string * string) := [("struct A", co_gap); ("union B", "// five" ++ EOL)].
(** case 1: // five <CR LF> long a;<comments>case 2:<comments>default: octet b;  *)
Definition co_cases : string := (co_gap ++ "case 1:" ++ ("// five" ++ EOL) ++ "long a;" ++ co_gap ++ "case 2:" ++ co_gap ++ "default: octet b;").
Example C85_cases_nontrivial : switch_body_says root_module [] "U" (TPrim PI32) (types_for root_module [] "U") (sizes_for root_module [] "U") co_cases
    [([1%Z], false, ("a", TPrim PI32)); ([2%Z], true, ("b", TPrim PU8))] /\
  good_union (TPrim PI32) [([1%Z], false, ("a", TPrim PI32)); ([2%Z], true, ("b", TPrim PU8))] /\ fresh_member root_module [] "U" "a" /\ fresh_member root_module [] "U" "b".
Proof.
  assert (F : forall z, (0 <= z <= 2)%Z -> fits PI32 z) by (intros z Hz; unfold fits, least, greatest, width; cbn; lia).
  assert (G : gap co_gap).
  { apply (gap_line " " " it's ""one"" \ two /* three" NL (NL ++ "  /* four * // **/ " ++ String "009" "")); [reflexivity|reflexivity|reflexivity|left; reflexivity|].
    apply (gap_block (NL ++ "  ") " four * // *" (" " ++ String "009" "")); [reflexivity|reflexivity|blanks]. }
  assert (G5 : gap ("// five" ++ EOL)) by (apply (gap_line "" " five" EOL ""); [reflexivity|reflexivity|reflexivity|right; reflexivity|blanks]).
  assert (LN : forall L z, (L = "1" /\ z = 1%Z) \/ (L = "2" /\ z = 2%Z) -> label_says root_module [] "U" (TPrim PI32) L z).
  { intros L z H. apply (lb_number _ _ _ _ PI32 L 10 z); [reflexivity|reflexivity| |apply F; destruct H as [[_ ->]|[_ ->]]; lia|destruct H as [[_ ->]|[_ ->]]; lia].
    destruct H as [[-> ->]|[-> ->]]; apply decimal_literal; reflexivity. }
  split; [|split; [|split]].
  - apply (switch_led _ _ _ _ _ _ co_gap _ _ G).
    refine (cs_more _ _ _ _ _ _ ("case 1:" ++ ("// five" ++ EOL)) [1%Z] false "" "long" (TPrim PI32) "a" "" [] co_gap _ _ (ls_label _ _ _ _ "1" 1 ("// five" ++ EOL) "" [] false (LN _ _ _) G5 _ (ls_none _ _ _ _)) _ (no_notes) (ts_base _ _ "long" PI32 _) (dims_none _ _) G _); [left; split; reflexivity|discriminate|discriminate|cbn; tauto|].
    refine (cs_more _ _ _ _ _ _ ("case 2:" ++ co_gap ++ "default: ") [2%Z] true "" "octet" (TPrim PU8) "b" "" [] "" "" [] (ls_label _ _ _ _ "2" 2 co_gap "default: " [] true (LN _ _ _) G _ (ls_default _ _ _ _ " " "" [] _ gap_space _ (ls_none _ _ _ _))) _ (no_notes) (ts_base _ _ "octet" PU8 _) (dims_none _ _) gap_none (cs_none _ _ _ _ _ _)); [right; split; reflexivity|discriminate|vm_compute; reflexivity|discriminate|discriminate|cbn; tauto].
  - split; [reflexivity|]. split; [|split; [|split]].
    + apply Forall_cons; [|apply Forall_cons; [|apply Forall_nil]]; (split; [|split; [discriminate|split; [|cbn; intros; try discriminate; exact I]]]); cbn; [left; discriminate| |left; discriminate|]; (apply Forall_cons; [|apply Forall_nil]); unfold label_allowed; cbn; repeat split; lia.
    + repeat constructor; cbn; intuition discriminate.
    + repeat constructor; cbn; intuition discriminate.
    + intros k k' I I'. cbn in I, I'. destruct I as [<-|[<-|[]]], I' as [<-|[<-|[]]]; cbn; intros; congruence.
  - split; [reflexivity|split; [discriminate|vm_compute; reflexivity]].
  - split; [reflexivity|split; [discriminate|vm_compute; reflexivity]].
Qed.
Example C85_nontrivial : forall fc flt flit, gap co_gap /\ gap ("// five" ++ EOL) /\
  (exists root, say fc [] co_row root_module root /\ parses fc flt flit default_ctx (co_gap ++ row_text co_row) root_module (Ok (true, root)) /\ declares root "A" [] = true /\ declares root "B" [] = true) /\
  good_spaced root_module "S" (SM "long" (TPrim PI32) ("a," ++ co_gap ++ "b[2]") [("a", []); ("b", [2%N])] co_gap) /\
  enumerators_say ["Red"; "Green"] ("Red" ++ co_gap ++ "," ++ ("// five" ++ EOL) ++ "Green" ++ co_gap).
Proof.
  intros fc flt flit.
  assert (G : gap co_gap).
  { apply (gap_line " " " it's ""one"" \ two /* three" NL (NL ++ "  /* four * // **/ " ++ String "009" "")); [reflexivity|reflexivity|reflexivity|left; reflexivity|].
    apply (gap_block (NL ++ "  ") " four * // *" (" " ++ String "009" "")); [reflexivity|reflexivity|blanks]. }
  assert (G5 : gap ("// five" ++ EOL)) by (apply (gap_line "" " five" EOL ""); [reflexivity|reflexivity|reflexivity|right; reflexivity|blanks]).
  split; [exact G|]. split; [exact G5|]. split.
  - set (r1 := snd (get (true, root_module) (call_register Structs (TStruct "A" 0 []) false root_module []))). set (r2 := snd (get (true, r1) (call_register Structs (TStruct "B" 0 []) false r1 []))).
    assert (S : say fc [] co_row root_module r2).
    { apply say_more with r1; [apply (say_forward fc [] "struct" "A"); [left; reflexivity|reflexivity|reflexivity|vm_compute; reflexivity]|exact G|].
      apply say_more with r2; [apply (say_forward fc [] "union" "B"); [right; reflexivity|reflexivity|reflexivity|vm_compute; reflexivity]|exact G5|constructor]. }
    exists r2. split; [exact S|]. split; [|split; vm_compute; reflexivity].
    apply C49_document_partial; [repeat split|apply flat_no_nulls|exact fresh_symbols|discriminate|exact G|exact S].
  - split; [split; [exact G|]; split; [apply ts_base; cbn; tauto|]; apply (names_more _ "a" "" [] co_gap ("b" ++ "[" ++ to_string 2 ++ "]" ++ "")); [apply dims_none|exact G|]; apply names_one, dims_more; [apply size_number; reflexivity|apply dims_none]|].
    apply enumerators_more; [reflexivity|exact G|exact G5|]. apply enumerators_one; [reflexivity|exact G].
Qed.

Print Assumptions C85_declarations_partial.
Print Assumptions C85_members_partial.
Print Assumptions C85_enumerators_partial.
Print Assumptions C85_cases_partial.
Print Assumptions C85_tab_refuted.
Print Assumptions C85_carriage_return_refuted.
Print Assumptions C85_backslash_refuted.
