(** Theorems about annotations in IDL texts: C82. *)
From Verif Require Import Base Types TypeBuild Compat Mem MemSpec OpsSpec ValueSpec DataSpec Hash MapOps Ops Module ModuleSpec ModuleFacts NumSpec IntSpec IntOps IdlLit IdlLitFacts IdlExpr IdlSpec Peg0 Grammar Peg PegRules IdlParse IdlParseFacts GenIdl GenSpec ExprSpec DocSpec NoteSpec FreeSpec DeclSpec PropParse PropIdl PropGen PropDoc PropDecl TypeText StructText StructRead DocFacts GenStruct GenText ConstText FreeStruct FreeDecl TreeSpec PropForward.
From Verif Require Import GapSpec GapText.
Local Open Scope string_scope.

(** ** C82: annotations declare nothing *)
(** Declarations in a row, each with the annotations in front of it and the blanks behind it. *)
Definition noted_row : Type := list (string * string * string).
Definition without (l : noted_row) : list (string * string) := map (fun x => (snd (fst x), snd x)) l.
Definition with_notes (l : noted_row) : list (string * string) := map (fun x => (fst (fst x) ++ snd (fst x), snd x)) l.
(** Only structs, unions, enumerations and modules may be annotated. *)
Definition may_be_noted (x : string * string * string) : Prop := notes (fst (fst x)) /\ (fst (fst x) = "" \/ annotatable (snd (fst x))).
Lemma noted_says : forall fc p l root root', Forall may_be_noted l -> say fc p (without l) root root' -> say fc p (with_notes l) root root'.
Proof.
  intros fc p l. induction l as [|[[a s] w] l IH]; intros root root' F H; [exact H|]. inversion F as [|? ? [Na An] Fr]; subst. cbn [fst snd] in *. unfold without in H. cbn [map fst snd] in H.
  inversion H as [|? ? ? ? root1 ? Hs W Hl]; subst. cbn [with_notes map fst snd]. econstructor; [|exact W|apply IH; [exact Fr|exact Hl]].
  destruct An as [->|An]; [exact Hs|]. apply say_noted; assumption.
Qed.
(** The document with the annotations and the document without them do the same to the module. *)
Theorem C82_declarations_partial : forall fc flt flit c w l root root', usual c -> no_nulls root -> ident_symbols root -> l <> [] -> gap w ->
  Forall may_be_noted l -> say fc [] (without l) root root' ->
  parses fc flt flit c (w ++ row_text (without l)) root (Ok (true, root')) /\ parses fc flt flit c (w ++ row_text (with_notes l)) root (Ok (true, root')).
Proof.
  intros fc flt flit c w l root root' U N IS NE W F H. split; (eapply C49_document_partial; try eassumption); [destruct l; [congruence|discriminate]|destruct l; [congruence|discriminate]|apply noted_says; assumption].
Qed.
(** Members, each with the annotations in front of it: the text of the type and the type, the text of the declarators and the
    declarators. *)
Record noted_member : Type := NM { nm_notes : string; nm_text : string; nm_type : ty; nm_decls : string; nm_names : list (string * list N) }.
Fixpoint plain_members (l : list noted_member) : string := match l with [] => "" | m :: r => nm_text m ++ " " ++ nm_decls m ++ "; " ++ plain_members r end.
Fixpoint noted_members (l : list noted_member) : string := match l with [] => "" | m :: r => nm_notes m ++ nm_text m ++ " " ++ nm_decls m ++ "; " ++ noted_members r end.
Definition member_types (l : list noted_member) : list (string * ty) := List.concat (map (fun m => map (fun x => (fst x, array_of (nm_type m) (snd x))) (nm_names m)) l).
Definition good_member (root : modl) (x : string) (m : noted_member) : Prop :=
  notes (nm_notes m) /\ type_says (types_for root [] x) (sizes_for root [] x) (nm_text m) (nm_type m) /\ names_say (sizes_for root [] x) (nm_decls m) (nm_names m).
Theorem C82_members_partial : forall fc flt flit c root x pn bt l, usual c -> no_nulls root -> idents_only root [] ->
  free_name x = true -> declares root x [] = false -> Forall (good_member root x) l -> Forall (fun m => fresh_member root [] x (fst m)) (member_types l) ->
  base_named root [] x pn bt -> match bt with Some b => is_struct b = true | None => True end -> NoDup (map fst ((match bt with Some b => member_list b | None => [] end) ++ member_types l)) ->
  exists root' t, parses fc flt flit c (struct_text x pn (noted_members l) ++ ";") root (Ok (true, root')) /\ parses fc flt flit c (struct_text x pn (plain_members l) ++ ";") root (Ok (true, root')) /\
    names_struct root' [] x t /\ member_list t = ((match bt with Some b => member_list b | None => [] end) ++ member_types l)%list.
Proof.
  intros fc flt flit c root x pn bt l U N IO FN D G FM BN IS ND.
  assert (A : members_say (types_for root [] x) (sizes_for root [] x) (noted_members l) (member_types l)).
  { clear - G. induction G as [|m l (Hn & Ht & Hd) _ IH]; [constructor|]. cbn [noted_members]. unfold member_types. cbn [map List.concat]. apply (members_noted _ _ (nm_notes m) (nm_text m) (nm_type m) (nm_decls m) (nm_names m) " " _ _ Hn Ht Hd gap_space IH). }
  assert (B : members_say (types_for root [] x) (sizes_for root [] x) (plain_members l) (member_types l)).
  { clear - G. induction G as [|m l (Hn & Ht & Hd) _ IH]; [constructor|]. cbn [plain_members]. unfold member_types. cbn [map List.concat]. apply (members_more _ _ (nm_text m) (nm_type m) (nm_decls m) (nm_names m) " " _ _ Ht Hd gap_space IH). }
  destruct (struct_of_exact x bt (member_types l) IS ND) as (t & S & TS & ML).
  assert (ND' : NoDup (map fst (member_types l))) by (rewrite map_app in ND; clear - ND; induction (map fst (match bt with Some b => member_list b | None => [] end)) as [|a q IH]; [exact ND|]; apply IH; inversion ND; assumption).
  destruct (free_struct_sentence fc flt flit c [] root x pn bt _ _ t U eq_refl N IO FN D (plain_body _ _ _ _ A) FM ND' BN S) as (root' & R & Se).
  destruct (free_struct_sentence fc flt flit c [] root x pn bt _ _ t U eq_refl N IO FN D (plain_body _ _ _ _ B) FM ND' BN S) as (root2 & R2 & Se2). rewrite R in R2. injection R2 as <-.
  exists root', t.
  assert (P : forall body, sentence fc flt flit c [] (struct_text x pn body) root root' -> parses fc flt flit c (struct_text x pn body ++ ";") root (Ok (true, root'))).
  { intros body Sb. pose proof (document_reads fc flt flit c "" [(struct_text x pn body, "")] root root') as DR. cbn [in_row] in DR. apply DR; [discriminate|blanks|]. econstructor; [exact Sb|blanks|constructor]. }
  split; [apply P, Se|]. split; [apply P, Se2|]. split; [|exact ML].
  destruct (struct_of_members _ _ _ _ S) as [T _]. eapply registered_struct; [reflexivity|apply free_name_ident, FN|exact T|exact TS|apply declares_structs; [reflexivity|exact D]|exact R].
Qed.

(** ** What annotations do declare *)
(** The enumerator behind an annotation loses its name: the enumeration has an enumerator without name instead. *)
Theorem C82_enumerator_refuted : forall fc flt flit, exists root v,
  parses fc flt flit default_ctx "enum E { @value(3) A, B };" root_module (Ok (true, root)) /\ entry root [] Enums "E" = Some (TEnum "E" 4 v) /\
  List.map fst v = [""; "B"] /\ ~ In "A" (List.map fst v).
Proof. intros fc flt flit. do 2 eexists. split; [parsed|]. split; [vm_compute; reflexivity|]. split; [reflexivity|]. cbn. intros [H|[H|[]]]; discriminate H. Qed.
(** Two annotations, the first without parameters: the document is refused; the other way round it is read. *)
Theorem C82_two_refuted : forall fc flt flit,
  parses fc flt flit default_ctx "@final @nested struct S { long a; };" root_module (Ok (false, root_module)) /\
  parses fc flt flit default_ctx "struct S { @key @id(1) long a; };" root_module (Ok (false, root_module)) /\
  (exists root t, parses fc flt flit default_ctx "struct S { @id(1) @key long a; };" root_module (Ok (true, root)) /\ declared root "S" = Some t /\ member_list t = [("a", TPrim PI32)]).
Proof. intros fc flt flit. split; [parsed|]. split; [parsed|]. do 2 eexists. split; [parsed|]. split; vm_compute; reflexivity. Qed.
(** Annotations of typedefs, constants and discriminators are refused, and so are empty parentheses. *)
Theorem C82_elsewhere_refuted : forall fc flt flit text, In text
  ["@unit(""m"") typedef double Metres;"; "@verbatim(""c"") const long N = 1;"; "union U switch (@key long) { case 1: long a; };"; "@key() struct S { long a; };"; "enum E { @key A, B };"] ->
  parses fc flt flit default_ctx text root_module (Ok (false, root_module)).
Proof. intros fc flt flit text H. cbn [In] in H. repeat (destruct H as [<-|H]; [parsed|]). destruct H. Qed.

(** A document with annotations: in front of the struct, of the module and of a member. *)
Definition noted_struct : ty := Eval vm_compute in get (TPrim PBool) (struct_of "A" None [("id", TPrim PI32); ("b", TPrim PU8)]).
Definition noted_root1 : modl := Eval vm_compute in snd (get (true, root_module) (call_register Structs noted_struct false root_module [])).
Definition noted_document : noted_row := [("@topic(name=""T"", n = 2*5) @final ", "struct A { @key long id; octet b; }", " "); ("@a::b ", "struct F", "")].
Definition noted_root2 : modl := Eval vm_compute in snd (get (true, root_module) (call_register Structs (TStruct "F" 0 []) false noted_root1 [])).
Example C82_nontrivial : Forall may_be_noted noted_document /\ say (fun _ _ b => b) [] (without noted_document) root_module noted_root2 /\
  row_text (with_notes noted_document) = "@topic(name=""T"", n = 2*5) @final struct A { @key long id; octet b; }; @a::b struct F;" /\
  good_member root_module "A" (NM "@id(7) @key " "octet" (TPrim PU8) "a" [("a", [])]).
Proof.
  assert (L : forall s z, literal s 10 z -> value_text s).
  { intros s z H. apply (vt_expr (ELit s "") [KLit s ""]); [|constructor; econstructor; exact H]. unfold idl_expr. apply (derives_up 7); [lia|apply de_lit]. }
  assert (L2 : literal "2" 10 2) by (apply (decimal_literal "2"); reflexivity). assert (L5 : literal "5" 10 5) by (apply (decimal_literal "5"); reflexivity). assert (L7 : literal "7" 10 7) by (apply (decimal_literal "7"); reflexivity).
  assert (BN : forall T K x q, existsb (fun e => String.eqb x (fst e) && prim_eqb q (snd e)) base_names = true -> type_says T K x (TPrim q)).
  { intros T K x q H. apply existsb_exists in H as ([y r] & H & Q). apply andb_true_iff in Q as [Q Q']. apply String.eqb_eq in Q. cbn [fst snd] in *. subst y. assert (r = q) by (destruct r, q; try discriminate Q'; reflexivity). subst r. apply ts_base, H. }
  assert (K1 : notes "@key ") by (apply (note_bare false [] "key" " "); [repeat constructor|reflexivity|discriminate]).
  split; [|split; [|split; [reflexivity|]]].
  - constructor; [|constructor; [|constructor]]; (split; [|right]).
    + apply (note_with false [] "topic" "" "" "name=""T"", n = 2*5" "" " " "@final "); try reflexivity; [repeat constructor| |apply (note_bare false [] "final" " "); [repeat constructor|reflexivity|discriminate]].
      apply (ps_more "name=""T""" "" " " "n = 2*5"); try reflexivity; [apply (pt_named "name" "" "" """T"""); try reflexivity; apply (vt_string "T"); reflexivity|].
      apply ps_one. apply (pt_named "n" " " " " "2*5"); try reflexivity. apply (vt_expr (EBin Mul (ELit "2" "") (ELit "5" "")) [KLit "2" ""; KOp Mul; KLit "5" ""]).
      * unfold idl_expr. apply (derives_up 5); [cbn; lia|]. refine (de_bin Mul _ _ [_] [_] _ _); [apply (derives_up 2); [cbn; lia|apply de_lit]|apply (derives_up 1); [cbn; lia|apply de_lit]].
      * refine (to_more _ "2" "" _ _ (tt_lit _ _ _ L2) eq_refl _). refine (to_more _ "*" "" _ _ (tt_op Mul) eq_refl _). exact (to_one _ _ (tt_lit _ _ _ L5)).
    + eexists "struct", _. split; [left; reflexivity|reflexivity].
    + apply (note_bare false ["a"] "b" " "); [repeat constructor|reflexivity|discriminate].
    + eexists "struct", _. split; [left; reflexivity|reflexivity].
  - apply say_more with noted_root1; [|blanks|].
    + apply (say_struct _ [] "A" None None "@key long id; octet b; " [("id", TPrim PI32); ("b", TPrim PU8)] noted_struct); try reflexivity.
      * apply plain_body. refine (members_noted _ _ "@key " "long" (TPrim PI32) ("id" ++ "") [("id", [])] " " _ _ K1 (BN _ _ "long" PI32 eq_refl) (names_one _ _ _ _ (dims_none _ _)) gap_space _).
        exact (members_more _ _ "octet" (TPrim PU8) ("b" ++ "") [("b", [])] " " "" [] (BN _ _ "octet" PU8 eq_refl) (names_one _ _ _ _ (dims_none _ _)) gap_space (members_none _ _)).
      * repeat constructor; try reflexivity; discriminate.
      * repeat constructor; cbn; intuition discriminate.
    + apply say_more with noted_root2; [|blanks|constructor]. apply (say_forward _ [] "struct" "F"); try reflexivity. left; reflexivity.
  - split; [|split; [apply BN; reflexivity|exact (names_one _ "a" "" [] (dims_none _ _))]]. cbn [nm_notes]. apply (note_with false [] "id" "" "" "7" "" " " "@key "); try reflexivity; [repeat constructor|apply ps_one, pt_value, (L "7" 7%Z L7)|exact K1].
Qed.

Print Assumptions C82_declarations_partial.
Print Assumptions C82_members_partial.
Print Assumptions C82_enumerator_refuted.
Print Assumptions C82_two_refuted.
Print Assumptions C82_elsewhere_refuted.
