(** Theorems about unions as a user writes them: C49, C82. *)
From Verif Require Import Base Types TypeBuild Mem Hash MapOps Ops NumSpec IntSpec IntOps IdlLit IdlLitFacts IdlExpr IdlSpec ModuleSpec ModuleFacts Module DataSpec Peg0 Grammar Peg PegRules IdlParse IdlParseFacts GenIdl GenSpec StructRead GrowFacts DocFacts AliasText GenStruct GenText EnumText ExprSpec ExprText ConstText DocSpec UnionSpec UnionBuilt UnionRead GenUnion NoteSpec FreeSpec TokenFacts FreeText FreeStruct FreeDecl CaseSpec CaseText CaseBuilt CaseDecl DeclSpec PropParse PropModule PropGen PropIdl PropDoc PropDecl PropNote.
From Coq Require Import Sorting.
From Verif Require Import GapSpec GapText.
Local Open Scope string_scope.

Lemma sentence_document : forall fc flt flit c text root root', sentence fc flt flit c [] text root root' -> parses fc flt flit c (text ++ ";") root (Ok (true, root')).
Proof.
  intros fc flt flit c text root root' Se. pose proof (document_reads fc flt flit c "" [(text, "")] root root') as DR. cbn [in_row] in DR. apply DR; [discriminate|blanks|]. econstructor; [exact Se|blanks|constructor].
Qed.
Lemma registered_union : forall root x disc cs u root', declares root x [] = false -> is_ident x = true -> built disc x cs u -> call_register Unions u false root [] = Ok (true, root') -> names_type root' [] x u.
Proof.
  intros root x disc cs u root' D I B R. pose proof (declares_unions root x [] eq_refl D) as M. destruct B as [(s & ms & labels & d & -> & _) _ _ _]. rewrite register_union with (x := x) in R; [|reflexivity|exact I|reflexivity|exact M]. destruct (with_tables _ _ _) as [r|] eqn:W in R; [|discriminate R]. injection R as ->.
  destruct (with_tables_here root [] _ _ eq_refl W) as [Tb E']. apply type_here; [exact E'|exact I|]. rewrite Tb. unfold type_in. cbn [set_unions aliases unions rename scope scoped].
  assert (A : assoc x (aliases (tab_at root [])) = None).
  { unfold declares, has_symbol_here in D. cbn [mod_at] in D. rewrite !orb_false_iff in D. unfold mem in D. unfold tab_at. cbn [mod_at]. destruct (assoc x (aliases (m_tab root))); [decompose [and] D; congruence|reflexivity]. }
  rewrite A, (mem_emplace _ _ _ _ M). reflexivity.
Qed.
(** ** C49: unions *)
(** union x switch (type) { cases };  declares the union x: its discriminator has the type the text says, its members are
    those of the cases, in order, and every member has exactly the labels in front of it, and is the default one exactly if
    the word default is among them. *)
Theorem C49_union_partial : forall fc flt flit c root x s disc body cs, usual c -> no_nulls root -> idents_only root [] ->
  free_name x = true -> declares root x [] = false -> switch_says (names_type root []) s disc ->
  switch_body_says root [] x disc (types_for root [] x) (sizes_for root [] x) body cs -> Forall (fun k => fresh_member root [] x (fst (snd k))) cs -> (2 <= List.length cs)%nat -> good_union disc cs ->
  exists root' u, parses fc flt flit c (union_text x s body ++ ";") root (Ok (true, root')) /\ names_type root' [] x u /\
    case_members u = (UNION_DISCRIMINATOR, disc) :: map snd cs /\
    forall ls isd y t, In (ls, isd, (y, t)) cs -> StronglySorted Z.lt (get_labels u y) /\ (forall l, In l (get_labels u y) <-> In l ls) /\ is_default u y = Ok isd.
Proof.
  intros fc flt flit c root x s disc body cs U N IO FN D Sw C FM Two Gu. destruct (union_of_exact x disc cs Gu) as (u & S & B).
  destruct (free_union_sentence fc flt flit c [] root x s disc body cs u U eq_refl N IO FN D Sw C FM Two S) as (root' & R & Se). exists root', u.
  split; [apply sentence_document, Se|]. split; [eapply registered_union; [exact D|apply free_name_ident, FN|exact B|exact R]|]. split; [eapply built_cases, B|]. intros ls isd y t I. eapply built_labels; eassumption.
Qed.

(** ** C82: annotations of cases *)
(** A case: the text of the labels, the labels and whether default is among them, the annotations of the member, the texts of
    its type, name and dimensions, and what they say. *)
Record noted_case : Type := NC { nc_labels : string; nc_values : list Z; nc_default : bool; nc_notes : string; nc_text : string; nc_type : ty; nc_name : string; nc_dims : string; nc_sizes : list N }.
Fixpoint plain_body (l : list noted_case) : string := match l with [] => "" | k :: r => nc_labels k ++ nc_text k ++ " " ++ nc_name k ++ nc_dims k ++ ";" ++ NL ++ plain_body r end.
Fixpoint noted_body (l : list noted_case) : string := match l with [] => "" | k :: r => nc_labels k ++ nc_notes k ++ nc_text k ++ " " ++ nc_name k ++ nc_dims k ++ ";" ++ NL ++ noted_body r end.
Definition the_case (k : noted_case) : ucase := (nc_values k, nc_default k, (nc_name k, array_of (nc_type k) (nc_sizes k))).
Definition good_noted (root : modl) (x : string) (disc : ty) (k : noted_case) : Prop :=
  labels_say root [] x disc (nc_labels k) (nc_values k) (nc_default k) /\ nc_labels k <> "" /\ notes (nc_notes k) /\ type_says (types_for root [] x) (sizes_for root [] x) (nc_text k) (nc_type k) /\
  dims_say (sizes_for root [] x) (2 ^ 32) (nc_dims k) (nc_sizes k).
(** The union with annotations in front of the members of its cases and the union without them are the same. *)
Theorem C82_cases_partial : forall fc flt flit c root x s disc l, usual c -> no_nulls root -> idents_only root [] ->
  free_name x = true -> declares root x [] = false -> switch_says (names_type root []) s disc ->
  Forall (good_noted root x disc) l -> Forall (fun k => fresh_member root [] x (nc_name k)) l -> (2 <= List.length l)%nat -> good_union disc (map the_case l) ->
  exists root' u, parses fc flt flit c (union_text x s (NL ++ noted_body l) ++ ";") root (Ok (true, root')) /\ parses fc flt flit c (union_text x s (NL ++ plain_body l) ++ ";") root (Ok (true, root')) /\
    names_type root' [] x u /\ case_members u = (UNION_DISCRIMINATOR, disc) :: map (fun k => (nc_name k, array_of (nc_type k) (nc_sizes k))) l.
Proof.
  intros fc flt flit c root x s disc l U N IO FN D Sw G FM Two Gu. destruct (union_of_exact x disc _ Gu) as (u & S & B).
  assert (C1 : cases_say root [] x disc (types_for root [] x) (sizes_for root [] x) (noted_body l) (map the_case l)).
  { clear - G. induction G as [|k l (H1 & H2 & H3 & H4 & H5) _ IH]; [constructor|]. cbn [noted_body map]. apply cs_more; try assumption. apply gap_nl. }
  assert (C2 : cases_say root [] x disc (types_for root [] x) (sizes_for root [] x) (plain_body l) (map the_case l)).
  { clear - G. induction G as [|k l (H1 & H2 & H3 & H4 & H5) _ IH]; [constructor|]. cbn [plain_body map]. change (nc_labels k ++ nc_text k ++ " " ++ nc_name k ++ nc_dims k ++ ";" ++ NL ++ plain_body l) with (nc_labels k ++ "" ++ nc_text k ++ " " ++ nc_name k ++ nc_dims k ++ ";" ++ NL ++ plain_body l).
    apply cs_more; try assumption; [constructor|apply gap_nl]. }
  assert (FM' : Forall (fun k : ucase => fresh_member root [] x (fst (snd k))) (map the_case l)) by (apply Forall_map; exact FM).
  assert (Two' : (2 <= List.length (map the_case l))%nat) by (rewrite map_length; exact Two).
  destruct (free_union_sentence fc flt flit c [] root x s disc _ _ u U eq_refl N IO FN D Sw (switch_led _ _ _ _ _ _ NL _ _ gap_nl C1) FM' Two' S) as (root' & R & Se).
  destruct (free_union_sentence fc flt flit c [] root x s disc _ _ u U eq_refl N IO FN D Sw (switch_led _ _ _ _ _ _ NL _ _ gap_nl C2) FM' Two' S) as (root2 & R2 & Se2). rewrite R in R2. injection R2 as <-.
  exists root', u. split; [apply sentence_document, Se|]. split; [apply sentence_document, Se2|]. split; [eapply registered_union; [exact D|apply free_name_ident, FN|exact B|exact R]|].
  rewrite (built_cases _ _ _ _ B), map_map. reflexivity.
Qed.

(** A union with a label in base 16, a constant as a label, several labels, default and an annotated member. *)
Definition pc_cases : list noted_case :=
  [NC ("case 0x1F:" ++ NL ++ "case N:" ++ NL) [31; 5]%Z false "@id(7) @key " "long long" (TPrim PI64) "a" "" [];
   NC ("default:" ++ NL) [] true "" "sequence<octet, N>" (TSeq (TPrim PU8) 5) "b" "[2]" [2]%N].
Definition pc_cases_text : string := union_text "U" "unsigned short" (NL ++ noted_body pc_cases) ++ ";".
Example C49_union_nontrivial : pc_cases_text = "union U switch (unsigned short) {" ++ NL ++ "case 0x1F:" ++ NL ++ "case N:" ++ NL ++ "@id(7) @key long long a;" ++ NL ++ "default:" ++ NL ++ "sequence<octet, N> b[2];" ++ NL ++ "};" /\
  usual default_ctx /\ no_nulls de_r1 /\ idents_only de_r1 [] /\ free_name "U" = true /\ declares de_r1 "U" [] = false /\ switch_says (names_type de_r1 []) "unsigned short" (TPrim PU16) /\
  Forall (good_noted de_r1 "U" (TPrim PU16)) pc_cases /\ Forall (fun k => fresh_member de_r1 [] "U" (nc_name k)) pc_cases /\ good_union (TPrim PU16) (map the_case pc_cases).
Proof.
  destruct C48_nontrivial as (N & IO & _). split; [reflexivity|]. split; [repeat split|]. split; [exact N|]. split; [exact IO|]. split; [reflexivity|]. split; [vm_compute; reflexivity|].
  assert (BN : forall T K x q, existsb (fun e => String.eqb x (fst e) && prim_eqb q (snd e)) base_names = true -> type_says T K x (TPrim q)).
  { intros T K x q H. apply existsb_exists in H as ([y r] & H & Q). apply andb_true_iff in Q as [Q Q']. apply String.eqb_eq in Q. cbn [fst snd] in *. subst y. assert (r = q) by (destruct r, q; try discriminate Q'; reflexivity). subst r. apply ts_base, H. }
  split; [left; exists PU16; split; [cbn; tauto|split; reflexivity]|].
  assert (SN : sizes_for de_r1 [] "U" "N" 5%N).
  { split; [|intros abs qs _ _; reflexivity]. destruct de_stored as (d & Ed & Hd). exists 9%nat, d, PI32. split; [|split; [reflexivity|exact Hd]]. rewrite <- Ed. vm_compute. reflexivity. }
  assert (F : forall z, (0 <= z <= 60000)%Z -> fits PU16 z) by (intros z Hz; unfold fits, least, greatest, width; cbn; lia).
  assert (L7 : literal "7" 10 7) by (apply (decimal_literal "7"); reflexivity).
  split; [|split].
  - constructor; [|constructor; [|constructor]]; (split; [|split; [discriminate|split; [|split]]]); cbn [nc_labels nc_values nc_default nc_notes nc_text nc_type nc_dims nc_sizes].
    + refine (ls_label _ _ _ _ "0x1F" 31 NL ("case N:" ++ NL) [5%Z] false _ gap_nl _ (ls_label _ _ _ _ "N" 5 NL "" [] false _ gap_nl _ (ls_none _ _ _ _))); try discriminate.
      * apply (lb_number _ _ _ _ PU16 "0x1F" 16 31); [reflexivity|reflexivity| |apply F; lia|lia].
        apply (li_hex "x" "1F" 31); [|left; reflexivity]. change (numeral 16 (String "1" "" ++ String "F" "") (1 * 16 + 15)). apply nu_more; [apply nu_one| |]; try lia; [apply (dg_dec _ 1)|apply (dg_upper _ 5)]; try lia; reflexivity.
      * apply (lb_constant _ _ _ _ PU16 [] "N" 5%N); [reflexivity|reflexivity|repeat constructor|reflexivity|reflexivity|discriminate|exact SN|apply F; lia|reflexivity].
    + apply (note_with false [] "id" "" "" "7" "" " " "@key "); try reflexivity; [repeat constructor| |apply (note_bare false [] "key" " "); [repeat constructor|reflexivity|discriminate]].
      apply ps_one, pt_value, (vt_expr (ELit "7" "") [KLit "7" ""]); [|constructor; econstructor; exact L7]. unfold idl_expr. apply (derives_up 7); [lia|apply de_lit].
    + apply BN. reflexivity.
    + constructor.
    + apply (ls_default _ _ _ _ NL "" []); [vm_compute; reflexivity|apply gap_nl|discriminate|constructor].
    + constructor.
    + apply (ts_sequence_of _ _ "octet" (TPrim PU8) "N" 5%N); [apply BN; reflexivity|]. apply (size_constant _ _ false [] "N" 5%N); [reflexivity|repeat constructor|exact SN].
    + apply (dims_more _ _ "2" 2%N "" []); [apply (size_number _ _ 2%N); reflexivity|constructor].
  - repeat constructor; try reflexivity; discriminate.
  - split; [reflexivity|]. split; [|split; [|split]].
    + constructor; [|constructor; [|constructor]]; (split; [|split; [discriminate|split; [|cbn; intros; try discriminate; exact I]]]); cbn; [left; discriminate| |right; reflexivity|constructor].
      constructor; [|constructor; [|constructor]]; unfold label_allowed; cbn; repeat split; lia.
    + repeat constructor; cbn; intuition discriminate.
    + repeat constructor; cbn; intuition discriminate.
    + intros k k' I I'. cbn in I, I'. destruct I as [<-|[<-|[]]], I' as [<-|[<-|[]]]; cbn; intros; congruence.
Qed.

Print Assumptions C49_union_partial.
Print Assumptions C82_cases_partial.
