(** Theorems about names that an IDL text declares again: C59. *)
From Verif Require Import Base Types TypeBuild Compat Mem MemSpec Hash MapOps Ops Module ModuleSpec ModuleFacts NumSpec IntSpec IntOps IdlLit IdlLitFacts IdlExpr IdlSpec Peg0 Grammar Peg PegRules IdlParse IdlParseFacts GenIdl GenSpec TypeText StructText StructRead GrowFacts DocFacts GenStruct AliasText EnumFacts EnumText GenText ModuleText ExprSpec ConstText DocSpec DocText BlankSpec FreeSpec TokenFacts FreeText FreeStruct FreeDecl DeclSpec DeclText UnionSpec UnionText UnionRead GenUnion RefuseText RefuseUnion PropParse PropExpr PropModule PropGen PropDoc PropDecl EnumSpec.
From Verif Require Import GapSpec GapText.
Local Open Scope string_scope.

Section Values.
  Variable fc : prim -> prim -> list N -> list N.
  Variable flt : arith -> prim -> list N -> list N -> list N.
  Variable flit : prim -> string -> res (list N).
  Variable c : ctx.
  Hypothesis U : usual c.
  Notation parses := (parses fc flt flit c).
  Notation outcome := (outcome fc flt flit c []).
  (** The declarations [l] come first: they turn [root] into [known]. *)
  Variables (w : string) (l : list (string * string)) (root known : modl).
  Hypothesis W : gap w.
  Hypothesis N : no_nulls root.
  Hypothesis IS : ident_symbols root.
  Hypothesis L : say fc [] l root known.

  Lemma first_declarations : sentences fc flt flit c [] l root known /\ tidy known.
  Proof. destruct (say_reads fc flt flit c U [] l root known L (conj N IS) eq_refl) as [[A _] B]. split; [exact B|exact A]. Qed.
  Lemma known_idents : idents_only known [].
  Proof. apply tidy_idents, first_declarations. Qed.
  Lemma then_refused : forall core w' e, gap w' -> outcome core known (Fail e) -> parses (w ++ row_text l ++ core ++ ";" ++ w') root (Fail e).
  Proof. intros core w' e W' O. rewrite row_in_row. apply (document_refused fc flt flit c w l root known core w' e W (proj1 first_declarations) O W'). Qed.
  Lemma sentences_snoc : forall l0 r r1 core w' r2, sentences fc flt flit c [] l0 r r1 -> sentence fc flt flit c [] core r1 r2 -> gap w' -> sentences fc flt flit c [] (l0 ++ [(core, w')]) r r2.
  Proof. intros l0 r r1 core w' r2 H S W'. induction H as [r|core0 w0 l0 r r0 r1 H0 W0 H IH]; [econstructor; [exact S|exact W'|constructor]|]. cbn [app]. econstructor; [exact H0|exact W0|apply IH, S]. Qed.
  Lemma in_row_snoc : forall (l0 : list (string * string)) core w', in_row (l0 ++ [(core, w')])%list "" = in_row l0 (core ++ ";" ++ w').
  Proof. induction l0 as [|[a b] l0 IH]; intros core w'; cbn [app in_row]; [rewrite app_nil_s; reflexivity|rewrite IH; reflexivity]. Qed.
  Lemma then_done : forall core w' root', gap w' -> sentence fc flt flit c [] core known root' -> parses (w ++ row_text l ++ core ++ ";" ++ w') root (Ok (true, root')).
  Proof.
    intros core w' root' W' O. rewrite row_in_row, <- in_row_snoc. apply (document_reads fc flt flit c w (l ++ [(core, w')]) root root'); [destruct l; discriminate|exact W|]. eapply sentences_snoc; [apply first_declarations|exact O|exact W'].
  Qed.

  (** A struct that has members is defined again: refused; with ignore_redefinition nothing happens. *)
Theorem C59_struct : forall x old pn bt body ms w', gap w' -> free_name x = true -> entry known [] Structs x = Some old -> members_of old <> [] ->
    body_says (names_type known []) (names_size known []) body ms -> Forall (fun m => fresh_member known [] x (fst m)) ms -> NoDup (map fst ms) -> parent_named known [] pn bt ->
    parses (w ++ row_text l ++ struct_text x pn body ++ ";" ++ w') root (if ignore_redefinition c then Ok (true, known) else Fail Throw).
  Proof.
    intros x old pn bt body ms w' W' FN EN NE M FM ND PN. pose proof (struct_again fc flt flit c known x old pn bt body ms U known_idents FN EN NE M FM ND PN) as O.
    destruct (ignore_redefinition c); [apply then_done; [exact W'|apply outcome_sentence, O]|apply then_refused; assumption].
  Qed.
  (** A typedef of a name that is declared in any way. *)
Theorem C59_typedef : forall x s t ds w', gap w' -> plain_name x = true -> declares known x [] = true ->
    type_says (names_type known []) (names_size known []) s t -> Forall (fun d => d < 2 ^ 31)%N ds ->
    ignore_redefinition c = false -> parses (w ++ row_text l ++ typedef_text s x (dims_idl ds) ++ ";" ++ w') root (Fail Throw).
  Proof. intros x s t ds w' W' PN D H L' IR. apply then_refused; [exact W'|]. eapply alias_again; try eassumption; [reflexivity|exact known_idents|rewrite symbol_declares; exact D]. Qed.
  (** With ignore_redefinition a typedef keeps its type. *)
Theorem C59_typedef_ignored : forall x old s t ds w', gap w' -> plain_name x = true -> entry known [] Aliases x = Some old ->
    type_says (names_type known []) (names_size known []) s t -> Forall (fun d => d < 2 ^ 31)%N ds ->
    ignore_redefinition c = true -> parses (w ++ row_text l ++ typedef_text s x (dims_idl ds) ++ ";" ++ w') root (Ok (true, known)).
  Proof.
    intros x old s t ds w' W' PN D H L' IR. apply then_done; [exact W'|]. apply outcome_sentence. eapply alias_ignored; try eassumption; [exact known_idents|]. unfold entry in D. cbn [get_table] in D. unfold mem. rewrite D. reflexivity.
  Qed.
  (** A declaration without a definition of a name that is declared in any way. *)
Theorem C59_forward : forall k x w', gap w' -> k = "struct" \/ k = "union" -> free_name x = true -> declares known x [] = true ->
    parses (w ++ row_text l ++ (k ++ " " ++ x) ++ ";" ++ w') root (Fail Throw).
  Proof. intros k x w' W' K FN D. apply then_refused; [exact W'|]. apply forward_again; [apply U|exact K|exact FN|rewrite symbol_declares; exact D]. Qed.
  (** A union with cases is defined again after the definition that turned [before] into [known]. *)
Theorem C59_union : forall g x disc cs before old g' disc' cs' u text w', gap w' -> no_nulls before -> ident_symbols before ->
    declared_by fc [] (DUnion g x disc cs) before known -> entry known [] Unions x = Some old -> (2 <= List.length (members_of old))%nat ->
    switchable (type_idl g' false) disc' -> named_in (type_idl g' false) known [] disc' ->
    (forall k, In k cs' -> case_fits (fun _ => type_idl g' false) before [] x disc' k /\ case_sorted disc' k) -> (2 <= List.length cs')%nat ->
    union_of x disc' cs' = Ok u -> union_idl g' 0 x u = Ok (text ++ ";" ++ NL) ->
    parses (w ++ row_text l ++ text ++ ";" ++ w') root (if ignore_redefinition c then Ok (true, known) else Fail Throw).
  Proof.
    intros g x disc cs before old g' disc' cs' u text w' W' NB IB DB EN Two' Sw Nd CF Two Uo Tx.
    inversion DB as [|? ? ? ? u1 ? ? PN D Sw1 Nd1 CF1 Two1 Uo1 R1| | | |]; subst.
    assert (T1 : tname u1 = x).
    { unfold union_of in Uo1. destruct (union_new x disc) as [v0|] eqn:V0; [|discriminate Uo1]. cbn [bind] in Uo1. unfold union_new in V0. destruct (check_discriminator disc); [|discriminate V0]. injection V0 as <-.
      match type of Uo1 with add_all ?t _ = _ => destruct (add_all_rename disc "" cs t u1 ltac:(repeat eexists) Uo1) as (_ & Q & _) end. exact Q. }
    assert (G : grows before [] x known).
    { pose proof R1 as R2. rewrite (register_union before [] x u1 eq_refl (plain_name_ident _ PN) T1 (declares_unions before x [] eq_refl D)) in R2. destruct (with_tables before [] _) as [r|] eqn:Wt in R2; [|discriminate R2]. injection R2 as ->. eapply grows_unions; [reflexivity|exact D|exact Wt]. }
    pose proof Uo as Uo'. unfold union_of in Uo. destruct (union_new x disc') as [u0|] eqn:U0; [|discriminate Uo]. clear Uo.
    destruct (union_again fc flt flit c 0 (case_name g') before known x old disc' cs' u0 U NB known_idents PN G EN Two' Sw Nd (fun k H => proj1 (CF k H)) Two U0) as (ks & PR & O).
    rewrite (union_idl_text (case_name g') before [] x g' 0 x disc' cs' ks u PR CF Uo') in Tx. assert (Q : union_core (case_name g') 0 x disc' ks ++ (";" ++ NL) = text ++ (";" ++ NL)) by (injection Tx as Tx; exact Tx). apply same_start in Q. subst text.
    destruct (ignore_redefinition c); [apply then_done; [exact W'|apply outcome_sentence, O]|apply then_refused; assumption].
  Qed.
  (** A constant keeps its value, in every context, without an error. *)
Theorem C59_const_kept : forall p x e ts s env z old w', gap w' -> int_kind p = true -> is_ident x = true -> idl_expr e ts -> text_of ts s -> sees known [] env ->
    evaluates p env e z -> right_safe p env e -> unary_safe p e -> consts_paired known -> const_entry known [] x = Some old ->
    parses (w ++ row_text l ++ ("const " ++ prim_idl p ++ " " ++ x ++ " = " ++ s) ++ ";" ++ w') root (Ok (true, known)).
  Proof.
    intros p x e ts s env z old w' W' Hk I De Tx Se Ev Rs Us CP CE.
    destruct (const_sentence fc flt flit c [] known env p x " " " " e ts s "" z eq_refl Hk I eq_refl eq_refl eq_refl De Tx Se Ev Rs Us) as (d & b & r & Hd & R & Sn).
    assert (r = known).
    { unfold call_create_constant in R. erewrite (on_tables_with bool known [] _ false) in R; [|reflexivity|].
      - rewrite with_tables_root in R. injection R as _ <-. reflexivity.
      - unfold create_constant. rewrite (ident_split x I). cbn [andb bind]. rewrite CP. unfold const_entry in CE. unfold mem. rewrite CE. reflexivity. }
    subst r. unfold const_core in Sn. rewrite app_nil_s in Sn. apply then_done; [exact W'|]. exact Sn.
  Qed.
  (** An enumeration stays as it is, and so do all types and constants; there is no error. *)
Theorem C59_enum_kept : forall x old vs w', gap w' -> is_ident x = true -> entry known [] Enums x = Some old -> vs <> [] -> Forall (fun e => is_ident e = true) vs -> NoDup vs -> (N.of_nat (List.length vs) <= 2 ^ 32)%N ->
    exists root', parses (w ++ row_text l ++ enum_text x vs ++ ";" ++ w') root (Ok (true, root')) /\
      (forall q k y, entry root' q k y = entry known q k y) /\ (forall q y d, const_entry known q y = Some d -> const_entry root' q y = Some d).
  Proof.
    intros x old vs w' W' I EN NE Il ND Ln. destruct (emplaced_spec (numbers 0 vs) []) as [So A]; [rewrite numbers_names; exact ND|reflexivity|exact Logic.I|]. set (vals := emplaced (numbers 0 vs) []) in *.
    assert (C : counted vs vals).
    { split; [exact So|]. intros e v. rewrite <- (N.sub_0_r v) at 2. assert (X : In (e, v) vals <-> assoc e vals = Some v) by (split; [apply in_assoc, sorted_names_nodup, So|apply assoc_in]). rewrite X, A. cbn [assoc].
      assert (Y : In (e, v) (numbers 0 vs) <-> assoc e (numbers 0 vs) = Some v) by (split; [apply in_assoc; rewrite numbers_names; exact ND|apply assoc_in]). rewrite numbers_in in Y.
      split; [intros H; apply Y; destruct (assoc e (numbers 0 vs)); congruence|]. intros H. assert (Z : assoc e (numbers 0 vs) = Some v) by (apply Y; split; [lia|exact H]). rewrite Z. reflexivity. }
    pose proof (sort_counted _ _ C) as SC.
    destruct (enum_sentence fc flt flit c [] 0 known x vals eq_refl I) as (root1 & b & root' & DE & R & Se).
    - intros E. destruct vs as [|e vs]; [congruence|]. destruct C as [_ C]. rewrite E in C. apply (proj2 (C e 0%N)). reflexivity.
    - eapply counted_idents; eassumption.
    - exact So.
    - rewrite SC. apply numbers_numbered.
    - rewrite <- sort_length, SC, numbers_length. exact Ln.
    - rewrite <- (enum_text_core _ _ _ C) in Se. exists root'. split; [apply then_done; [exact W'|exact Se]|].
      assert (G : forall es r r1, declare_enumerators fc [] es r = Ok r1 -> exists_module r [] = true -> Forall (fun e => is_ident (fst e) = true) es ->
        exists_module r1 [] = true /\ (forall q k y, entry r1 q k y = entry r q k y) /\ (forall q y d, const_entry r q y = Some d -> const_entry r1 q y = Some d)).
      { induction es as [|[e v] es IH]; intros r r1 H E F; [injection H as <-; auto|]. cbn [declare_enumerators] in H. destruct (result fc PU32 (int_bytes PU32 (Z.of_N v))) as [d|]; [|discriminate H]. cbn [bind] in H.
        destruct (call_create_constant fc e d false true r []) as [[b' r']|] eqn:CC; [|discriminate H]. cbn [bind snd] in H. inversion F as [|? ? Fe Fr]; subst.
        unfold call_create_constant in CC. apply on_tables_spec in CC as (E0 & tab' & FT & Rt). assert (E' : exists_module r' [] = true) by reflexivity.
        destruct (IH r' r1 H E' Fr) as (E1 & K1 & K2). split; [exact E1|].
        assert (X : forall q, tab_at r' q = if list_eq_dec string_dec q [] then tab' else tab_at r q) by (intros q; apply (retabled_tab _ _ _ _ _ E0 Rt)).
        cbn [fst] in Fe. unfold create_constant in FT. rewrite (ident_split e Fe) in FT. cbn [andb bind] in FT.
        assert (T : (forall k, get_table k tab' = get_table k (tab_at r [])) /\ (forall y dd, assoc y (consts (tab_at r [])) = Some dd -> assoc y (consts tab') = Some dd)).
        { destruct (mem e (const_types (tab_at r []))) eqn:Mt; [injection FT as <- <-; auto|]. destruct (new_data (d_type d)) as [t0|]; [|discriminate FT]. cbn [bind] in FT. destruct (assign_data fc t0 d) as [t1|]; [|discriminate FT]. cbn [bind] in FT.
          destruct (mem e (consts (tab_at r []))) eqn:Mc; [injection FT as <- <-; split; [intros []; reflexivity|auto]|]. destruct (copy_data fc t1) as [t2|]; [|discriminate FT]. cbn [bind] in FT. injection FT as <- <-. split; [intros []; reflexivity|]. cbn [consts].
          intros y dd Hy. rewrite emplace_assoc. destruct (String.eqb_spec y e) as [->|]; [|exact Hy]. unfold mem in Mc. rewrite Hy in Mc. discriminate Mc. }
        destruct T as [T1 T2]. split.
        - intros q k y. rewrite K1. unfold entry. rewrite X. destruct (list_eq_dec string_dec q []) as [->|]; [rewrite T1|]; reflexivity.
        - intros q y dd Hy. apply K2. unfold const_entry in *. rewrite X. destruct (list_eq_dec string_dec q []) as [->|]; [apply T2, Hy|exact Hy]. }
      assert (Fe : Forall (fun e => is_ident (fst e) = true) (numbers 0 vs)) by (rewrite Forall_forall in *; intros e He; apply Il; rewrite <- (numbers_names vs 0); apply in_map, He).
      rewrite SC in DE. destruct (G _ _ _ DE eq_refl Fe) as (_ & K1 & K2).
      assert (root' = root1).
      { unfold call_register in R. erewrite (on_tables_with bool root1 [] _ false) in R; [|reflexivity|].
        - rewrite with_tables_root in R. injection R as _ <-. reflexivity.
        - specialize (K1 [] Enums x). rewrite EN in K1. unfold entry in K1. cbn [get_table] in K1. unfold register. cbn [tname]. rewrite (ident_split x I). cbn [get_table set_table]. unfold emplace, mem. rewrite K1. cbn [negb]. destruct (tab_at root1 []); reflexivity. }
      subst root1. auto.
  Qed.
End Values.

(** ** An example *)
Definition rd_known : modl := Eval vm_compute in
  let r := snd (get (true, root_module) (call_register Structs (TStruct "A" 4 [("n", 0%N, TPrim PI32)]) false root_module [])) in
  snd (get (true, r) (call_create_alias None (TPrim PI32) "T" r [])).
Example C59_nontrivial : forall fc, usual default_ctx /\ no_nulls root_module /\ ident_symbols root_module /\
  say fc [] [(struct_text "A" None "long n; ", " "); (typedef_text "long" "T" "", " ")] root_module rd_known /\
  entry rd_known [] Structs "A" = Some (TStruct "A" 4 [("n", 0%N, TPrim PI32)]) /\ body_says (names_type rd_known []) (names_size rd_known []) "T b; " [("b", TAlias "T" (TPrim PI32))] /\
  fresh_member rd_known [] "A" "b" /\ entry rd_known [] Aliases "T" = Some (TAlias "T" (TPrim PI32)) /\ declares rd_known "A" [] = true.
Proof.
  intros fc. split; [repeat split|]. split; [apply flat_no_nulls|]. split; [exact fresh_symbols|]. split; [|split; [reflexivity|split; [|split; [repeat split; try reflexivity; discriminate|split; reflexivity]]]].
  - econstructor; [|blanks|econstructor; [|blanks|constructor]].
    + apply (say_struct fc [] "A" None None "long n; " [("n", TPrim PI32)] (TStruct "A" 4 [("n", 0%N, TPrim PI32)])); try reflexivity.
      * apply plain_body. refine (members_more _ _ "long" _ ("n" ++ "") [("n", [])] " " "" [] (ts_base _ _ "long" PI32 _) (names_one _ _ _ _ (dims_none _ _)) gap_space (members_none _ _)). cbn. tauto.
      * repeat constructor; discriminate.
      * repeat constructor. intros [].
    + apply (say_typedef fc [] "T" "long" (TPrim PI32) []); try reflexivity; [|constructor]. apply ts_base. cbn. tauto.
  - apply plain_body. refine (members_more _ _ "T" _ ("b" ++ "") [("b", [])] " " "" [] (ts_name _ _ "T" _ _ _) (names_one _ _ _ _ (dims_none _ _)) gap_space (members_none _ _)).
    + exists false, [], "T". split; [reflexivity|]. split; [repeat constructor; reflexivity|right; reflexivity].
    + exists 9%nat. reflexivity.
Qed.

Definition rd_u1 : string := "union U switch (uint32)" ++ NL ++ "{" ++ NL ++ "    case 1:" ++ NL ++ "        int32 a;" ++ NL ++ "    default:" ++ NL ++ "        double c;" ++ NL ++ "};" ++ NL.
Definition rd_u2 : string := "union U switch (int32)" ++ NL ++ "{" ++ NL ++ "    case 1:" ++ NL ++ "        string a;" ++ NL ++ "    case 2:" ++ NL ++ "        double b;" ++ NL ++ "};" ++ NL.
Example C59_union_nontrivial : forall fc flt flit, exists root, parses fc flt flit default_ctx rd_u1 root_module (Ok (true, root)) /\
  parses fc flt flit default_ctx (rd_u1 ++ rd_u2) root_module (Fail Throw) /\ parses fc flt flit (Ctx false false true AsChar false) (rd_u1 ++ rd_u2) root_module (Ok (true, root)).
Proof. intros fc flt flit. eexists. split; [parsed|]. split; parsed. Qed.

(** ** Refutations *)
Definition ignoring : ctx := Ctx false false true AsChar false.
(** An empty struct is defined again without an error; what was declared in between keeps the empty one. *)
Theorem C73_empty_refuted : forall fc flt flit, exists root, parses fc flt flit default_ctx "struct A { }; struct B { A a; }; struct A { long x; };" root_module (Ok (true, root)) /\
  entry root [] Structs "A" = Some (TStruct "A" 4 [("x", 0%N, TPrim PI32)]) /\ entry root [] Structs "B" = Some (TStruct "B" 0 [("a", 0%N, TStruct "A" 0 [])]).
Proof. intros fc flt flit. eexists. split; [parsed|]. split; reflexivity. Qed.
(** A struct, a union and an enumeration may all have the same name. *)
Theorem C73_kinds_refuted : forall fc flt flit, exists root s u e,
  parses fc flt flit default_ctx "struct A { long x; }; union A switch (long) { case 1: long y; case 2: long z; }; enum A { B };" root_module (Ok (true, root)) /\
  entry root [] Structs "A" = Some s /\ entry root [] Unions "A" = Some u /\ entry root [] Enums "A" = Some e.
Proof. intros fc flt flit. do 4 eexists. split; [parsed|]. repeat split. Qed.
(** An enumeration declared again: no error, but the new enumerators become constants. *)
Theorem C73_enum_refuted : forall fc flt flit, exists root d, parses fc flt flit default_ctx "enum E { A }; enum E { B };" root_module (Ok (true, root)) /\
  entry root [] Enums "E" = Some (TEnum "E" 4 [("A", 0%N)]) /\ const_entry root [] "B" = Some d.
Proof. intros fc flt flit. do 2 eexists. split; [parsed|]. split; reflexivity. Qed.
(** A constant declared again: no error. *)
Theorem C73_const_refuted : forall fc flt flit, exists root d, parses fc flt flit default_ctx "const long N = 1; const long N = 2;" root_module (Ok (true, root)) /\ const_entry root [] "N" = Some d /\ cast_string d = Ok "1".
Proof. intros fc flt flit. do 2 eexists. split; [parsed|]. split; [reflexivity|]. vm_compute. reflexivity. Qed.
(** A typedef in a module is refused if a module around it declares the name. *)
Theorem C73_inner_refuted : forall fc flt flit, parses fc flt flit default_ctx "struct A { long x; }; module M { typedef long A; };" root_module (Fail Throw).
Proof. intros fc flt flit. parsed. Qed.
(** With ignore_redefinition: a typedef of the name of a struct is not ignored, a declaration without definition is an error. *)
Theorem C73_ignored_refuted : forall fc flt flit, exists root, parses fc flt flit ignoring "struct A { long x; }; typedef long A;" root_module (Ok (true, root)) /\
  entry root [] Structs "A" = Some (TStruct "A" 4 [("x", 0%N, TPrim PI32)]) /\ entry root [] Aliases "A" = Some (TAlias "A" (TPrim PI32)) /\
  parses fc flt flit ignoring "struct A { long x; }; struct A;" root_module (Fail Throw).
Proof. intros fc flt flit. eexists. split; [parsed|]. split; [reflexivity|]. split; [reflexivity|]. parsed. Qed.

Print Assumptions C59_struct.
Print Assumptions C59_typedef.
Print Assumptions C59_typedef_ignored.
Print Assumptions C59_forward.
Print Assumptions C59_union.
Print Assumptions C59_const_kept.
Print Assumptions C59_enum_kept.
Print Assumptions C73_empty_refuted.
Print Assumptions C73_kinds_refuted.
Print Assumptions C73_enum_refuted.
Print Assumptions C73_const_refuted.
Print Assumptions C73_inner_refuted.
Print Assumptions C73_ignored_refuted.
