(** Documents that end with a sentence the parser refuses with an exception. *)
From Verif Require Import Base Types TypeBuild Mem Hash MapOps Ops IntOps ModuleSpec ModuleFacts Module IntSpec IntFacts Peg0 Grammar Peg PegFacts PegRules IdlParse IdlParseFacts GenIdl GenSpec TypeText StructText StructRead NumText IdlLitFacts IdlLit IdlExpr GrowFacts DocFacts GenStruct AliasText ModuleText DeclSpec FreeSpec TokenFacts FreeText FreeStruct FreeDecl.
From Verif Require Import GapSpec GapText.
Local Open Scope string_scope.

Section Values.
  Variable fc : prim -> prim -> list N -> list N.
  Variable flt : arith -> prim -> list N -> list N -> list N.
  Variable flit : prim -> string -> res (list N).
  Notation build := (build fc flt flit).
  Notation parse_idl := (parse_idl fc flt flit).
  Notation sentence := (sentence fc flt flit).
  Notation sentences := (sentences fc flt flit).
  Notation build_all := (build_all fc flt flit).
  (** The text [core] has the shape of a definition; [build] of it gives [r]. *)
  Record outcome (c : ctx) (p : place) (core : string) (root : modl) (r : res modl) : Prop := {
    o_solid : forall s, solid (core ++ s);
    o_reads : forall w s, gap w -> solid s -> exists d, ok (Ref R_DEFINITION) (core ++ ";" ++ w ++ s) [d] [] s /\ eventually (fun n => build n c p (optimize d) root = r) }.
  Lemma outcome_sentence : forall c p core root root', outcome c p core root (Ok root') -> sentence c p core root root'.
  Proof. intros c p core root root' [S R]. constructor; assumption. Qed.
  Lemma row_refused : forall c p l root root1 core w s e, sentences c p l root root1 -> outcome c p core root1 (Fail e) -> gap w -> solid s -> no (Ref R_DEFINITION) s ->
    exists d ds, ok (Ref R_DEFINITION) (in_row l (core ++ ";" ++ w ++ s)) [d] [] (match l with [] => s | (_, _) :: r => in_row r (core ++ ";" ++ w ++ s) end) /\
      ok (Star (Ref R_DEFINITION)) (match l with [] => s | (_, _) :: r => in_row r (core ++ ";" ++ w ++ s) end) ds [] s /\ eventually (fun n => build_all n c p (map optimize (d :: ds)) root = Fail e).
  Proof.
    intros c p l root root1 core w s e H O W So F. induction H as [root|core0 w0 l root root0 root1 H W0 HS IH].
    - destruct (o_reads _ _ _ _ _ O w s W So) as (d & Od & Bd). exists d, []. split; [exact Od|]. split; [apply ok_star_end, F|]. eapply ev_impl; [|exact Bd]. intros n B. cbv beta in B. cbn [map DocFacts.build_all]. rewrite B. reflexivity.
    - destruct (IH O) as (d & ds & Od & Os & B). assert (SR : solid (in_row l (core ++ ";" ++ w ++ s))) by (eapply row_solid; [exact HS|apply (o_solid _ _ _ _ _ O)]).
      destruct (s_reads _ _ _ _ _ _ _ _ H w0 (in_row l (core ++ ";" ++ w ++ s)) W0 SR) as (d0 & Od0 & Bd0). exists d0, (d :: ds). split; [exact Od0|]. split; [exact (ok_star_more _ _ [d] [] _ ds [] _ Od Os)|].
      eapply ev_impl; [|apply (ev_and _ _ Bd0 B)]. intros n [A1 A2]. change (map optimize (d0 :: d :: ds)) with (optimize d0 :: map optimize (d :: ds)). cbn [DocFacts.build_all]. rewrite A1. exact A2.
  Qed.
  (** The exception leaves parse. *)
  Lemma document_refused : forall c w l root root1 core w' e, gap w -> sentences c [] l root root1 -> outcome c [] core root1 (Fail e) -> gap w' ->
    eventually (fun n => parse_idl n c (w ++ in_row l (core ++ ";" ++ w')) root = Fail e).
  Proof.
    intros c w l root root1 core w' e W H O W'. destruct (row_refused _ _ _ _ _ _ w' "" e H O W' eq_refl no_definition_end) as (d & ds & Od & Os & B). rewrite app_nil_s in Od, Os.
    assert (D : ok (Ref R_DOCUMENT) (w ++ in_row l (core ++ ";" ++ w')) [Ast R_DOCUMENT R_DOCUMENT "" [Ast R_SPECIFICATION R_SPECIFICATION "" (d :: ds)]] [] "").
    { eapply ok_ref_node; [|reflexivity|reflexivity]. cbn [gram]. refine (ok_seq _ _ _ [] [] _ [_] [] _ (opt_gap w _ W _) _); [eapply row_solid; [exact H|apply (o_solid _ _ _ _ _ O)]|].
      refine (ok_seq _ _ _ [_] [] _ [] [] _ _ (opt_ws0 "" eq_refl)). eapply ok_ref_node; [|reflexivity|reflexivity]. cbn [gram]. exact (ok_plus _ _ [d] [] _ ds [] _ Od Os). }
    destruct D as (n0 & z & D).
    assert (P : eventually (fun n => parse_document n (w ++ in_row l (core ++ ";" ++ w')) = Some (Some (with_orig R_DOCUMENT (optimize (Ast R_SPECIFICATION R_SPECIFICATION "" (d :: ds))))))).
    { exists n0. intros n Ln. unfold parse_document. rewrite (peg_mono n0 n (Ref R_DOCUMENT) _ _ Ln D). rewrite optimize_one. reflexivity. }
    eapply ev_impl; [|apply (ev_and _ _ P B)]. intros n [A1 A2]. unfold IdlParse.parse_idl. rewrite A1, build_orig. destruct ds as [|d2 ds].
    - rewrite optimize_one, build_orig. cbn [map DocFacts.build_all] in A2. destruct (build n c [] (optimize d) root) as [r|e']; [discriminate A2|]. cbn [bind] in *. congruence.
    - change (optimize (Ast R_SPECIFICATION R_SPECIFICATION "" (d :: d2 :: ds))) with (Ast R_SPECIFICATION R_SPECIFICATION "" (map optimize (d :: d2 :: ds))). rewrite build_spec, A2. reflexivity.
  Qed.

  Lemma with_tables_root : forall root, with_tables root [] (tab_at root []) = Ok root.
  Proof. intros [nm tab inner]. reflexivity. Qed.
  Lemma set_structs_id : forall tab, set_structs (structs tab) tab = tab.
  Proof. intros []. reflexivity. Qed.
  Lemma register_known : forall root p x t, exists_module root p = true -> is_ident x = true -> tname t = x -> mem x (structs (tab_at root p)) = true ->
    call_register Structs t false root p = (do r <- with_tables root p (tab_at root p); Ok (false, r)).
  Proof.
    intros root p x t E I T M. unfold call_register. apply on_tables_with; [exact E|]. unfold register. rewrite T, (ident_split x I). cbn [get_table set_table]. rewrite M. unfold emplace. rewrite M, set_structs_id. reflexivity.
  Qed.

  (** A struct of that name is known and has members. *)
  Lemma struct_again : forall c root x old pn bt body ms,
    usual c -> idents_only root [] -> free_name x = true -> assoc x (structs (tab_at root [])) = Some old -> members_of old <> [] ->
    body_says (names_type root []) (names_size root []) body ms -> Forall (fun m => fresh_member root [] x (fst m)) ms -> NoDup (map fst ms) -> parent_named root [] pn bt ->
    outcome c [] (struct_text x pn body) root (if ignore_redefinition c then Ok root else Fail Throw).
  Proof.
    intros c root x old pn bt body ms U IO PN A0 NE M FM ND BN. pose proof U as (_ & _ & IC). pose proof (free_name_ident _ PN) as I.
    assert (MS : mem x (structs (tab_at root [])) = true) by (unfold mem; rewrite A0; reflexivity).
    assert (CF : call_register Structs (TStruct x 0 []) false root [] = Ok (false, root)) by (rewrite (register_known root [] x (TStruct x 0 []) eq_refl I eq_refl MS), with_tables_root; reflexivity).
    assert (KN : known_at (names_type root []) (names_size root []) root []) by (split; [reflexivity|split; [exact IO|split; auto]]).
    assert (PM : Forall (fun m => plain (fst m) = true) ms) by (eapply Forall_impl; [|exact FM]; intros m [H _]; apply plain_of_name, H).
    assert (GP : good_parent pn).
    { destruct pn as [b|]; [|exact Logic.I]. destruct BN as (abs & qs & y & bt' & -> & IP & _). exists abs, qs, y. split; [reflexivity|exact IP]. }
    assert (EV : forall l, members_tree (names_type root []) (names_size root []) ms l -> eventually (fun n => ((0 < n)%nat /\ resolve_identifier n c root [] x true = Ok x) /\
      (struct_parts n c [] (map optimize l) (SA root x (match pn with Some b => b | None => "" end) []) = Ok (SA root x (match pn with Some b => b | None => "" end) ms)) /\
      match pn with Some b => exists bt', find_in n root [] structs b = Ok (Some bt') | None => True end)).
    { intros l T. apply ev_and; [apply ev_and; [exists 1%nat; intros; lia|apply name_resolves; [exact IC|exact PN|discriminate]]|apply ev_and].
      - apply (members_read _ _ c [] root x _ ms l U KN T []); [|exact ND]. intros y Hy. apply in_map_iff in Hy as (m & <- & Hm). rewrite Forall_forall in FM. destruct (FM m Hm) as (P1 & P2 & P3).
        apply plain_resolves; [exact IC|exact P1|]. intros _. exact P3.
      - destruct pn as [b|]; [|apply ev_const; exact Logic.I]. destruct BN as (abs & qs & y & bt' & -> & IP & -> & (n0 & q & z & L)).
        eapply ev_impl; [|apply (ev_steady _ _ _ (steady_lookup Structs root [] (render abs qs y)) (ex_intro _ n0 L)); discriminate]. intros n L'. cbv beta in L'. exists bt'.
        unfold lookup in L'. unfold find_in. destruct (resolve n root [] (render abs qs y)) as [[[q' y']|]|e]; try discriminate L'. cbn [bind] in *.
        cbn [found]. unfold get_table in L'. destruct (assoc y' (structs (tab_at root q'))); [|discriminate L']. injection L' as _ _ ->. reflexivity. }
    constructor; [intros s; unfold struct_text; reflexivity|]. intros w s W So. destruct (ok_struct_says _ _ x pn body ms w s I GP M PM W So) as (l & O & T). eexists. split; [exact O|].
    eapply ev_impl; [|exact (EV l T)]. intros n ((A1 & A2) & A3 & A4). rewrite optimize_struct.
    assert (Dp : struct_parts n c [] (ident_node x :: parent_trees pn ++ map optimize l) (SA root "" "" []) = Ok (SA root x (match pn with Some b => b | None => "" end) ms)).
    { rewrite parts_ident by reflexivity. cbn [ident_node a_tok sa_root sa_parent sa_ms]. rewrite (declare_struct_ok _ _ _ _ _ _ _ A2 CF). cbn [bind fst snd]. destruct pn as [b|]; cbn [parent_trees app]; [|exact A3].
      rewrite parts_inherit by reflexivity. cbn [a_tok sa_root sa_name sa_ms]. destruct A4 as (bt' & ->). cbn [bind]. exact A3. }
    assert (L1 : lookup n Structs root [] x = Ok ([], x, old)) by (apply lookup_here; [exact A1|reflexivity|exact I|exact A0]).
    assert (X : struct_def n c [] (struct_tree R_DEFINITION x pn (map optimize l)) root = (if ignore_redefinition c then Ok root else Fail Throw)).
    { unfold struct_def, struct_tree. destruct (parent_trees pn ++ map optimize l)%list eqn:Q.
      - cbn [a_sub struct_parts bind sa_name a_tag a_tok sa_root sa_parent sa_ms]. change (String.eqb "" "" && rule_eqb R_IDENTIFIER R_IDENTIFIER)%bool with true. cbn iota.
        rewrite (declare_struct_ok _ _ _ _ _ _ _ A2 CF). cbn [bind fst snd sa_root sa_name]. rewrite L1. cbn [bind]. destruct (members_of old); [congruence|reflexivity].
      - cbn [a_sub]. rewrite Dp. cbn [bind sa_name a_tag]. replace (String.eqb x "" && rule_eqb R_STRUCT_DEF R_IDENTIFIER)%bool with false by (rewrite andb_false_r; reflexivity). cbn [bind sa_root sa_name]. rewrite L1. cbn [bind]. destruct (members_of old); [congruence|reflexivity]. }
    rewrite <- X. unfold struct_tree. destruct (parent_trees pn ++ map optimize l)%list; reflexivity.
  Qed.

  (** *** Typedefs of a name that is known *)
  Lemma known_resolves : forall c root p x, ignore_case c = false -> plain_name x = true -> has_symbol root p x = true -> eventually (fun n => resolve_identifier n c root p x false = Fail Throw).
  Proof.
    intros c root p x C P H. apply andb_true_iff in P as [P U]. eapply ev_impl; [|apply (plain_not_token c x C P)]. intros n T. cbv beta in T.
    unfold resolve_identifier. rewrite T. cbn [bind andb]. rewrite H. cbn [andb negb]. destruct x as [|a x]; [reflexivity|]. apply negb_true_iff in U. cbn [first_is] in U. destruct a as [[] [] [] [] [] [] [] []]; first [reflexivity|discriminate U].
  Qed.
  Lemma free_known_resolves : forall c root p x, ignore_case c = false -> free_name x = true -> has_symbol root p x = true -> eventually (fun n => resolve_identifier n c root p x false = Fail Throw).
  Proof.
    intros c root p x C P H. unfold free_name in P. apply andb_true_iff in P as [P U]. apply andb_true_iff in P as [I R]. apply negb_true_iff in U, R. eapply ev_impl; [|apply (token_exact c x C I)]. intros n T. cbv beta in T.
    unfold resolve_identifier. rewrite T, R. cbn [bind andb]. rewrite H. cbn [andb negb].
    destruct x as [|a x]; [reflexivity|]. cbn [first_is] in U. destruct a as [[] [] [] [] [] [] [] []]; first [reflexivity|discriminate U].
  Qed.
  Lemma alias_again : forall c p root x s t ds, usual c -> ignore_redefinition c = false -> exists_module root p = true -> idents_only root p -> plain_name x = true -> has_symbol root p x = true ->
    type_says (names_type root p) (names_size root p) s t -> Forall (fun d => d < 2 ^ 31)%N ds -> outcome c p (typedef_text s x (dims_idl ds)) root (Fail Throw).
  Proof.
    intros c p root x s t ds U IR E IO PN D H L. pose proof U as (_ & _ & IC). pose proof (plain_name_ident _ PN) as I.
    constructor; [intros r; reflexivity|]. intros w r W So. destruct (ok_alias_says _ _ s t x ds w r H (plain_of_name _ PN) L W So) as (a & O & Ra). eexists. split; [exact O|].
    assert (KN : known_at (names_type root p) (names_size root p) root p) by (split; [exact E|split; [exact IO|split; auto]]).
    eapply ev_impl; [|apply (ev_and _ _ (Ra c root p U KN) (known_resolves c root p x IC PN D))]. intros n [A1 A2]. rewrite optimize_alias. cbn [IdlParse.build alias_tree].
    change (alias_dcl n c p (alias_tree (optimize a) x ds) root = Fail Throw). unfold alias_dcl, alias_tree. cbn [a_sub]. rewrite A1. cbn [bind]. rewrite IR.
    destruct ds as [|d ds]; [cbn [optimized_declarator a_tag a_tok]|cbn [optimized_declarator a_tag a_sub ident_node a_tok]]; rewrite A2; reflexivity.
  Qed.
  (** With ignore_redefinition: an alias of that name keeps its type. *)
  Lemma alias_ignored : forall c root x s t ds, usual c -> ignore_redefinition c = true -> idents_only root [] -> plain_name x = true -> mem x (aliases (tab_at root [])) = true ->
    type_says (names_type root []) (names_size root []) s t -> Forall (fun d => d < 2 ^ 31)%N ds -> outcome c [] (typedef_text s x (dims_idl ds)) root (Ok root).
  Proof.
    intros c root x s t ds U IR IO PN D H L. pose proof U as (_ & _ & IC). pose proof (plain_name_ident _ PN) as I.
    constructor; [intros r; reflexivity|]. intros w r W So. destruct (ok_alias_says _ _ s t x ds w r H (plain_of_name _ PN) L W So) as (a & O & Ra). eexists. split; [exact O|].
    assert (KN : known_at (names_type root []) (names_size root []) root []) by (split; [reflexivity|split; [exact IO|split; auto]]).
    eapply ev_impl; [|apply (ev_and _ _ (Ra c root [] U KN) (ev_and _ _ (ev_and _ _ (plain_resolves c root [] x true IC PN ltac:(discriminate)) (ex_intro _ 1%nat (fun n Hn => Hn))) (ex_intro _ 0%nat (fun n Hn => Hn))))]. intros n [A1 [[A2 A3] _]]. rewrite optimize_alias. cbn [IdlParse.build alias_tree].
    assert (R : resolve n root [] x = Ok (Some ([], x))).
    { unfold resolve. destruct n as [|n]; [lia|]. cbn [resolve_scope]. cbn [mod_at negb andb]. rewrite (ident_split x I).
      assert (S : has_symbol_here root x = true) by (change (tab_at root []) with (m_tab root) in D; unfold has_symbol_here; rewrite D; rewrite ?orb_true_r; reflexivity).
      rewrite S. reflexivity. }
    assert (CA : call_create_alias (Some ([], x)) (array_of t ds) x root [] = Ok (false, root)).
    { unfold call_create_alias. erewrite (on_tables_with bool root [] _ false); [|reflexivity|].
      - rewrite with_tables_root. reflexivity.
      - unfold create_alias. rewrite (ident_split x I). unfold found. unfold mem in D. destruct (assoc x (aliases (tab_at root []))); [reflexivity|discriminate D]. }
    change (alias_dcl n c [] (alias_tree (optimize a) x ds) root = Ok root). unfold alias_dcl, alias_tree. cbn [a_sub]. rewrite A1. cbn [bind]. rewrite IR.
    destruct ds as [|d ds].
    - cbn [optimized_declarator a_tag a_tok]. rewrite A2. cbn [bind fst snd]. rewrite R. cbn [bind]. change (array_of t []) with t in CA. rewrite CA. reflexivity.
    - cbn [optimized_declarator a_tag a_sub ident_node a_tok]. rewrite A2. cbn [bind]. rewrite (dims_back (d :: ds) L). cbn [bind].
      rewrite (array_type_of t (d :: ds)); [|discriminate|eapply Forall_impl; [|exact L]; cbv beta; intros; lia]. cbn [bind fst snd]. rewrite R. cbn [bind]. rewrite CA. reflexivity.
  Qed.
  (** *** Forward declarations of a name that is known *)
  Lemma ok_forward : forall k x w s, k = "struct" \/ k = "union" -> is_ident x = true -> gap w -> solid s ->
    exists d g, ok (Ref R_DEFINITION) ((k ++ " " ++ x) ++ ";" ++ w ++ s) [d] [] s /\ optimize d = Ast R_DEFINITION g x [] /\ (g = R_STRUCT_FORWARD_DCL \/ g = R_UNION_FORWARD_DCL).
  Proof.
    intros k x w s K I W So. destruct K as [->| ->].
    - do 2 eexists. split; [|split].
      + rewrite !app_assoc_s. eapply ok_ref_node; [|reflexivity|reflexivity]. cbn [gram]. apply ok_alt_l.
        refine (ok_seq _ _ _ [_] [] _ [] [] _ _ (ok_close_gap R_SEMICOLON ";" w s ltac:(kw) eq_refl W So)).
        apply ok_alt_r; [no_by_text|]. apply ok_alt_r; [no_by_text|]. apply ok_alt_l. eapply ok_ref_node; [|reflexivity|reflexivity]. cbn [gram]. apply ok_alt_l. eapply ok_ref_node; [|reflexivity|reflexivity]. cbn [gram].
        refine (ok_seq _ _ _ [] [] _ [_] [] _ (ok_star_end _ _ _) _); [no_by_text|]. apply ok_alt_l. eapply ok_ref_node; [|reflexivity|reflexivity]. cbn [gram].
        assert (KW : ok (Ref R_KW_STRUCT) ("struct" ++ " " ++ x ++ ";" ++ w ++ s) [] [] (x ++ ";" ++ w ++ s)) by (apply (ok_keyword R_KW_STRUCT "struct" "" " "); [kw|reflexivity|reflexivity|apply ident_solid, I|reflexivity]).
        apply ok_alt_r.
        * apply no_ref. cbn [gram]. eapply no_seq_r; [exact KW|]. eapply no_seq_r; [apply ok_ident; [exact I|reflexivity]|]. eapply no_seq_r; [apply ok_opt_none; no_by_text|]. apply no_seq_l. no_by_text.
        * eapply (ok_ref_token R_STRUCT_FORWARD_DCL _ _ x); [|reflexivity|reflexivity]. cbn [gram]. refine (ok_seq _ _ _ [] [] _ _ _ _ KW _). apply ok_tok. apply ok_ident; [exact I|reflexivity].
      + reflexivity.
      + left. reflexivity.
    - do 2 eexists. split; [|split].
      + rewrite !app_assoc_s. eapply ok_ref_node; [|reflexivity|reflexivity]. cbn [gram]. apply ok_alt_l.
        refine (ok_seq _ _ _ [_] [] _ [] [] _ _ (ok_close_gap R_SEMICOLON ";" w s ltac:(kw) eq_refl W So)).
        apply ok_alt_r; [no_by_text|]. apply ok_alt_r; [no_by_text|]. apply ok_alt_l. eapply ok_ref_node; [|reflexivity|reflexivity]. cbn [gram]. apply ok_alt_l. eapply ok_ref_node; [|reflexivity|reflexivity]. cbn [gram].
        refine (ok_seq _ _ _ [] [] _ [_] [] _ (ok_star_end _ _ _) _); [no_by_text|]. apply ok_alt_r; [no_by_text|]. apply ok_alt_l. eapply ok_ref_node; [|reflexivity|reflexivity]. cbn [gram].
        assert (KW : ok (Ref R_KW_UNION) ("union" ++ " " ++ x ++ ";" ++ w ++ s) [] [] (x ++ ";" ++ w ++ s)) by (apply (ok_keyword R_KW_UNION "union" "" " "); [kw|reflexivity|reflexivity|apply ident_solid, I|reflexivity]).
        apply ok_alt_r.
        * apply no_ref. cbn [gram]. eapply no_seq_r; [exact KW|]. eapply no_seq_r; [apply ok_ident; [exact I|reflexivity]|]. apply no_seq_l. no_by_text.
        * eapply (ok_ref_token R_UNION_FORWARD_DCL _ _ x); [|reflexivity|reflexivity]. cbn [gram]. refine (ok_seq _ _ _ [] [] _ _ _ _ KW _). apply ok_tok. apply ok_ident; [exact I|reflexivity].
      + reflexivity.
      + right. reflexivity.
  Qed.
  Lemma forward_again : forall c p root x k, ignore_case c = false -> k = "struct" \/ k = "union" -> free_name x = true -> has_symbol root p x = true ->
    outcome c p (k ++ " " ++ x) root (Fail Throw).
  Proof.
    intros c p root x k IC K PN H. constructor; [intros s; destruct K as [->| ->]; reflexivity|]. intros w s W So.
    destruct (ok_forward k x w s K (free_name_ident _ PN) W So) as (d & g & O & Q & G). exists d. split; [exact O|]. rewrite Q.
    eapply ev_impl; [|apply (free_known_resolves c root p x IC PN H)]. intros n R. cbv beta in R.
    assert (X : forward_dcl n c p (Ast R_DEFINITION g x []) root = Fail Throw) by (unfold forward_dcl; cbn [a_tok]; rewrite R; reflexivity).
    destruct G as [->| ->]; exact X.
  Qed.
End Values.
