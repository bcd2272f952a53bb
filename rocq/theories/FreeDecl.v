(** The sentences of structs and aliases as a user writes them. *)
From Verif Require Import Base Types TypeBuild Mem Hash MapOps Ops IntOps ModuleSpec ModuleFacts Module IntSpec IntFacts Peg0 Grammar Peg PegFacts PegRules IdlParse IdlParseFacts GenIdl GenSpec TypeText StructText StructRead NumText IdlLitFacts IdlLit IdlExpr GrowFacts DocFacts GenStruct AliasText FreeSpec TokenFacts FreeText FreeStruct.
From Verif Require Import GapSpec GapText.
Local Open Scope string_scope.

Lemma scoped_path : forall s, plain_scoped s -> exists abs qs y, s = render abs qs y /\ ident_path qs y.
Proof. intros s (abs & qs & y & -> & I & _). exists abs, qs, y. split; [reflexivity|exact I]. Qed.
(** Names stay known when [x] is added to the module at [p]. *)
Lemma types_grow : forall root p x root1 s t, no_nulls root -> exists_module root p = true -> grows root p x root1 -> plain_scoped s -> types_for root p x s t -> names_type root1 p s t.
Proof.
  intros root p x root1 s t N E G P [H NH]. destruct (scoped_path s P) as (abs & qs & y & -> & I). eapply (grows_type root p x root1 p abs qs y t); try eassumption. intros ->. exact (NH abs qs eq_refl).
Qed.
Lemma sizes_grow : forall root p x root1 abs qs y b, no_nulls root -> exists_module root p = true -> grows root p x root1 -> ident_path qs y -> sizes_for root p x (render abs qs y) b -> names_size root1 p (render abs qs y) b.
Proof. intros root p x root1 abs qs y b N E G I [H NH]. eapply (grows_size root p x root1 p abs qs y b); try eassumption. intros ->. exact (NH abs qs eq_refl). Qed.
Lemma free_name_ident : forall x, free_name x = true -> is_ident x = true.
Proof. intros x H. apply andb_true_iff in H as [H _]. apply andb_true_iff in H as [H _]. exact H. Qed.
Lemma plain_of_name : forall x, plain_name x = true -> plain x = true.
Proof. intros x H. apply andb_true_iff in H as [H _]. exact H. Qed.
Lemma text_no_constr : forall T K s t w r, type_says T K s t -> follows w r -> no (Ref R_CONSTR_TYPE_DLC) (s ++ w ++ r).
Proof.
  intros T K s t w r H F. assert (FI : first_is id_char (w ++ r) = false) by apply (f_id _ _ F).
  destruct H as [s p H| |s b H| |b H|s t H|s t d b H D|k kt v vt H H'|k kt v vt d b H H' D|s t P H]; try (rewrite ?app_assoc_s; no_by_text).
  - unfold base_names in H. cbn [In] in H. repeat (destruct H as [H|H]; [injection H as <- <-; no_by_text|]). destruct H.
  - destruct P as ([] & qs & y & -> & _ & P); cbn [render]; [rewrite ?app_assoc_s; no_by_text|]. destruct P as [P|P]; [discriminate P|]. destruct (qualified_first qs y (w ++ r)) as (s' & -> & F'). apply no_constr_plain; [exact P|apply F', FI].
Qed.
Lemma dims_numbers : forall K ds, Forall (fun d => d < 2 ^ 31)%N ds -> dims_say K (2 ^ 32) (dims_idl ds) ds.
Proof. intros K ds H. induction H as [|d ds L _ IH]; [constructor|]. cbn [dims_idl]. apply dims_more; [apply size_number; lia|exact IH]. Qed.
Lemma array_base_of : forall t ds, is_array t = false -> array_base (array_of t ds) = t /\ array_dims (array_of t ds) = ds.
Proof. intros t ds H. induction ds as [|d ds [IH1 IH2]]; [cbn [array_of fold_right]; destruct (array_dims_nil t H); auto|]. cbn [array_of fold_right array_base array_dims mk_array]. split; [exact IH1|f_equal; exact IH2]. Qed.

Section Values.
  Variable fc : prim -> prim -> list N -> list N.
  Variable flt : arith -> prim -> list N -> list N -> list N.
  Variable flit : prim -> string -> res (list N).
  (** The definition of a struct, from a module where it is declared or not. *)
  Lemma free_struct_from : forall c p root root1 from x pn bt body ms t,
    usual c -> exists_module root p = true -> no_nulls root -> idents_only root p -> free_name x = true -> declares root x p = false ->
    call_register Structs (TStruct x 0 []) false root p = Ok (true, root1) -> from = root \/ from = root1 ->
    body_says (names_type root1 p) (names_size root1 p) body ms -> Forall (fun m => fresh_member root p x (fst m)) ms -> NoDup (map fst ms) ->
    match pn with Some b => exists abs qs y bt', b = render abs qs y /\ ident_path qs y /\ bt = Some bt' /\ names_struct root1 p b bt' | None => bt = None end -> struct_of x bt ms = Ok t ->
    exists root', call_register Structs t false root p = Ok (true, root') /\ sentence fc flt flit c p (struct_text x pn body) from root'.
  Proof.
    intros c p root root1 from x pn bt body ms t U E N IO PN D C1 Fr M FM ND BN S. pose proof U as (_ & _ & IC).
    pose proof (free_name_ident _ PN) as I. pose proof (declares_structs _ _ _ E D) as MS.
    assert (W1 : with_tables root p (set_structs (emplace x (TStruct (scoped (scope p) x) 0 []) (structs (tab_at root p))) (tab_at root p)) = Ok root1).
    { rewrite (register_new root p x (TStruct x 0 []) E I eq_refl MS) in C1. cbn [rename] in C1. destruct (with_tables root p _) as [r|]; [|discriminate C1]. injection C1 as ->. reflexivity. }
    pose proof (grows_structs _ _ _ _ _ E D W1) as G.
    assert (E1 : exists_module root1 p = true) by (rewrite (grows_exists _ _ _ _ p G); exact E).
    assert (CF : exists fresh, call_register Structs (TStruct x 0 []) false from p = Ok (fresh, root1)).
    { destruct Fr as [->| ->]; [exists true; exact C1|exists false]. unfold call_register. destruct (with_tables_here _ _ _ _ E W1) as [T1 _].
      erewrite (on_tables_with bool root1 p _ false); [|exact E1|].
      - rewrite (with_tables_twice _ _ _ _ _ W1), W1. reflexivity.
      - unfold register. cbn [tname]. rewrite (ident_split x I). cbn [get_table set_table rename]. rewrite T1. cbn [set_structs structs].
        assert (Mx : mem x (emplace x (TStruct (scoped (scope p) x) 0 []) (structs (tab_at root p))) = true) by (unfold mem; rewrite (mem_emplace _ x _ _ MS); reflexivity).
        rewrite Mx. cbn [negb]. unfold emplace at 1. rewrite Mx. reflexivity. }
    destruct CF as (fresh & CF).
    assert (KN : known_at (names_type root1 p) (names_size root1 p) root1 p) by (split; [exact E1|split; [eapply grows_idents; eauto|split; auto]]).
    assert (PM : Forall (fun m => plain (fst m) = true) ms) by (eapply Forall_impl; [|exact FM]; intros m [H _]; apply plain_of_name, H).
    assert (GP : good_parent pn).
    { destruct pn as [b|]; [|exact Logic.I]. destruct BN as (abs & qs & y & bt' & -> & IP & _). exists abs, qs, y. split; [reflexivity|exact IP]. }
    assert (EV : forall l, members_tree (names_type root1 p) (names_size root1 p) ms l -> eventually (fun n => ((0 < n)%nat /\ resolve_identifier n c from p x true = Ok x) /\
      (struct_parts n c p (map optimize l) (SA root1 x (match pn with Some b => b | None => "" end) []) = Ok (SA root1 x (match pn with Some b => b | None => "" end) ms)) /\
      match pn with Some b => b <> "" /\ exists q y bt', bt = Some bt' /\ lookup n Structs root1 p b = Ok (q, y, bt') | None => bt = None end)).
    { intros l T. apply ev_and; [apply ev_and; [exists 1%nat; intros; lia|apply name_resolves; [exact IC|exact PN|discriminate]]|apply ev_and].
      - apply (members_read _ _ c p root1 x _ ms l U KN T []); [|exact ND]. intros y Hy. apply in_map_iff in Hy as (m & <- & Hm). rewrite Forall_forall in FM. destruct (FM m Hm) as (P1 & P2 & P3).
        apply plain_resolves; [exact IC|exact P1|]. intros _. rewrite (grows_symbol _ _ _ _ _ _ G P2). exact P3.
      - destruct pn as [b|]; [|apply ev_const; exact BN]. destruct BN as (abs & qs & y & bt' & -> & IP & -> & (n0 & q & z & L)). apply ev_and; [apply ev_const, render_nonempty, IP|].
        eapply ev_impl; [|apply (ev_steady _ _ _ (steady_lookup Structs root1 p (render abs qs y)) (ex_intro _ n0 L)); discriminate]. intros n L'. cbv beta in L'. eauto. }
    assert (NIL : forall l, members_tree (names_type root1 p) (names_size root1 p) ms l -> map optimize l = [] -> ms = []) by (intros l T Q; destruct T; [reflexivity|discriminate Q]).
    assert (MT : exists root', call_register Structs t false root p = Ok (true, root')).
    { destruct (ok_struct_says _ _ x pn body ms "" "" I GP M PM gap_none eq_refl) as (l & _ & T). destruct (EV l T) as (n0 & EV0). destruct (EV0 n0 (le_n _)) as ((A1 & A2) & A3 & A4).
      destruct (struct_def_from n0 c p R_DEFINITION root from fresh x pn bt ms (map optimize l) t root1 A1 E I MS A2 C1 CF A3 (NIL l T) A4 S) as (root' & R & _). eauto. }
    destruct MT as (root' & R). exists root'. split; [exact R|]. constructor.
    - intros s. unfold struct_text. reflexivity.
    - intros w s W So. destruct (ok_struct_says _ _ x pn body ms w s I GP M PM W So) as (l & O & T). eexists. split; [exact O|].
      eapply ev_impl; [|exact (EV l T)]. intros n ((A1 & A2) & A3 & A4). rewrite optimize_struct.
      destruct (struct_def_from n c p R_DEFINITION root from fresh x pn bt ms (map optimize l) t root1 A1 E I MS A2 C1 CF A3 (NIL l T) A4 S) as (root2 & R2 & B).
      rewrite R in R2. injection R2 as <-. rewrite <- B. unfold struct_tree. destruct (parent_trees pn ++ map optimize l)%list; reflexivity.
  Qed.
  Lemma free_struct_sentence : forall c p root x pn bt body ms t,
    usual c -> exists_module root p = true -> no_nulls root -> idents_only root p -> free_name x = true -> declares root x p = false ->
    body_says (types_for root p x) (sizes_for root p x) body ms -> Forall (fun m => fresh_member root p x (fst m)) ms -> NoDup (map fst ms) -> base_named root p x pn bt -> struct_of x bt ms = Ok t ->
    exists root', call_register Structs t false root p = Ok (true, root') /\ sentence fc flt flit c p (struct_text x pn body) root root'.
  Proof.
    intros c p root x pn bt body ms t U E N IO PN D M0 FM ND BN S. pose proof (free_name_ident _ PN) as I. pose proof (declares_structs _ _ _ E D) as MS.
    destruct (with_tables_ok root p (set_structs (emplace x (TStruct (scoped (scope p) x) 0 []) (structs (tab_at root p))) (tab_at root p)) E) as (root1 & W1).
    assert (C1 : call_register Structs (TStruct x 0 []) false root p = Ok (true, root1)) by (rewrite (register_new root p x (TStruct x 0 []) E I eq_refl MS); cbn [rename]; rewrite W1; reflexivity).
    pose proof (grows_structs _ _ _ _ _ E D W1) as G.
    apply (free_struct_from c p root root1 root x pn bt body ms t); try assumption; [left; reflexivity| |].
    - eapply body_more_names; [| |exact M0]; [intros s u P H; eapply types_grow; eassumption|intros abs qs y b P H; eapply sizes_grow; eassumption].
    - destruct pn as [b|]; [|exact BN]. destruct BN as (abs & qs & y & bt' & -> & IP & NH & -> & H). exists abs, qs, y, bt'. split; [reflexivity|]. split; [exact IP|]. split; [reflexivity|].
      eapply (grows_struct root p x root1 p abs qs y bt' N G E IP); [intros ->; exact (NH abs qs eq_refl)|exact H].
  Qed.

  (** *** Forward declarations *)
  Lemma forward_sentence : forall c p root x k root', usual c -> exists_module root p = true -> k = "struct" \/ k = "union" -> free_name x = true -> has_symbol root p x = false ->
    call_register Structs (TStruct x 0 []) false root p = Ok (true, root') -> sentence fc flt flit c p (k ++ " " ++ x) root root'.
  Proof.
    intros c p root x k root' U E K PN H C. pose proof U as (_ & _ & IC). pose proof (free_name_ident _ PN) as I.
    assert (EV : eventually (fun n => resolve_identifier n c root p x false = Ok x)) by (apply name_resolves; [exact IC|exact PN|intros _; exact H]).
    assert (HH : forall m, mod_at root p = Some m -> has_symbol_here m x = false).
    { intros m M. destruct p as [|q o]; cbn [has_symbol] in H; rewrite M in H; apply orb_false_iff in H; tauto. }
    constructor.
    - intros s. destruct K as [->| ->]; reflexivity.
    - intros w s W So. destruct K as [->| ->].
      + eexists. split.
        * rewrite !app_assoc_s. eapply ok_ref_node; [|reflexivity|reflexivity]. cbn [gram]. apply ok_alt_l.
          refine (ok_seq _ _ _ [_] [] _ [] [] _ _ (ok_close_gap R_SEMICOLON ";" w s ltac:(kw) eq_refl W So)).
          apply ok_alt_r; [no_by_text|]. apply ok_alt_r; [no_by_text|]. apply ok_alt_l. eapply ok_ref_node; [|reflexivity|reflexivity]. cbn [gram]. apply ok_alt_l. eapply ok_ref_node; [|reflexivity|reflexivity]. cbn [gram].
          refine (ok_seq _ _ _ [] [] _ [_] [] _ (ok_star_end _ _ _) _); [no_by_text|]. apply ok_alt_l. eapply ok_ref_node; [|reflexivity|reflexivity]. cbn [gram].
          assert (KW : ok (Ref R_KW_STRUCT) ("struct" ++ " " ++ x ++ ";" ++ w ++ s) [] [] (x ++ ";" ++ w ++ s)) by (apply (ok_keyword R_KW_STRUCT "struct" "" " "); [kw|reflexivity|reflexivity|apply ident_solid, I|reflexivity]).
          apply ok_alt_r.
          -- apply no_ref. cbn [gram]. eapply no_seq_r; [exact KW|]. eapply no_seq_r; [apply ok_ident; [exact I|reflexivity]|]. eapply no_seq_r; [apply ok_opt_none; no_by_text|]. apply no_seq_l. no_by_text.
          -- eapply (ok_ref_token R_STRUCT_FORWARD_DCL _ _ x); [|reflexivity|reflexivity]. cbn [gram]. refine (ok_seq _ _ _ [] [] _ _ _ _ KW _). apply ok_tok. apply ok_ident; [exact I|reflexivity].
        * eapply ev_impl; [|exact EV]. intros n R. cbv beta in R. change (forward_dcl n c p (Ast R_DEFINITION R_STRUCT_FORWARD_DCL x []) root = Ok root').
          unfold forward_dcl. cbn [a_tok]. rewrite R. cbn [bind]. unfold exists_module in E. destruct (mod_at root p) as [m|] eqn:M; [|discriminate E]. rewrite (HH m eq_refl), C. reflexivity.
      + eexists. split.
        * rewrite !app_assoc_s. eapply ok_ref_node; [|reflexivity|reflexivity]. cbn [gram]. apply ok_alt_l.
          refine (ok_seq _ _ _ [_] [] _ [] [] _ _ (ok_close_gap R_SEMICOLON ";" w s ltac:(kw) eq_refl W So)).
          apply ok_alt_r; [no_by_text|]. apply ok_alt_r; [no_by_text|]. apply ok_alt_l. eapply ok_ref_node; [|reflexivity|reflexivity]. cbn [gram]. apply ok_alt_l. eapply ok_ref_node; [|reflexivity|reflexivity]. cbn [gram].
          refine (ok_seq _ _ _ [] [] _ [_] [] _ (ok_star_end _ _ _) _); [no_by_text|]. apply ok_alt_r; [no_by_text|]. apply ok_alt_l. eapply ok_ref_node; [|reflexivity|reflexivity]. cbn [gram].
          assert (KW : ok (Ref R_KW_UNION) ("union" ++ " " ++ x ++ ";" ++ w ++ s) [] [] (x ++ ";" ++ w ++ s)) by (apply (ok_keyword R_KW_UNION "union" "" " "); [kw|reflexivity|reflexivity|apply ident_solid, I|reflexivity]).
          apply ok_alt_r.
          -- apply no_ref. cbn [gram]. eapply no_seq_r; [exact KW|]. eapply no_seq_r; [apply ok_ident; [exact I|reflexivity]|]. apply no_seq_l. no_by_text.
          -- eapply (ok_ref_token R_UNION_FORWARD_DCL _ _ x); [|reflexivity|reflexivity]. cbn [gram]. refine (ok_seq _ _ _ [] [] _ _ _ _ KW _). apply ok_tok. apply ok_ident; [exact I|reflexivity].
        * eapply ev_impl; [|exact EV]. intros n R. cbv beta in R. change (forward_dcl n c p (Ast R_DEFINITION R_UNION_FORWARD_DCL x []) root = Ok root').
          unfold forward_dcl. cbn [a_tok]. rewrite R. cbn [bind]. unfold exists_module in E. destruct (mod_at root p) as [m|] eqn:M; [|discriminate E]. rewrite (HH m eq_refl), C. reflexivity.
  Qed.

  (** *** Aliases *)
  Lemma ok_alias_says : forall T K s t x ds w r, type_says T K s t -> plain x = true -> Forall (fun d => d < 2 ^ 31)%N ds -> gap w -> solid r ->
    exists a, ok (Ref R_DEFINITION) (typedef_text s x (dims_idl ds) ++ ";" ++ w ++ r) [alias_definition a x ds] [] r /\ means T K (optimize a) t.
  Proof.
    intros T K s t x ds w r H P L W S. pose proof (plain_ident _ P) as I.
    assert (En : ends " " (x ++ dims_idl ds ++ ";" ++ w ++ r)) by (apply plain_first; [exact P|destruct ds; reflexivity]).
    pose proof (e_follows _ _ En) as F. destruct (ok_says T K s t H " " _ En) as (a & w' & W' & O & D).
    exists a. split; [|exact D]. unfold typedef_text. rewrite !app_assoc_s. eapply ok_ref_node; [|reflexivity|reflexivity]. cbn [gram]. apply ok_alt_l.
    refine (ok_seq _ _ _ [_] [] _ [] [] _ _ (ok_close_gap R_SEMICOLON ";" w r ltac:(kw) eq_refl W S)).
    apply ok_alt_r; [no_by_text|]. apply ok_alt_r; [no_by_text|]. apply ok_alt_l.
    eapply ok_ref_node; [|reflexivity|reflexivity]. cbn [gram]. apply ok_alt_r; [no_by_text|]. apply ok_alt_r; [no_by_text|]. eapply ok_ref_node; [|reflexivity|reflexivity]. cbn [gram].
    refine (ok_seq _ _ _ [] [] _ [_] [] _ (ok_keyword R_KW_TYPEDEF "typedef" "" " " _ _ eq_refl eq_refl _ _) _); [kw|eapply says_solid, H|reflexivity|].
    eapply ok_ref_node; [|reflexivity|reflexivity]. cbn [gram].
    refine (ok_seq _ _ _ [a] [] _ [_] [] _ (ok_alt_r _ _ _ _ _ _ (text_no_constr _ _ _ _ _ _ H F) O) _).
    refine (ok_seq _ _ _ [] [] _ [_] [] _ (opt_ws w' _ _ _) _); [destruct W' as [->| ->]; reflexivity|apply ident_solid, I|].
    eapply ok_ref_node; [|reflexivity|reflexivity]. cbn [gram].
    assert (C : closes (";" ++ w ++ r)) by (constructor; reflexivity).
    refine (ok_seq _ _ _ [_] [] _ [] [] _ (ok_ref_node R_ANY_DECLARATOR _ _ _ _ _ eq_refl eq_refl) (ok_star_end _ _ _)).
    - cbn [gram]. apply (ok_declarator_alt Eps x ds _ I C).
    - apply no_seq_l. apply (no_punct R_COMMA "," "" (";" ++ w ++ r)); [kw|reflexivity|reflexivity|reflexivity].
  Qed.
  Lemma alias_says_reads : forall n c root p a x t ds, type_spec n c root p a = Ok t -> Forall (fun d => d < 2 ^ 31)%N ds ->
    resolve_identifier n c root p x (ignore_redefinition c) = Ok x -> resolve n root p x = Ok None ->
    alias_dcl n c p (alias_tree a x ds) root = (do r <- call_create_alias None (array_of t ds) x root p; Ok (snd r)).
  Proof.
    intros n c root p a x t ds D L R N. unfold alias_dcl, alias_tree. cbn [a_sub]. rewrite D. cbn [bind]. destruct ds as [|d ds].
    - cbn [optimized_declarator a_tag a_tok]. rewrite R. cbn [bind fst snd]. rewrite N. reflexivity.
    - cbn [optimized_declarator a_tag a_sub ident_node a_tok]. rewrite R. cbn [bind]. rewrite (dims_back (d :: ds) L). cbn [bind].
      rewrite (array_type_of t (d :: ds)); [|discriminate|eapply Forall_impl; [|exact L]; cbv beta; intros; lia]. cbn [bind fst snd]. rewrite N. reflexivity.
  Qed.
  Lemma free_alias_sentence : forall c p root x s t ds, usual c -> exists_module root p = true -> idents_only root p -> plain_name x = true -> has_symbol root p x = false ->
    type_says (names_type root p) (names_size root p) s t -> Forall (fun d => d < 2 ^ 31)%N ds ->
    exists root', call_create_alias None (array_of t ds) x root p = Ok (true, root') /\ sentence fc flt flit c p (typedef_text s x (dims_idl ds)) root root'.
  Proof.
    intros c p root x s t ds U E IO PN D H L. pose proof U as (_ & _ & IC). pose proof (plain_name_ident _ PN) as I.
    assert (CA : exists root', call_create_alias None (array_of t ds) x root p = Ok (true, root')).
    { unfold call_create_alias. cbn [found]. erewrite (on_tables_with bool root p _ true); [|exact E|].
      - match goal with |- context [with_tables _ _ ?tab] => destruct (with_tables_ok root p tab E) as (r & ->) end. exists r. reflexivity.
      - unfold create_alias. rewrite (ident_split x I).
        assert (M : mem x (aliases (tab_at root p)) = false).
        { rewrite has_symbol_enclosing in D. unfold exists_module in E. destruct (mod_at root p) as [m|] eqn:M; [|discriminate E]. destruct (enclosing (declares root x) p) eqn:En; [discriminate D|].
          pose proof (enclosing_spec (declares root x) p) as Sp. rewrite En in Sp. specialize (Sp p (ex_intro _ [] eq_refl)). unfold declares in Sp. rewrite M in Sp. unfold tab_at. rewrite M. unfold has_symbol_here in Sp. rewrite !orb_false_iff in Sp. tauto. }
        rewrite M. reflexivity. }
    destruct CA as (root' & CA). exists root'. split; [exact CA|]. constructor.
    - intros r. reflexivity.
    - intros w r W So. destruct (ok_alias_says _ _ s t x ds w r H (plain_of_name _ PN) L W So) as (a & O & Ra). eexists. split; [exact O|].
      assert (KN : known_at (names_type root p) (names_size root p) root p) by (split; [exact E|split; [exact IO|split; auto]]).
      assert (EV : eventually (fun n => type_spec n c root p (optimize a) = Ok t /\ resolve_identifier n c root p x (ignore_redefinition c) = Ok x /\ resolve n root p x = Ok None)).
      { apply ev_and; [exact (Ra c root p U KN)|apply ev_and; [apply plain_resolves; [exact IC|exact PN|intros _; exact D]|apply not_symbol_resolves; [exact E|apply ident_no_colon, I|exact D]]]. }
      eapply ev_impl; [|exact EV]. intros n (A1 & A2 & A3). rewrite optimize_alias. cbn [IdlParse.build alias_tree].
      change (alias_dcl n c p (alias_tree (optimize a) x ds) root = Ok root'). rewrite (alias_says_reads n c root p (optimize a) x t ds A1 L A2 A3), CA. reflexivity.
  Qed.
End Values.
