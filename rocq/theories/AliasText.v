(** The sentence of an alias declares the alias. *)
From Verif Require Import Base Types TypeBuild Mem Hash MapOps Ops IntOps ModuleSpec ModuleFacts Module DepTree Peg0 Grammar Peg PegFacts PegRules IdlParse IdlParseFacts GenIdl GenSpec TypeText StructText StructRead NumText IdlLitFacts IdlLit IdlExpr GrowFacts DocFacts GenStruct.
From Verif Require Import GapSpec GapText.
Local Open Scope string_scope.

Definition alias_core (name : ty -> string) (x : string) (t : ty) : string := "typedef " ++ type_text name (array_base t) ++ " " ++ x ++ dims_idl (array_dims t).
Lemma no_constr_plain : forall x s, plain x = true -> first_is id_char s = false -> no (Ref R_CONSTR_TYPE_DLC) (x ++ s).
Proof.
  intros x s P F. apply no_ref. cbn [gram]. eapply no_seq_r; [apply ok_star_end, no_annotation|no_words P F].
  pose proof (plain_ident _ P) as I. destruct x as [|c x]; [discriminate I|]. cbn [append first_is]. apply id_first_at. apply andb_true_iff in I as [I _]. exact I.
Qed.
Lemma no_constr : forall name t w s, readable name t -> follows w s -> no (Ref R_CONSTR_TYPE_DLC) (type_text name t ++ w ++ s).
Proof.
  intros name t w s R F. assert (FI : first_is id_char (w ++ s) = false) by apply (f_id _ _ F).
  assert (X : forall z, plain_scoped z -> no (Ref R_CONSTR_TYPE_DLC) (z ++ w ++ s)).
  { intros z ([] & qs & y & -> & _ & P); cbn [render]; [rewrite ?app_assoc_s; no_by_text|]. destruct P as [P|P]; [discriminate P|]. destruct (qualified_first qs y (w ++ s)) as (s' & -> & F'). apply no_constr_plain; [exact P|apply F', FI]. }
  destruct t as [p|nm sz vals|k b|nm c b|c b|k v b|k v|nm sz ms|nm sz ms ls dv iv d|nm a]; cbn [readable type_text] in *; try contradiction; try (apply X; exact R).
  - destruct p; no_by_text.
  - rewrite app_assoc_s. destruct k; no_by_text.
  - no_by_text.
  - no_by_text.
Qed.
Definition alias_definition (a : ast) (x : string) (ds : list N) : ast :=
  Ast R_DEFINITION R_DEFINITION "" [Ast R_TYPE_DCL R_TYPE_DCL "" [Ast R_TYPEDEF_DLC R_TYPEDEF_DLC "" [Ast R_TYPE_DECLARATOR R_TYPE_DECLARATOR ""
    [a; Ast R_ANY_DECLARATORS R_ANY_DECLARATORS "" [Ast R_ANY_DECLARATOR R_ANY_DECLARATOR "" [declarator_node x ds]]]]]].
Definition alias_tree (a : ast) (x : string) (ds : list N) : ast := Ast R_DEFINITION R_TYPE_DECLARATOR "" [a; optimized_declarator R_ANY_DECLARATORS x ds].
Lemma optimize_alias : forall a x ds, optimize (alias_definition a x ds) = alias_tree (optimize a) x ds.
Proof.
  intros a x ds. unfold alias_definition. rewrite !optimize_one, !with_orig_twice. unfold optimize at 1. fold optimize. cbn [map]. rewrite !optimize_one, !with_orig_twice, optimize_declarator. reflexivity.
Qed.
Lemma ok_alias : forall name x t w s, readable name (array_base t) -> is_ident x = true -> gap w -> solid s ->
  exists a, ok (Ref R_DEFINITION) (alias_core name x t ++ ";" ++ w ++ s) [alias_definition a x (array_dims t)] [] s /\ reads name (optimize a) (array_base t).
Proof.
  intros name x t w s R I W S. pose proof (follows_name x (dims_idl (array_dims t) ++ ";" ++ w ++ s) I) as F.
  destruct (ok_type name _ R " " _ F) as (a & w' & W' & O & D).
  exists a. split; [|exact D]. unfold alias_core. rewrite !app_assoc_s. eapply ok_ref_node; [|reflexivity|reflexivity]. cbn [gram]. apply ok_alt_l.
  refine (ok_seq _ _ _ [_] [] _ [] [] _ _ (ok_close_gap R_SEMICOLON ";" w s ltac:(kw) eq_refl W S)).
  apply ok_alt_r; [no_by_text|]. apply ok_alt_r; [no_by_text|]. apply ok_alt_l.
  eapply ok_ref_node; [|reflexivity|reflexivity]. cbn [gram]. apply ok_alt_r; [no_by_text|]. apply ok_alt_r; [no_by_text|]. eapply ok_ref_node; [|reflexivity|reflexivity]. cbn [gram].
  refine (ok_seq _ _ _ [] [] _ [_] [] _ (ok_keyword R_KW_TYPEDEF "typedef" "" " " _ _ eq_refl eq_refl _ _) _); [kw|apply text_solid, R|reflexivity|].
  eapply ok_ref_node; [|reflexivity|reflexivity]. cbn [gram].
  refine (ok_seq _ _ _ [a] [] _ [_] [] _ (ok_alt_r _ _ _ _ _ _ (no_constr _ _ _ _ R F) O) _).
  refine (ok_seq _ _ _ [] [] _ [_] [] _ (opt_ws w' _ _ _) _); [destruct W' as [->| ->]; reflexivity|apply ident_solid, I|].
  eapply ok_ref_node; [|reflexivity|reflexivity]. cbn [gram].
  assert (C : closes (";" ++ w ++ s)) by (constructor; reflexivity).
  refine (ok_seq _ _ _ [_] [] _ [] [] _ (ok_ref_node R_ANY_DECLARATOR _ _ _ _ _ eq_refl eq_refl) (ok_star_end _ _ _)).
  - cbn [gram]. apply (ok_declarator_alt Eps x (array_dims t) _ I C).
  - apply no_seq_l. apply (no_punct R_COMMA "," "" (";" ++ w ++ s)); [kw|reflexivity|reflexivity|reflexivity].
Qed.
Lemma dims_back : forall ds, Forall (fun d => d < 2 ^ 31)%N ds ->
  map_res (fun d => do z <- atoi (a_tok d); Ok (z mod 2 ^ 64)%Z) (map (fun d => Ast R_FIXED_ARRAY_SIZE R_INTEGER_LITERAL (to_string d) []) ds) = Ok (map Z.of_N ds).
Proof.
  induction ds as [|d ds IH]; intros H; [reflexivity|]. inversion H as [|? ? Hd Hr]; subst. cbn [map map_res a_tok]. rewrite atoi_to_string by exact Hd. cbn [bind].
  rewrite Z.mod_small by lia. rewrite (IH Hr). reflexivity.
Qed.
Lemma alias_reads : forall name n c root p a x t, reads name a (array_base t) -> char_translation c = AsChar -> wide16 c = false -> knows name n root p (array_base t) -> canonical t ->
  Forall (fun d => d < 2 ^ 31)%N (array_dims t) -> resolve_identifier n c root p x (ignore_redefinition c) = Ok x -> resolve n root p x = Ok None ->
  alias_dcl n c p (alias_tree a x (array_dims t)) root = (do r <- call_create_alias None t x root p; Ok (snd r)).
Proof.
  intros name n c root p a x t D C W K Cn L R N. unfold alias_dcl, alias_tree. cbn [a_sub]. rewrite (D n c root p C W K). cbn [bind]. destruct (is_array t) eqn:A.
  - pose proof (array_type_back t Cn A) as B. destruct (array_dims t) as [|d ds] eqn:E; [destruct t; discriminate|]. cbn [optimized_declarator a_tag a_sub ident_node a_tok]. rewrite R. cbn [bind].
    rewrite (dims_back (d :: ds) L). cbn [bind]. rewrite B. cbn [bind fst snd]. rewrite N. reflexivity.
  - destruct (array_dims_nil t A) as [-> ->]. cbn [optimized_declarator a_tag a_tok]. rewrite R. cbn [bind fst snd]. rewrite N. reflexivity.
Qed.
Lemma not_symbol_resolves : forall root p x, exists_module root p = true -> no_colon x = true -> has_symbol root p x = false -> eventually (fun n => resolve n root p x = Ok None).
Proof.
  intros root p x E C H. rewrite has_symbol_enclosing in H. unfold exists_module in E. destruct (mod_at root p) as [m|] eqn:M; [|discriminate E].
  destruct (plain_ends root x x C p m M true eq_refl) as (n & R). apply ev_steady; [apply steady_res| |discriminate]. exists n. unfold resolve. rewrite R.
  destruct (enclosing (declares root x) p); [discriminate H|reflexivity].
Qed.
Lemma ident_no_colon : forall x, is_ident x = true -> no_colon x = true.
Proof.
  intros x I. apply andb_true_iff in I as [_ I]. induction x as [|c x IH]; [reflexivity|]. cbn [all_chars no_colon] in *. apply andb_true_iff in I as [Ic I].
  pose proof (all_ascii (fun c => implb (id_char c) (negb (Ascii.eqb c ":"))) eq_refl c) as K. cbv beta in K. rewrite Ic in K. cbn [implb] in K. rewrite K. apply IH, I.
Qed.

Section Values.
  Variable fc : prim -> prim -> list N -> list N.
  Variable flt : arith -> prim -> list N -> list N -> list N.
  Variable flit : prim -> string -> res (list N).
  Lemma alias_sentence : forall c p name root x t, usual c -> exists_module root p = true -> idents_only root p -> plain_name x = true -> has_symbol root p x = false ->
    canonical t -> Forall (fun d => d < 2 ^ 31)%N (array_dims t) -> readable name (array_base t) -> named_in name root p (array_base t) ->
    exists root', call_create_alias None t x root p = Ok (true, root') /\ sentence fc flt flit c p (alias_core name x t) root root'.
  Proof.
    intros c p name root x t (CT & W16 & IC) E IO PN D Cn L R N. pose proof (plain_name_ident _ PN) as I.
    assert (CA : exists root', call_create_alias None t x root p = Ok (true, root')).
    { unfold call_create_alias. cbn [found]. erewrite (on_tables_with bool root p _ true); [|exact E|].
      - match goal with |- context [with_tables _ _ ?tab] => destruct (with_tables_ok root p tab E) as (r & ->) end. exists r. reflexivity.
      - unfold create_alias. rewrite (ident_split x I).
        assert (M : mem x (aliases (tab_at root p)) = false).
        { rewrite has_symbol_enclosing in D. unfold exists_module in E. destruct (mod_at root p) as [m|] eqn:M; [|discriminate E]. destruct (enclosing (declares root x) p) eqn:En; [discriminate D|].
          pose proof (enclosing_spec (declares root x) p) as Sp. rewrite En in Sp. specialize (Sp p (ex_intro _ [] eq_refl)). unfold declares in Sp. rewrite M in Sp. unfold tab_at. rewrite M. unfold has_symbol_here in Sp. rewrite !orb_false_iff in Sp. tauto. }
        rewrite M. reflexivity. }
    destruct CA as (root' & CA). exists root'. split; [exact CA|]. constructor.
    - intros s. reflexivity.
    - intros w s W So. destruct (ok_alias name x t w s R I W So) as (a & O & Ra). eexists. split; [exact O|].
      assert (EV : eventually (fun n => knows name n root p (array_base t) /\ resolve_identifier n c root p x (ignore_redefinition c) = Ok x /\ resolve n root p x = Ok None)).
      { apply ev_and; [apply knows_named; assumption|apply ev_and; [apply plain_resolves; [exact IC|exact PN|intros _; exact D]|apply not_symbol_resolves; [exact E|apply ident_no_colon, I|exact D]]]. }
      eapply ev_impl; [|exact EV]. intros n (A1 & A2 & A3). rewrite optimize_alias. cbn [IdlParse.build alias_tree]. 
      change (alias_dcl n c p (alias_tree (optimize a) x (array_dims t)) root = Ok root'). rewrite (alias_reads name n c root p (optimize a) x t Ra CT W16 A1 Cn L A2 A3), CA. reflexivity.
  Qed.
End Values.
