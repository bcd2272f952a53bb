(** The sentence of a struct declares the struct. *)
From Verif Require Import Base Types TypeBuild Mem Hash MapOps Ops IntOps ModuleSpec ModuleFacts Module DepTree Peg0 Grammar Peg PegFacts PegRules IdlParse IdlParseFacts GenIdl GenSpec TypeText StructText StructRead NumText IdlLitFacts IdlLit IdlExpr GrowFacts DocFacts.
From Verif Require Import GapSpec GapText.
Local Open Scope string_scope.

Lemma plain_name_ident : forall x, plain_name x = true -> is_ident x = true.
Proof. intros x H. apply andb_true_iff in H as [H _]. apply plain_ident, H. Qed.
Lemma declares_structs : forall root x p, exists_module root p = true -> declares root x p = false -> mem x (structs (tab_at root p)) = false.
Proof.
  intros root x p E D. unfold declares, exists_module, tab_at in *. destruct (mod_at root p) as [m|]; [|discriminate E]. unfold has_symbol_here in D. rewrite !orb_false_iff in D. tauto.
Qed.
Lemma grows_structs : forall root p x v root1, exists_module root p = true -> declares root x p = false ->
  with_tables root p (set_structs (emplace x v (structs (tab_at root p))) (tab_at root p)) = Ok root1 -> grows root p x root1.
Proof.
  intros root p x v root1 E D W. split; [exact E|]. split; [exact D|]. eexists. split; [eapply with_tables_retabled; eauto|].
  constructor; try (intros y NE; reflexivity). intros y NE. cbn [set_structs structs]. rewrite emplace_assoc. destruct (String.eqb_spec y x); [congruence|reflexivity].
Qed.
Lemma grows_idents : forall root p x root1, is_ident x = true -> grows root p x root1 -> idents_only root p -> idents_only root1 p.
Proof. intros root p x root1 I G O y H. destruct (string_dec y x) as [->|NE]; [exact I|]. rewrite (grows_symbol _ _ _ _ _ _ G NE) in H. apply O, H. Qed.
Lemma qualified_nonempty : forall qs y, ident_path qs y -> qualified qs y <> "".
Proof. intros qs y I. destruct qs as [|q qs]; inversion I as [|? ? H _]; subst; cbn [qualified]; [destruct y|destruct q]; discriminate H || discriminate. Qed.
Lemma render_nonempty : forall abs qs y, ident_path qs y -> render abs qs y <> "".
Proof. intros [] qs y I; [discriminate|apply qualified_nonempty, I]. Qed.

Section Values.
  Variable fc : prim -> prim -> list N -> list N.
  Variable flt : arith -> prim -> list N -> list N -> list N.
  Variable flit : prim -> string -> res (list N).
  Lemma struct_sentence : forall c p tabs name root x pn bt ms t,
    usual c -> exists_module root p = true -> no_nulls root -> idents_only root p -> plain_name x = true -> declares root x p = false ->
    (forall y mt, In (y, mt) ms -> member_fits (name mt) root p x y mt) -> NoDup (map fst ms) -> base_named root p x pn bt -> struct_of x bt ms = Ok t ->
    exists root', call_register Structs t false root p = Ok (true, root') /\ sentence fc flt flit c p (struct_core name tabs x pn ms) root root'.
  Proof.
    intros c p tabs name root x pn bt ms t (CT & W16 & IC) E N IO PN D M ND BN S.
    pose proof (plain_name_ident _ PN) as I. pose proof (declares_structs _ _ _ E D) as MS.
    destruct (with_tables_ok root p (set_structs (emplace x (TStruct (scoped (scope p) x) 0 []) (structs (tab_at root p))) (tab_at root p)) E) as (root1 & W1).
    assert (C1 : call_register Structs (TStruct x 0 []) false root p = Ok (true, root1)) by (rewrite (register_new root p x (TStruct x 0 []) E I eq_refl MS); cbn [rename]; rewrite W1; reflexivity).
    pose proof (grows_structs _ _ _ _ _ E D W1) as G.
    assert (E1 : exists_module root1 p = true) by (rewrite (grows_exists _ _ _ _ p G); exact E).
    assert (GM : Forall (good_member name) ms).
    { apply Forall_forall. intros [y mt] Hi. destruct (M y mt Hi). split; [apply plain_name_ident; assumption|assumption]. }
    assert (GP : good_parent pn).
    { destruct pn as [b|]; [|exact Logic.I]. destruct BN as (abs & qs & y & bt' & -> & IP & _). exists abs, qs, y. split; [reflexivity|exact IP]. }
    (* what is true from some fuel on *)
    assert (EV : eventually (fun n => ((0 < n)%nat /\ resolve_identifier n c root p x true = Ok x) /\
      (forall m, In m ms -> knows (name (snd m)) n root1 p (array_base (snd m)) /\ canonical (snd m) /\ resolve_identifier n c root1 p (fst m) false = Ok (fst m)) /\
      match pn with Some b => b <> "" /\ exists q y bt', bt = Some bt' /\ lookup n Structs root1 p b = Ok (q, y, bt') | None => bt = None end)).
    { apply ev_and; [apply ev_and; [exists 1%nat; intros; lia|apply plain_resolves; [exact IC|exact PN|discriminate]]|apply ev_and].
      - apply (ev_all _ (fun m n => knows (name (snd m)) n root1 p (array_base (snd m)) /\ canonical (snd m) /\ resolve_identifier n c root1 p (fst m) false = Ok (fst m))).
        intros [y mt] Hi. destruct (M y mt Hi) as [P1 P2 P3 P4 P5 P6 P7]. cbn [fst snd]. apply ev_and; [|apply ev_and; [apply ev_const, P4|]].
        + apply knows_named; [exact E1|eapply grows_idents; eauto| |exact P5]. eapply (grows_named (name mt) root p x root1); eauto.
        + apply plain_resolves; [exact IC|exact P1|]. intros _. rewrite (grows_symbol _ _ _ _ _ _ G P2). exact P3.
      - destruct pn as [b|]; [|apply ev_const; exact BN]. destruct BN as (abs & qs & y & bt' & -> & IP & NH & -> & H). apply ev_and; [apply ev_const, render_nonempty, IP|].
        destruct (grows_struct root p x root1 p abs qs y bt' N G E IP) as (n0 & q & z & L); [intros ->; exact (NH abs qs eq_refl)|exact H|].
        eapply ev_impl; [|apply (ev_steady _ _ _ (steady_lookup Structs root1 p (render abs qs y)) (ex_intro _ n0 L)); discriminate]. intros n L'. cbv beta in L'. eauto. }
    destruct (struct_of x bt ms) as [t0|] eqn:S0; [|discriminate S]. injection S as ->.
    assert (MT : exists root', call_register Structs t false root p = Ok (true, root')).
    { destruct EV as (n0 & EV). destruct (EV n0 (le_n _)) as ((A1 & A2) & A3 & A4).
      destruct (ok_struct_definition name tabs x pn ms "" "" I GP GM gap_none eq_refl) as (l & _ & T).
      destruct (struct_def_reads name n0 c p R_DEFINITION root x pn bt ms (map optimize l) t root1 A1 CT W16 E I MS A2 C1) as (root' & R & _); eauto.
      clear -T. induction T; cbn [map]; constructor; assumption. }
    destruct MT as (root' & R). exists root'. split; [exact R|]. constructor.
    - intros s. unfold struct_core. reflexivity.
    - intros w s W So. destruct (ok_struct_definition name tabs x pn ms w s I GP GM W So) as (l & O & T). eexists. split; [exact O|].
      eapply ev_impl; [|exact EV]. intros n ((A1 & A2) & A3 & A4). rewrite optimize_struct.
      assert (T' : Forall2 (fun m a => member_tree (name (snd m)) (fst m) (snd m) a) ms (map optimize l)) by (clear -T; induction T; cbn [map]; constructor; assumption).
      destruct (struct_def_reads name n c p R_DEFINITION root x pn bt ms (map optimize l) t root1 A1 CT W16 E I MS A2 C1 T' A3 ND A4 S0) as (root2 & R2 & B).
      rewrite R in R2. injection R2 as <-. rewrite <- B. unfold struct_tree. destruct (parent_trees pn ++ map optimize l)%list; reflexivity.
  Qed.
End Values.
