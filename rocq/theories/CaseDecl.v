(** The sentence of a union as a user writes it declares the union. *)
From Verif Require Import Base Types TypeBuild Mem Hash MapOps Ops NumSpec IntSpec IntOps ModuleSpec ModuleFacts Module Peg0 Grammar Peg PegFacts PegRules IdlParse IdlParseFacts GenIdl GenSpec TypeText StructText StructRead GrowFacts DocFacts GenStruct AliasText UnionSpec UnionText UnionRead GenUnion NoteSpec FreeSpec TokenFacts FreeText FreeStruct FreeDecl CaseSpec CaseText.
From Verif Require Import GapSpec GapText.
Local Open Scope string_scope.

Lemma cases_more_names : forall root p x disc (T : string -> ty -> Prop) (K : string -> N -> Prop) (T' : string -> ty -> Prop) (K' : string -> N -> Prop) body cs, (forall s t, plain_scoped s -> T s t -> T' s t) -> (forall abs qs y b, ident_path qs y -> K (render abs qs y) b -> K' (render abs qs y) b) ->
  cases_say root p x disc T K body cs -> cases_say root p x disc T' K' body cs.
Proof.
  intros root p x disc T K T' K' body cs HT HK H. induction H as [|l zs d a s t y e ds w r cs Hl Ne Ha Hs He Gw Hr IH]; constructor; try assumption.
  - eapply type_more; eassumption.
  - eapply dims_more_names; eassumption.
Qed.
Section Values.
  Variable fc : prim -> prim -> list N -> list N.
  Variable flt : arith -> prim -> list N -> list N -> list N.
  Variable flit : prim -> string -> res (list N).
  Lemma free_union_sentence : forall c p root x s disc body cs u,
    usual c -> exists_module root p = true -> no_nulls root -> idents_only root p -> free_name x = true -> declares root x p = false ->
    switch_says (names_type root p) s disc -> switch_body_says root p x disc (types_for root p x) (sizes_for root p x) body cs -> Forall (fun k => fresh_member root p x (fst (snd k))) cs ->
    (2 <= List.length cs)%nat -> union_of x disc cs = Ok u ->
    exists root', call_register Unions u false root p = Ok (true, root') /\ sentence fc flt flit c p (union_text x s body) root root'.
  Proof.
    intros c p root x s disc body cs u U E N IO PN D Sw C0 FM Two UO. pose proof U as (_ & _ & IC). pose proof (free_name_ident _ PN) as I. pose proof (declares_unions _ _ _ E D) as MS.
    unfold union_of in UO. destruct (union_new x disc) as [u0|] eqn:U0; [|discriminate UO]. cbn [bind] in UO.
    assert (T0 : tname u0 = x) by (unfold union_new in U0; destruct (check_discriminator disc); [|discriminate U0]; injection U0 as <-; reflexivity).
    destruct (with_tables_ok root p (set_unions (emplace x (rename u0 (scoped (scope p) x)) (unions (tab_at root p))) (tab_at root p)) E) as (root1 & W1).
    assert (C1 : call_register Unions u0 false root p = Ok (true, root1)) by (rewrite (register_union root p x u0 E I T0 MS); rewrite W1; reflexivity).
    pose proof (grows_unions _ _ _ _ _ E D W1) as G.
    assert (E1 : exists_module root1 p = true) by (rewrite (grows_exists _ _ _ _ p G); exact E).
    pose proof (grows_idents _ _ _ _ I G IO) as IO1.
    assert (XD : x <> "default") by (intros ->; discriminate PN).
    assert (C : switch_body_says root p x disc (names_type root1 p) (names_size root1 p) body cs).
    { destruct C0 as [lead r k GL C0]. constructor; [exact GL|]. eapply cases_more_names; [| |exact C0]; [intros z t P H; eapply types_grow; eassumption|intros abs qs y b P H; eapply sizes_grow; eassumption]. }
    assert (KN0 : known_at (names_type root p) (names_size root p) root p) by (split; [exact E|split; [exact IO|split; auto]]).
    assert (KN : known_at (names_type root1 p) (names_size root1 p) root1 p) by (split; [exact E1|split; [exact IO1|split; auto]]).
    assert (PM : Forall (fun k => plain (fst (snd k)) = true) cs) by (eapply Forall_impl; [|exact FM]; intros k [H _]; apply plain_of_name, H).
    assert (FR : Forall (fun k : UnionSpec.ucase => eventually (fun n => resolve_identifier n c root1 p (fst (snd k)) false = Ok (fst (snd k)))) cs).
    { eapply Forall_impl; [|exact FM]. intros k (P1 & P2 & P3). apply plain_resolves; [exact IC|exact P1|]. intros _. rewrite (grows_symbol _ _ _ _ _ _ G P2). exact P3. }
    assert (NE : cs <> []) by (intros ->; cbn in Two; lia).
    pose proof (fun w r => ok_union_says root p x root1 disc (names_type root1 p) (names_size root1 p) (names_type root p) (names_size root p) s body cs w r N IO1 E G XD I Sw C PM NE) as OU.
    assert (EV : forall d l, means (names_type root p) (names_size root p) (optimize d) disc -> a_orig (optimize d) = R_SWITCH_TYPE_SPEC -> Forall2 (case_tree_says p root1 disc (names_type root1 p) (names_size root1 p)) cs l ->
      eventually (fun n => exists root', call_register Unions u false root p = Ok (true, root') /\ union_def n c p (union_tree x (optimize d) (map optimize l)) root = Ok root')).
    { intros d l M Gd Tr.
      assert (R0 : eventually (fun n => (0 < n)%nat /\ resolve_identifier n c root p x true = Ok x)) by (apply ev_and; [exists 1%nat; intros; lia|apply name_resolves; [exact IC|exact PN|discriminate]]).
      eapply ev_impl; [|exact (ev_and _ _ R0 (ev_and _ _ (M c root p U KN0) (bodies_read p root1 disc _ _ c cs l U KN Tr FR)))].
      intros n ((A1 & A2) & A3 & vs & A4 & A5). exact (union_def_says n c p root x disc cs vs (optimize d) (map optimize l) u0 u root1 A1 E I MS A2 A3 Gd U0 C1 A4 A5 UO). }
    assert (MT : exists root', call_register Unions u false root p = Ok (true, root')).
    { destruct (OU "" "" gap_none eq_refl) as (d & l & _ & M & Gd & Tr). destruct (EV d l M Gd Tr) as (n0 & EV0). destruct (EV0 n0 (le_n _)) as (r & R & _). eauto. }
    destruct MT as (root' & R). exists root'. split; [exact R|]. constructor.
    - intros r. reflexivity.
    - intros w r W So. destruct (OU w r W So) as (d & l & O & M & Gd & Tr). eexists. split; [exact O|].
      eapply ev_impl; [|exact (EV d l M Gd Tr)]. intros n (r2 & R2 & B). rewrite R in R2. injection R2 as <-.
      assert (OP : optimize (union_definition x d l) = union_tree x (optimize d) (map optimize l)).
      { destruct cs as [|k1 [|k2 kr]]; [cbn in Two; lia|cbn in Two; lia|]. inversion Tr as [|? a1 ? l1 _ Tr1]; subst. inversion Tr1 as [|? a2 ? l2 _ _]; subst. apply optimize_union. }
      rewrite OP, <- B. reflexivity.
  Qed.
End Values.
