(** The parser puts no null pointer into a tree of modules. *)
From Verif Require Import Base Types TypeBuild Compat Mem Hash MapOps Ops Module ModuleSpec ModuleFacts NumSpec IntSpec IntOps IdlLit IdlExpr IdlSpec Peg0 Grammar Peg IdlParse IdlParseFacts KeepRun KeepSpec KeepFacts KeepInv.
Local Open Scope string_scope.

Lemma null_on_tables : forall A root p (f : tables -> res (A * tables)) a root', on_tables root p f = Ok (a, root') -> (no_nulls root -> no_nulls root').
Proof. intros A root p f a root' H. destruct (on_tables_spec _ _ _ _ _ H) as (_ & tab' & _ & RT). intros N c. eapply retabled_null; [exact RT|apply N]. Qed.
Lemma null_at_module : forall f root p root', at_module (rev p) f root = Ok root' ->
  (forall a b, mod_at root p = Some a -> f a = Ok b -> forall c, match assoc c (m_inner b) with Some None => assoc c (m_inner a) = Some None | Some (Some z) => assoc c (m_inner a) = Some (Some z) \/ m_inner z = [] | None => True end) -> (no_nulls root -> no_nulls root').
Proof.
  intros f root p root' H F N c0 q m Q. destruct (at_module_spec _ _ _ _ H) as [(a & b & Ha & Hab & Hb) Hrest]. rewrite mod_at_walk in Q.
  assert (F' : forall c, match assoc c (m_inner b) with Some None => assoc c (m_inner a) = Some None | Some (Some z) => assoc c (m_inner a) = Some (Some z) \/ m_inner z = [] | None => True end) by (eapply F; [rewrite mod_at_walk; exact Ha|exact Hab]).
  destruct (list_eq_dec string_dec (firstn (List.length (rev p)) (rev q)) (rev p)) as [Hpre|Hpre].
  - rewrite <- (firstn_skipn (List.length (rev p)) (rev q)), Hpre, walk_app, Hb in Q.
    assert (EQ : forall m0, walk (skipn (List.length (rev p)) (rev q)) a = Some m0 -> mod_at root q = Some m0).
    { intros m0 W. rewrite mod_at_walk, <- (firstn_skipn (List.length (rev p)) (rev q)), Hpre, walk_app, Ha. exact W. }
    destruct (skipn (List.length (rev p)) (rev q)) as [|d l] eqn:SK; cbn [walk] in *.
    + injection Q as <-. specialize (F' c0). destruct (assoc c0 (m_inner b)) as [[z|]|] eqn:E; [discriminate| |discriminate]. specialize (N c0 q a (EQ a eq_refl)). congruence.
    + specialize (F' d). destruct (assoc d (m_inner b)) as [[z|]|] eqn:E; [|discriminate Q..]. destruct F' as [F'|F'].
      * rewrite F' in EQ. apply (N c0 q m (EQ m Q)).
      * destruct l as [|d' l]; cbn [walk] in Q; [injection Q as <-; rewrite F'; discriminate|]. rewrite F' in Q. cbn [assoc] in Q. discriminate Q.
  - specialize (Hrest (rev q)). rewrite Q in Hrest. destruct (walk (rev q) root) as [m'|] eqn:W; [|destruct Hrest; intros s E; apply Hpre; rewrite E, firstn_app, Nat.sub_diag; cbn [firstn]; rewrite firstn_all, app_nil_r; reflexivity].
    destruct Hrest as (_ & _ & R); [intros s E; apply Hpre; rewrite E, firstn_app, Nat.sub_diag; cbn [firstn]; rewrite firstn_all, app_nil_r; reflexivity|]. specialize (R c0). intros E. rewrite E in R.
    specialize (N c0 q m'). rewrite mod_at_walk in N. specialize (N W). destruct (assoc c0 (m_inner m')) as [[z|]|]; [exact R|congruence|exact R].
Qed.
Lemma null_create_submodule : forall x root p root', call_create_submodule x root p = Ok root' -> (no_nulls root -> no_nulls root').
Proof.
  intros x root p root' H. apply (null_at_module _ _ _ _ H). intros a b _ E c. unfold create_submodule in E. destruct (assoc x (m_inner a)) as [[z|]|] eqn:A; [injection E as <-; destruct (assoc c (m_inner a)) as [[z'|]|]; auto|discriminate E|]. injection E as <-.
  cbn [m_inner]. rewrite emplace_assoc, A. destruct (String.eqb c x); [right; reflexivity|]. destruct (assoc c (m_inner a)) as [[z'|]|]; auto.
Qed.
(** The module asked for exists. *)
Lemma null_submodule : forall x root p b root', has_submodule root p x = true -> call_submodule x root p = Ok (b, root') -> (no_nulls root -> no_nulls root').
Proof.
  intros x root p b root' S H. unfold call_submodule, has_submodule, mem in *. destruct (mod_at root p) as [m|] eqn:M; [|discriminate H]. apply bind_ok_iff in H as (r & H & E). injection E as _ <-.
  apply (null_at_module _ _ _ _ H). intros a b' P E c. rewrite M in P. injection P as <-. injection E as <-. unfold submodule. destruct (assoc x (m_inner m)) as [[z|]|] eqn:A; cbn [fst]; [destruct (assoc c (m_inner m)) as [[z'|]|]; auto..|discriminate S].
Qed.
Lemma null_store : forall k y t root q root', store_at k y t root q = Ok root' -> no_nulls root -> no_nulls root'.
Proof. intros k y t root q root' R. unfold store_at in R. apply bind_ok_iff in R as ([u r'] & H & E). injection E as <-. exact (null_on_tables _ _ _ _ _ _ H). Qed.
Lemma clean_parse : forall fc flt flit n c text root, no_nulls root -> no_nulls (fst (parse_run fc flt flit n c text root)).
Proof.
  intros fc flt flit. apply (kept_parse no_nulls); try (unfold whole; intros; eapply null_on_tables; eassumption); [unfold whole; intros; eapply null_store; eassumption|exact null_create_submodule|exact null_submodule].
Qed.
