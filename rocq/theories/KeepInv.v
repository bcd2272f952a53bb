(** What table updates and the making of modules keep, every parse keeps. *)
From Verif Require Import Base Types TypeBuild Compat Mem Hash MapOps Ops Module ModuleSpec ModuleFacts NumSpec IntSpec IntOps IdlLit IdlExpr IdlSpec Peg0 Grammar Peg IdlParse IdlParseFacts KeepRun KeepSpec KeepFacts.
Local Open Scope string_scope.

Lemma created_submodule : forall x root p root', call_create_submodule x root p = Ok root' -> has_submodule root' p x = true.
Proof.
  intros x root p root' H. destruct (at_module_spec _ _ _ _ H) as [(a & b & _ & Hab & Hb) _]. unfold has_submodule. rewrite mod_at_walk, Hb. unfold create_submodule in Hab. unfold mem.
  destruct (assoc x (m_inner a)) as [[z|]|] eqn:A; [injection Hab as <-; rewrite A; reflexivity|discriminate Hab|]. injection Hab as <-. cbn [m_inner]. rewrite emplace_assoc, String.eqb_refl, A. reflexivity.
Qed.

(** The types a table of a module holds. *)
Definition kind_of (k : table) (t : ty) : bool :=
  match k, t with Structs, TStruct _ _ _ | Unions, TUnion _ _ _ _ _ _ _ | Enums, TEnum _ _ _ | Aliases, TAlias _ _ => true | _, _ => false end.
Definition same_title (t t' : ty) : Prop := tname t' = tname t /\ forall k, kind_of k t' = kind_of k t.
Lemma same_title_refl t : same_title t t.
Proof. split; reflexivity. Qed.
Lemma add_members_title : forall ms t, same_title t (fst (add_members_run t ms)).
Proof.
  induction ms as [|[x mt] ms IH]; intros t; cbn [add_members_run]; [apply same_title_refl|]. destruct t as [| | | | | | |nm size members| |]; cbn [add_member]; try apply same_title_refl.
  destruct (has_member x _); [apply same_title_refl|]. destruct (IH (TStruct nm (size + msize mt) (members ++ [(x, size, mt)])%list)) as [A B]. split; [exact A|exact B].
Qed.
Lemma same_title_trans a b c : same_title a b -> same_title b c -> same_title a c.
Proof. intros [A B] [C D]. split; [congruence|]. intros k. rewrite D. apply B. Qed.
Lemma add_case_title : forall t ls x mt, same_title t (fst (add_case_run t ls x mt)).
Proof.
  intros t ls x mt. destruct t as [| | | | | | | |nm size members labels dv iv d|]; try apply same_title_refl. cbn [add_case_run]. destruct members as [|[[dn doff] disc] cs]; [apply same_title_refl|]. destruct (parse_labels disc ls false []) as [[b l]|e]; [|apply same_title_refl].
  cbn [fst snd]. unfold add_case_member. repeat match goal with |- context [if ?b then _ else _] => destruct b | |- context [match ?b with Ok _ => _ | Fail _ => _ end] => destruct b end; try apply same_title_refl; split; reflexivity.
Qed.
Lemma add_cases_title : forall cs t, same_title t (fst (add_cases_run t cs)).
Proof.
  induction cs as [|[ls [x mt]] cs IH]; intros t; cbn [add_cases_run]; [apply same_title_refl|]. pose proof (add_case_title t ls x mt) as A. destruct (add_case_run t ls x mt) as [t' [u|e]]; [|exact A]. eapply same_title_trans; [exact A|apply IH].
Qed.
Section Kept.
Variable P : modl -> Prop.
Definition whole (root root' : modl) : Prop := P root -> P root'.
Hypothesis whole_register : forall k t r root p b root', kind_of k t = true -> call_register k t r root p = Ok (b, root') -> whole root root'.
Hypothesis whole_create_alias : forall f t x root p b root', call_create_alias f t x root p = Ok (b, root') -> whole root root'.
Hypothesis whole_constant : forall fc x v r e root p b root', call_create_constant fc x v r e root p = Ok (b, root') -> whole root root'.
Hypothesis whole_store : forall k y t0 t root q root', entry root q k y = Some t0 -> same_title t0 t -> store_at k y t root q = Ok root' -> whole root root'.
Hypothesis whole_create_submodule : forall x root p root', call_create_submodule x root p = Ok root' -> whole root root'.
Hypothesis whole_submodule : forall x root p b root', has_submodule root p x = true -> call_submodule x root p = Ok (b, root') -> whole root root'.
Lemma whole_refl : forall root, whole root root.
Proof. intros root H; exact H. Qed.
Lemma whole_trans : forall a b c, whole a b -> whole b c -> whole a c.
Proof. unfold whole. auto. Qed.
Definition clean {A} (root : modl) (x : run A) : Prop := whole root (fst x).
Lemma clean_then : forall A B root (x : run A) (f : A -> modl -> run B), clean root x -> (forall a r, x = (r, Ok a) -> clean r (f a r)) -> clean root (andthen x f).
Proof. intros A B root [r [a|e]] f H K; unfold clean in *; cbn [andthen fst] in *; [|exact H]. eapply whole_trans; [exact H|apply (K a r eq_refl)]. Qed.
Lemma clean_query : forall A B root (r : res A) (f : A -> run B), (forall a, r = Ok a -> clean root (f a)) -> clean root (query root r f).
Proof. intros A B root [a|e] f H; cbn [query]; [apply H; reflexivity|apply whole_refl]. Qed.
Lemma clean_here : forall A root (r : res A), clean root (root, r).
Proof. intros. apply whole_refl. Qed.
Lemma clean_update : forall A root (r : res (A * modl)), (forall a root', r = Ok (a, root') -> whole root root') -> clean root (update root r).
Proof. intros A root [[a r]|e] H; unfold clean; cbn [update fst]; [apply (H a r eq_refl)|apply whole_refl]. Qed.
Lemma clean_update_ : forall root (r : res modl), (forall root', r = Ok root' -> whole root root') -> clean root (update_ root r).
Proof. intros root [r|e] H; unfold clean; cbn [update_ fst]; [apply (H r eq_refl)|apply whole_refl]. Qed.
Ltac cleanly := repeat match goal with
  | |- clean _ (_, _) => apply clean_here
  | |- clean _ (query _ _ _) => apply clean_query; intros ? ?
  | |- clean _ (andthen _ _) => apply clean_then; [|intros ? ? ?]
  | |- clean _ (update _ _) => apply clean_update; intros ? ? ?
  | H : call_register _ _ _ _ _ = Ok _ |- whole _ _ => refine (whole_register _ _ _ _ _ _ _ _ H); reflexivity
  | H : call_create_constant _ _ _ _ _ _ _ = Ok _ |- whole _ _ => exact (whole_constant _ _ _ _ _ _ _ _ _ H)
  | |- clean _ (if ?b then _ else _) => destruct b
  | |- clean _ (match ?b with _ => _ end) => destruct b
  end.
Lemma clean_store : forall k y t0 t root q, entry root q k y = Some t0 -> same_title t0 (fst t) -> clean root (store_run k y t root q).
Proof.
  intros k y t0 t root q E T. unfold store_run. apply clean_then; [|intros; apply clean_here]. apply clean_update_. intros r R. exact (whole_store _ _ _ _ _ _ _ E T R).
Qed.
Lemma clean_declare : forall n c p x root, clean root (declare_struct_run n c p x root).
Proof. intros. unfold declare_struct_run. cleanly. Qed.
Lemma clean_struct_parts : forall n c p l name parent ms root, clean root (struct_parts_run n c p l name parent ms root).
Proof.
  intros n c p. induction l as [|a l IH]; intros name parent ms root; cbn [struct_parts_run]; [cleanly|]. destruct (a_orig a); try apply IH.
  - apply clean_then; [apply clean_declare|intros; apply IH].
  - apply clean_query. intros [t|] _; [apply IH|cleanly].
  - apply clean_query. intros; apply IH.
Qed.
Lemma clean_struct : forall n c p a root, clean root (struct_run n c p a root).
Proof.
  intros n c p a root. unfold struct_run. apply clean_then; [apply clean_struct_parts|]. intros [[name0 parent] ms] root1 _. apply clean_then; [destruct (_ && _); [apply clean_declare|cleanly]|]. intros name root2 _.
  apply clean_query. intros [[q y] t] L. destruct (members_of t); [|cleanly]. destruct (String.eqb parent ""); [eapply clean_store; [eapply lookup_entry, L|apply add_members_title]|].
  apply clean_query. intros [b1 b2] _. apply clean_query. intros t' T. cbn [snd] in T. apply clean_then.
  - apply clean_update. intros u r R. refine (whole_register _ _ _ _ _ _ _ _ R). destruct b2; try discriminate T. injection T as <-. reflexivity.
  - intros u r _. apply clean_query. intros [[q' y'] t2] L'. cbn [fst snd]. eapply clean_store; [eapply lookup_entry, L'|apply add_members_title].
Qed.
Section Values.
  Variable fc : prim -> prim -> list N -> list N.
  Variable flt : arith -> prim -> list N -> list N -> list N.
  Variable flit : prim -> string -> res (list N).
  Lemma clean_enumerators : forall l p e root, clean root (enumerators_run fc l p e root).
  Proof.
    induction l as [|a l IH]; intros p e root; cbn [enumerators_run]; [cleanly|]. destruct (add_enumerator_next e (a_tok a)) as [e' [u|er]]; [|cleanly]. cleanly. apply IH.
  Qed.
  Lemma clean_enum : forall p a root, clean root (enum_run fc p a root).
  Proof. intros p a root. unfold enum_run. destruct (a_sub a) as [|i r]; [cleanly|]. apply clean_then; [apply clean_enumerators|]. intros e root1 _. cleanly. Qed.
  Lemma clean_union_parts : forall n c p l name cs root, clean root (union_parts_run n c p l name cs root).
  Proof.
    intros n c p. induction l as [|a l IH]; intros name cs root; cbn [union_parts_run]; [cleanly|].
    assert (D : forall t u r, union_new name t = Ok u -> call_register Unions u false root p = Ok r -> whole root (snd r)).
    { intros t u [b r] U R. refine (whole_register _ _ _ _ _ _ _ _ R). unfold union_new in U. apply bind_ok_iff in U as (? & _ & U). injection U as <-. reflexivity. }
    destruct (a_orig a); try apply IH; cleanly; try apply IH; match goal with U : union_new _ _ = Ok _, R : call_register _ _ _ _ _ = Ok _ |- _ => exact (D _ _ _ U R) end.
  Qed.
  Lemma clean_union : forall n c p a root, clean root (union_run n c p a root).
  Proof.
    intros n c p a root. unfold union_run. apply clean_then; [apply clean_union_parts|]. intros [name cs] root1 _. apply clean_query. intros [[q y] t] L. cbn [fst snd] in *.
    destruct (members_of t) as [|? [|]]; cleanly; (eapply clean_store; [eapply lookup_entry, L|apply add_cases_title]).
  Qed.
  Lemma whole_forward : forall n c p a root root', forward_dcl n c p a root = Ok root' -> whole root root'.
  Proof.
    intros n c p a root root' H. unfold forward_dcl in H. apply bind_ok_iff in H as (x & _ & H). destruct (mod_at root p) as [m|]; [|discriminate H]. destruct (has_symbol_here m x); [discriminate H|].
    apply bind_ok_iff in H as ([b r] & H & E). injection E as <-. refine (whole_register _ _ _ _ _ _ _ _ H); reflexivity.
  Qed.
  Lemma whole_alias : forall n c p a root root', alias_dcl n c p a root = Ok root' -> whole root root'.
  Proof.
    intros n c p a root root' H. unfold alias_dcl in H. destruct (a_sub a) as [|x [|y l]]; try discriminate H. apply bind_ok_iff in H as (t & _ & H). apply bind_ok_iff in H as (r & _ & H).
    apply bind_ok_iff in H as (k & _ & H). apply bind_ok_iff in H as ([b r'] & H & E). injection E as <-. exact (whole_create_alias _ _ _ _ _ _ _ H).
  Qed.
  Lemma whole_const : forall n c p a root root', const_dcl fc flt flit n c p a root = Ok root' -> whole root root'.
  Proof.
    intros n c p a root root' H. unfold const_dcl in H. destruct (a_sub a) as [|x [|y [|z l]]]; try discriminate H.
    do 5 (apply bind_ok_iff in H as (? & _ & H)). apply bind_ok_iff in H as ([b r'] & H & E). injection E as <-. exact (whole_constant _ _ _ _ _ _ _ _ _ H).
  Qed.
  Lemma check_names_same : forall n c p l root root', check_names n c p l root = Ok root' -> root' = root.
  Proof.
    intros n c p. induction l as [|a l IH]; intros root root' H; cbn [check_names] in H; [congruence|].
    destruct (a_orig a); try (eapply IH, H). apply bind_ok_iff in H as (x & _ & H). eapply IH, H.
  Qed.
  Lemma clean_build : forall n c a p root, clean root (build_run fc flt flit n c p a root).
  Proof.
    intros n c. induction a as [o t k l IH] using ast_rect'; intros p root.
    destruct t; cbn [build_run]; try solve [apply clean_struct|apply clean_union|apply clean_enum|apply clean_here|apply clean_update_; intros r R; (eapply whole_const, R || eapply whole_forward, R || eapply whole_alias, R || (apply check_names_same in R; subst; apply whole_refl))];
      try solve [revert root; induction IH as [|a l Ha Hl IHl]; intros root; [apply clean_here|]; apply clean_then; [apply Ha|intros [] r _; apply IHl]].
    generalize (@None place) as sc. revert root. induction IH as [|a l Ha Hl IHl]; intros root sc; [apply clean_here|].
    destruct (a_tag a); try (apply clean_then; [apply Ha|intros [] r _; apply IHl]). destruct (rule_eqb (a_orig a) R_IDENTIFIER).
    - apply clean_query. intros x _. apply clean_then; [destruct (has_submodule root p x); [apply clean_here|apply clean_update_; intros r R; eapply whole_create_submodule, R]|]. intros [] r E.
      assert (HS : has_submodule r p x = true).
      { destruct (has_submodule root p x) eqn:H; [injection E as <-; exact H|]. destruct (call_create_submodule x root p) as [r'|e] eqn:C; [|discriminate E]. injection E as <-. eapply created_submodule, C. }
      apply clean_then; [apply clean_update; intros b r' R; eapply whole_submodule; [exact HS|exact R]|]. intros b r' _. destruct b; [apply IHl|apply clean_here].
    - destruct sc as [q|]; [|apply clean_here]. apply clean_then; [apply clean_struct|intros [] r _; apply IHl].
  Qed.
  Lemma kept_parse : forall n c text root, P root -> P (fst (parse_run fc flt flit n c text root)).
  Proof.
    intros n c text root. unfold parse_run. destruct (parse_document n text) as [[a|]|]; [|apply whole_refl..]. apply (clean_then _ _ root); [apply clean_build|intros; apply clean_here].
  Qed.
End Values.
End Kept.
