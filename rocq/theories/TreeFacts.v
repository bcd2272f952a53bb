(** What all trees of modules made by calls and parses have in common. *)
From Verif Require Import Base Types TypeBuild Compat Mem Hash MapOps Ops Layout Module ModuleSpec ModuleFacts ModListSpec NumSpec IntSpec IntOps IdlLit IdlLitFacts IdlExpr IdlSpec Peg0 Grammar Peg IdlParse KeepRun KeepInv KeepSpec KeepFacts KeepNull TreeSpec.
Local Open Scope string_scope.

(** ** The structure: no null pointer, a module under its own name, no name twice *)
Definition neat (m : modl) : Prop := NoDup (map fst (m_inner m)) /\ forall c x, assoc c (m_inner m) = Some x -> exists y, x = Some y /\ m_name_ y = c.
Definition all_neat (root : modl) : Prop := forall l m, walk l root = Some m -> neat m.
Lemma all_neat_cons : forall m, all_neat m <-> neat m /\ forall c x, assoc c (m_inner m) = Some (Some x) -> all_neat x.
Proof.
  intros m. split.
  - intros H. split; [apply (H [] m eq_refl)|]. intros c x E l y W. apply (H (c :: l) y). cbn [walk]. rewrite E. exact W.
  - intros [A B] [|c l] y W; cbn [walk] in W; [congruence|]. destruct (assoc c (m_inner m)) as [[x|]|] eqn:E; [|discriminate W..]. exact (B c x E l y W).
Qed.
Lemma fst_replaced : forall (c : string) (y : modl) l, map fst (map (fun e => if String.eqb c (fst e) then (fst e, Some y) else e) l) = map fst l.
Proof. intros c y l. rewrite map_map. apply map_ext. intros [k v]. cbn [fst]. destruct (String.eqb c k); reflexivity. Qed.
Lemma assoc_replaced : forall (c : string) (y : modl) l d, assoc d (map (fun e => if String.eqb c (fst e) then (fst e, Some y) else e) l) = match assoc d l with Some v => Some (if String.eqb c d then Some y else v) | None => None end.
Proof.
  intros c y l d. induction l as [|[k v] l IH]; [reflexivity|]. cbn [map fst]. destruct (String.eqb c k) eqn:E; cbn [assoc fst]; destruct (String.eqb d k) eqn:E'; try exact IH.
  - apply String.eqb_eq in E, E'. subst. rewrite String.eqb_refl. reflexivity.
  - apply String.eqb_eq in E'. subst. rewrite E. reflexivity.
Qed.
Lemma neat_at_module : forall f l root root', at_module l f root = Ok root' -> (forall a b, f a = Ok b -> m_name_ b = m_name_ a /\ (all_neat a -> all_neat b)) -> m_name_ root' = m_name_ root /\ (all_neat root -> all_neat root').
Proof.
  intros f. induction l as [|c l IH]; intros root root' H F; cbn [at_module] in H; [apply F, H|]. destruct (assoc c (m_inner root)) as [[x|]|] eqn:E; [|discriminate H..].
  apply bind_ok_iff in H as (y & H & Q). injection Q as <-. destruct (IH _ _ H F) as [N A]. split; [reflexivity|]. intros T. apply all_neat_cons in T as [[T1 T2] T3]. apply all_neat_cons. unfold neat. cbn [m_inner]. rewrite fst_replaced. split.
  - split; [exact T1|]. intros d z. rewrite assoc_replaced. destruct (assoc d (m_inner root)) as [v|] eqn:D; [|discriminate]. intros Q. injection Q as <-. destruct (T2 _ _ D) as (w & -> & W). destruct (String.eqb c d) eqn:CD; [|eauto].
    apply String.eqb_eq in CD. subst d. exists y. split; [reflexivity|]. assert (x = w) by congruence. congruence.
  - intros d z. rewrite assoc_replaced. destruct (assoc d (m_inner root)) as [v|] eqn:D; [|discriminate]. destruct (String.eqb c d); intros Q; [injection Q as <-; apply A; eapply T3, E|injection Q as ->; eapply T3, D].
Qed.
Lemma neat_on_tables : forall A root p (f : tables -> res (A * tables)) a root', on_tables root p f = Ok (a, root') -> all_neat root -> all_neat root'.
Proof.
  intros A root p f a root' H. unfold on_tables in H. destruct (mod_at root p); [|discriminate H]. apply bind_ok_iff in H as (r & _ & H). apply bind_ok_iff in H as (r' & H & Q). injection Q as _ <-.
  apply (neat_at_module _ _ _ _ H). intros x y E. injection E as <-. split; [reflexivity|]. intros T. apply all_neat_cons in T as [T1 T2]. apply all_neat_cons. split; [exact T1|exact T2].
Qed.
Lemma emplace_fresh_nodup : forall A (x : string) (v : A) l, mem x l = false -> NoDup (map fst l) -> NoDup (map fst (emplace_name x v l)).
Proof.
  intros A x v l. unfold mem. induction l as [|[k w] l IH]; cbn [assoc emplace_name map fst]; intros M D; [constructor; [intros []|constructor]|].
  destruct (String.eqb x k) eqn:E; [discriminate M|]. inversion D as [|? ? D1 D2]; subst. destruct (String.compare x k) eqn:C.
  - cbn [map fst]. exact D.
  - cbn [map fst]. constructor; [|exact D]. intros [Q|Q]; [apply String.eqb_neq in E; congruence|]. apply in_map_iff in Q as ([k' w'] & Q & I). cbn [fst] in Q. subst k'.
    assert (assoc x l <> None). { clear - I. induction l as [|[k u] l IH]; [destruct I|]. cbn [assoc]. destruct (String.eqb x k) eqn:E; [discriminate|]. apply IH. destruct I as [Q|I]; [|exact I]. injection Q as -> ->. rewrite String.eqb_refl in E. discriminate E. }
    destruct (assoc x l); [discriminate M|congruence].
  - cbn [map fst]. constructor; [|apply IH; assumption]. intros Q. apply in_map_iff in Q as ([k' w'] & Q & I). cbn [fst] in Q. subst k'. apply emplace_name_in in I as [I|I]; [injection I as -> _; rewrite String.eqb_refl in E; discriminate E|].
    apply D1. apply in_map_iff. exists (k, w'). split; [reflexivity|exact I].
Qed.
Lemma neat_create_submodule : forall x root p root', call_create_submodule x root p = Ok root' -> all_neat root -> all_neat root'.
Proof.
  intros x root p root' H. apply (neat_at_module _ _ _ _ H). intros a b E. unfold create_submodule in E. destruct (assoc x (m_inner a)) as [[z|]|] eqn:X; [injection E as <-; auto|discriminate E|]. injection E as <-. split; [reflexivity|].
  intros T. apply all_neat_cons in T as [[T1 T2] T3]. apply all_neat_cons. unfold neat. cbn [m_inner]. split; [split|].
  - unfold emplace, mem. rewrite X. apply emplace_fresh_nodup; [unfold mem; rewrite X; reflexivity|exact T1].
  - intros c y. rewrite emplace_assoc, X. destruct (String.eqb c x) eqn:E; [|apply T2]. intros Q. injection Q as <-. apply String.eqb_eq in E. subst. eexists. split; reflexivity.
  - intros c y. rewrite emplace_assoc, X. destruct (String.eqb c x) eqn:E; [|apply T3]. intros Q. injection Q as <-. apply all_neat_cons. split; [split; [constructor|]|]; intros; discriminate.
Qed.
Lemma same_submodule : forall x root p b root', has_submodule root p x = true -> call_submodule x root p = Ok (b, root') -> forall P : modl -> Prop, (forall r r', at_module (rev p) (fun m => Ok m) r = Ok r' -> P r -> P r') -> P root -> P root'.
Proof.
  intros x root p b root' S H P K. unfold call_submodule, has_submodule in *. destruct (mod_at root p) as [m|] eqn:M; [|discriminate S]. apply bind_ok_iff in H as (r & H & Q). injection Q as _ <-. apply K. rewrite <- H.
  unfold mem in S. clear - S M. rewrite mod_at_walk in M. revert root M. induction (rev p) as [|c l IH]; intros root M; cbn [at_module walk] in *.
  - injection M as ->. unfold submodule. destruct (assoc x (m_inner m)) as [[z|]|]; [reflexivity..|discriminate S].
  - destruct (assoc c (m_inner root)) as [[y|]|]; [|reflexivity..]. rewrite (IH y M). reflexivity.
Qed.
Lemma neat_submodule : forall x root p b root', has_submodule root p x = true -> call_submodule x root p = Ok (b, root') -> all_neat root -> all_neat root'.
Proof. intros x root p b root' S H. apply (same_submodule _ _ _ _ _ S H). intros r r' E. apply (neat_at_module _ _ _ _ E). intros a b' Q. injection Q as <-. auto. Qed.
Lemma neat_store : forall k y t root q root', store_at k y t root q = Ok root' -> all_neat root -> all_neat root'.
Proof. intros k y t root q root' R. unfold store_at in R. apply bind_ok_iff in R as ([u r'] & H & E). injection E as <-. exact (neat_on_tables _ _ _ _ _ _ H). Qed.
Lemma made_neat : forall fc flt flit root, made fc flt flit root -> all_neat root.
Proof.
  intros fc flt flit root H. induction H; try (eapply neat_on_tables; eassumption).
  - apply all_neat_cons. split; [split; [constructor|]|]; intros; discriminate.
  - eapply neat_create_submodule; eassumption.
  - eapply neat_submodule; eassumption.
  - revert IHmade. apply (kept_parse all_neat); try (unfold whole; intros; eapply neat_on_tables; eassumption); [unfold whole; intros; eapply neat_store; eassumption|exact neat_create_submodule|exact neat_submodule].
Qed.

(** ** The names of the types *)
Definition good_tab (q : place) (tab : tables) : Prop := forall k x t, assoc x (get_table k tab) = Some t -> kind_of k t = true /\ tname t = scoped (scope q) x.
Definition good_from (pre : place) (m : modl) : Prop := forall l x, walk l m = Some x -> good_tab (rev l ++ pre)%list (m_tab x).
Lemma good_from_cons : forall pre m, good_from pre m <-> good_tab pre (m_tab m) /\ forall c x, assoc c (m_inner m) = Some (Some x) -> good_from (c :: pre) x.
Proof.
  intros pre m. split.
  - intros H. split; [apply (H [] m eq_refl)|]. intros c x E l y W. specialize (H (c :: l) y). cbn [walk rev] in H. rewrite E, <- app_assoc in H. exact (H W).
  - intros [A B] [|c l] y W; cbn [walk] in W; [injection W as <-; exact A|]. destruct (assoc c (m_inner m)) as [[x|]|] eqn:E; [|discriminate W..]. cbn [rev]. rewrite <- app_assoc. exact (B c x E l y W).
Qed.
Lemma good_at_module : forall f l pre root root', at_module l f root = Ok root' -> (forall a b, f a = Ok b -> good_from (rev l ++ pre)%list a -> good_from (rev l ++ pre)%list b) -> good_from pre root -> good_from pre root'.
Proof.
  intros f. induction l as [|c l IH]; intros pre root root' H F; cbn [at_module] in H; [apply F, H|]. destruct (assoc c (m_inner root)) as [[x|]|] eqn:E; [|discriminate H..].
  apply bind_ok_iff in H as (y & H & Q). injection Q as <-. intros T. apply good_from_cons in T as [T1 T2]. apply good_from_cons. cbn [m_inner m_tab]. split; [exact T1|].
  intros d z. rewrite assoc_replaced. destruct (assoc d (m_inner root)) as [v|] eqn:D; [|discriminate]. destruct (String.eqb c d) eqn:CD; intros Q; [|injection Q as ->; apply T2, D].
  injection Q as <-. apply String.eqb_eq in CD. subst d. refine (IH _ _ _ H _ (T2 _ _ E)). intros a b Q. specialize (F a b Q). cbn [rev] in F. rewrite <- app_assoc in F. exact F.
Qed.
Lemma good_on_tables : forall A root p (f : tables -> res (A * tables)) a root', on_tables root p f = Ok (a, root') ->
  (forall tab', good_from [] root -> f (tab_at root p) = Ok (a, tab') -> good_tab p (tab_at root p) -> good_tab p tab') -> good_from [] root -> good_from [] root'.
Proof.
  intros A root p f a root' H K G. assert (GP : good_tab p (tab_at root p)).
  { unfold tab_at. destruct (mod_at root p) as [m|] eqn:M; [|intros [] x t Q; discriminate Q]. rewrite mod_at_walk in M. specialize (G _ _ M). rewrite rev_involutive, app_nil_r in G. exact G. }
  unfold on_tables, tab_at in *. destruct (mod_at root p); [|discriminate H]. apply bind_ok_iff in H as ([a' tab'] & F & H). apply bind_ok_iff in H as (r' & H & Q). injection Q as -> <-. cbn [snd] in *. specialize (K tab' G F GP).
  refine (good_at_module _ _ _ _ _ H _ G). intros x y Q T. injection Q as <-. apply good_from_cons in T as [T1 T2]. apply good_from_cons. cbn [m_tab m_inner]. rewrite rev_involutive, app_nil_r in *. auto.
Qed.
Lemma good_set : forall p k x t l tab, kind_of k t = true -> tname t = scoped (scope p) x -> good_tab p (set_table k l tab) -> good_tab p (set_table k (emplace x t l) tab).
Proof.
  intros p k x t l tab K T G k' y u. specialize (G k' y u). rewrite get_set_table in *. destruct k, k'; try exact G; rewrite emplace_assoc; (destruct (String.eqb y x) eqn:Y; [|exact G]); apply String.eqb_eq in Y; subst y; (destruct (assoc x l); [exact G|]); intros Q; injection Q as <-; auto.
Qed.
Lemma good_removed : forall p k x tab, good_tab p tab -> good_tab p (set_table k (remove_name x (get_table k tab)) tab).
Proof.
  intros p k x tab G k' y u. specialize (G k' y u). rewrite get_set_table. destruct k, k'; try exact G; rewrite remove_name_assoc; destruct (String.eqb y x); try discriminate; exact G.
Qed.
Lemma set_same : forall k tab, set_table k (get_table k tab) tab = tab.
Proof. intros [] []; reflexivity. Qed.
Lemma kind_rename : forall k t x, kind_of k t = true -> kind_of k (rename t x) = true /\ tname (rename t x) = x.
Proof. intros [] [] x H; try discriminate H; split; reflexivity. Qed.
Lemma good_register : forall k t r root p b root', kind_of k t = true -> call_register k t r root p = Ok (b, root') -> good_from [] root -> good_from [] root'.
Proof.
  intros k t r root p b root' K H. apply (good_on_tables _ _ _ _ _ _ H). intros tab' _ E G. injection E as E. unfold register in E. destruct (split_scope (tname t)); [injection E as _ <-; exact G|]. injection E as _ <-.
  destruct (kind_rename k t (scoped (scope p) (tname t)) K) as [K1 K2]. apply good_set; [exact K1|exact K2|]. destruct r; [apply good_removed, G|rewrite set_same; exact G].
Qed.
Lemma good_add_alias : forall t root p b root', kind_of Aliases t = true -> call_add_alias t root p = Ok (b, root') -> good_from [] root -> good_from [] root'.
Proof.
  intros t root p b root' K H. apply (good_on_tables _ _ _ _ _ _ H). intros tab' _ E G. injection E as _ <-. destruct (kind_rename Aliases t (scoped (scope p) (tname t)) K) as [K1 K2].
  apply (good_set p Aliases); [exact K1|exact K2|]. rewrite (set_same Aliases). exact G.
Qed.
Lemma good_create_alias : forall f t x root p b root', call_create_alias f t x root p = Ok (b, root') -> good_from [] root -> good_from [] root'.
Proof.
  intros f t x root p b root' H. apply (good_on_tables _ _ _ _ _ _ H). intros tab' _ E G. injection E as E. unfold create_alias in E. destruct (split_scope x); [injection E as _ <-; exact G|]. destruct (match found root aliases f with Some _ => true | None => false end); injection E as _ <-; [exact G|].
  apply (good_set p Aliases); [reflexivity|reflexivity|]. rewrite (set_same Aliases). exact G.
Qed.
Lemma good_same : forall p tab tab', (forall k, get_table k tab' = get_table k tab) -> good_tab p tab -> good_tab p tab'.
Proof. intros p tab tab' E G k x t. rewrite E. apply G. Qed.
Lemma good_constant : forall fc x v r e root p b root', call_create_constant fc x v r e root p = Ok (b, root') -> good_from [] root -> good_from [] root'.
Proof.
  intros fc x v r e root p b root' H. apply (good_on_tables _ _ _ _ _ _ H). intros tab' _ E. apply good_same. clear H. unfold create_constant in E. destruct (split_scope x); [injection E as _ <-; reflexivity|].
  apply bind_ok_iff in E as (tab1 & E1 & E). assert (T : forall k, get_table k tab1 = get_table k (tab_at root p)).
  { destruct (r && _); [destruct (mem _ _); [|discriminate E1]|]; injection E1 as <-; intros []; reflexivity. }
  destruct (mem x (const_types tab1)); [injection E as _ <-; exact T|]. apply bind_ok_iff in E as (d1 & _ & E). apply bind_ok_iff in E as (d2 & _ & E). destruct (mem x (consts tab1)); [injection E as _ <-; intros k; rewrite <- T; destruct k; reflexivity|].
  apply bind_ok_iff in E as (d3 & _ & E). injection E as _ <-. intros k. rewrite <- T. destruct k; reflexivity.
Qed.
Lemma good_store : forall k y t0 t root q root', entry root q k y = Some t0 -> same_title t0 t -> store_at k y t root q = Ok root' -> good_from [] root -> good_from [] root'.
Proof.
  intros k y t0 t root q root' E [S1 S2] R. unfold store_at in R. apply bind_ok_iff in R as ([u r'] & H & Q). injection Q as <-. apply (good_on_tables _ _ _ _ _ _ H). intros tab' _ F G. injection F as _ <-. intros k' x u'.
  unfold store. rewrite get_set_table. pose proof (G k y t0 E) as [G1 G2]. destruct k, k'; try apply G; rewrite assoc_store; (destruct (String.eqb x y) eqn:X; [|apply G]); apply String.eqb_eq in X; subst x; unfold entry in E; cbn [get_table] in *; rewrite E; intros Q; injection Q as <-; rewrite S1, S2; auto.
Qed.
Lemma good_create_submodule : forall x root p root', call_create_submodule x root p = Ok root' -> good_from [] root -> good_from [] root'.
Proof.
  intros x root p root' H. apply (good_at_module _ _ _ _ _ H). intros a b E T. unfold create_submodule in E. destruct (assoc x (m_inner a)) as [[z|]|] eqn:X; [injection E as <-; exact T|discriminate E|]. injection E as <-.
  apply good_from_cons in T as [T1 T2]. apply good_from_cons. cbn [m_inner m_tab]. split; [exact T1|]. intros c y. rewrite emplace_assoc, X. destruct (String.eqb c x); [|apply T2]. intros Q. injection Q as <-. apply good_from_cons. split; [intros [] ? ? Q; discriminate Q|intros; discriminate].
Qed.
Lemma good_submodule : forall x root p b root', has_submodule root p x = true -> call_submodule x root p = Ok (b, root') -> good_from [] root -> good_from [] root'.
Proof. intros x root p b root' S H. apply (same_submodule _ _ _ _ _ S H). intros r r' E. apply (good_at_module _ _ _ _ _ E). intros a b' Q. injection Q as <-. auto. Qed.
Lemma made_good : forall fc flt flit root, made fc flt flit root -> good_from [] root.
Proof.
  intros fc flt flit root H. induction H.
  - apply good_from_cons. split; [intros [] ? ? Q; discriminate Q|intros; discriminate].
  - eapply good_register; eassumption.
  - eapply good_add_alias; eassumption.
  - eapply good_create_alias; eassumption.
  - eapply good_constant; eassumption.
  - eapply good_create_submodule; eassumption.
  - eapply good_submodule; eassumption.
  - revert IHmade. apply (kept_parse (good_from [])); [exact good_register|exact good_create_alias|exact good_constant|exact good_store|exact good_create_submodule|exact good_submodule].
Qed.
Lemma scope_names : forall q x, Forall (fun c => c <> "") q -> scoped (scope q) x = qualified (rev q) x.
Proof.
  intros q x H. assert (N : forall q, Forall (fun c => c <> "") q -> q <> [] -> scope q <> "").
  { intros [|c q'] F NE; [congruence|]. inversion F as [|? ? Fc Fq]; subst. cbn [scope]. destruct (String.eqb (scope q') ""); [exact Fc|]. destruct (scope q'); cbn; discriminate. }
  assert (A : forall l y z, qualified (l ++ [y]) z = qualified l (y ++ "::" ++ z)) by (induction l as [|a l IH]; intros y z; cbn [app qualified]; [reflexivity|rewrite IH; reflexivity]).
  revert x. induction q as [|c q IH]; intros x; [reflexivity|]. inversion H as [|? ? Fc Fq]; subst. cbn [rev]. rewrite A, <- (IH Fq). unfold scoped. destruct (String.eqb (scope (c :: q)) "") eqn:E; [apply String.eqb_eq in E; destruct (N (c :: q) H ltac:(discriminate) E)|].
  cbn [scope]. destruct (String.eqb (scope q) "") eqn:E'; [apply String.eqb_eq in E'; rewrite E'; reflexivity|]. rewrite !app_assoc_s. reflexivity.
Qed.
