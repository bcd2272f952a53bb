(** What the module being filled knows, while the declarations of [root] are made in it one by one. *)
From Verif Require Import Base Types TypeBuild Mem MemSpec MemFacts ConstructFacts Hash MapOps Ops NumSpec NumFacts IntSpec IntFacts IntOps ModuleSpec ModuleFacts Module DataSpec ValueSpec PropModule Peg0 Grammar Peg PegRules IdlLit IdlParse IdlParseFacts GenIdl GenSpec StructText StructRead GrowFacts DocFacts EnumText EnumFacts GenText ModuleText ExprSpec UnionSpec UnionText DocSpec DocText RoundCalls GenModule.
From Verif Require Import DepTree DepFacts DepGen DepSolve DepOrder RoundGen RoundSpec.
From Verif Require DepSpec.
Local Open Scope string_scope.

Definition kind (k : table) : ekind := match k with Structs => xSTRUCT | Unions => xUNION | Enums => xENUM | Aliases => xALIAS end.
Lemma kind_inj : forall k k', kind k = kind k' -> k = k'.
Proof. intros [] [] H; try reflexivity; discriminate H. Qed.
(** [R] has what was declared by the events [done]. *)
Record state (root : modl) (done : list event) (R : modl) : Prop := {
  st_sound : sound R;
  st_mod : forall q, exists_module R q = true <-> q = [] \/ In (EOpen q) done;
  st_entry : forall q k y t, entry R q k y = Some t <-> In (EDecl (Node q (kind k) y t)) done;
  st_const : forall q y t, In (EDecl (Node q xCONST y t)) done -> exists d d' k z, const_entry root q y = Some d /\ const_entry R q y = Some d' /\ is_int d k z /\ is_int d' k z;
  st_enum : forall q x nm sz vals y v, In (EDecl (Node q xENUM x (TEnum nm sz vals))) done -> assoc y vals = Some v -> exists d, const_entry R q y = Some d /\ is_int d PU32 (Z.of_N v);
  st_no_more : forall q y, const_entry R q y <> None -> (exists t, In (EDecl (Node q xCONST y t)) done) \/ exists x nm sz vals v, In (EDecl (Node q xENUM x (TEnum nm sz vals))) done /\ assoc y vals = Some v }.
(** The events declare what [root] has. *)
Definition admissible (root : modl) (done : list event) : Prop :=
  (forall n, In (EDecl n) done -> DepSpec.wanted root n) /\ forall q, In (EOpen q) done -> exists_module root q = true.

Lemma entry_exists : forall R q k y t, entry R q k y = Some t -> exists_module R q = true.
Proof. intros R q k y t H. unfold entry, tab_at, exists_module in *. destruct (mod_at R q); [reflexivity|]. destruct k; discriminate H. Qed.
Lemma const_exists : forall R q y d, const_entry R q y = Some d -> exists_module R q = true.
Proof. intros R q y d H. unfold const_entry, tab_at, exists_module in *. destruct (mod_at R q); [reflexivity|discriminate H]. Qed.
(** A symbol of a module is in one of its tables or a submodule. *)
Lemma declares_cases : forall R y q, no_nulls R -> (declares R y q = true <-> (exists k t, entry R q k y = Some t) \/ const_entry R q y <> None \/ exists_module R (y :: q) = true).
Proof.
  intros R y q N. unfold declares, entry, const_entry, exists_module, tab_at. cbn [mod_at]. destruct (mod_at R q) as [m|] eqn:M.
  - assert (X : mem y (m_inner m) = true <-> match match assoc y (m_inner m) with Some (Some x) => Some x | _ => None end with Some _ => true | None => false end = true).
    { unfold mem. pose proof (N y q m M) as Ny. destruct (assoc y (m_inner m)) as [[z|]|]; split; congruence. }
    unfold has_symbol_here. rewrite !orb_true_iff, X. clear X. unfold mem. split.
    + intros [[[[[H|H]|H]|H]|H]|H].
      * left. exists Structs. cbn [get_table]. destruct (assoc y (structs (m_tab m))); [eauto|discriminate H].
      * left. exists Unions. cbn [get_table]. destruct (assoc y (unions (m_tab m))); [eauto|discriminate H].
      * left. exists Aliases. cbn [get_table]. destruct (assoc y (aliases (m_tab m))); [eauto|discriminate H].
      * right. left. destruct (assoc y (consts (m_tab m))); [discriminate|discriminate H].
      * left. exists Enums. cbn [get_table]. destruct (assoc y (enums (m_tab m))); [eauto|discriminate H].
      * right. right. exact H.
    + intros [([] & t & H)|[H|H]]; cbn [get_table] in *; try (rewrite H; tauto). destruct (assoc y (consts (m_tab m))); [tauto|congruence].
  - split; [discriminate|]. intros [([] & t & H)|[H|H]]; try discriminate H. cbn in H. congruence.
Qed.
Lemma has_inner_exists : forall R c q, no_nulls R -> has_inner R c q = exists_module R (c :: q).
Proof.
  intros R c q N. unfold has_inner, exists_module. cbn [mod_at]. destruct (mod_at R q) as [m|] eqn:M; [|reflexivity]. unfold mem. pose proof (N c q m M) as Nc. destruct (assoc c (m_inner m)) as [[z|]|]; [reflexivity|congruence|reflexivity].
Qed.
Lemma wanted_node : forall root n, DepSpec.wanted root n -> In n (nodes_of root (n_in n)).
Proof. intros root n [H _]. apply all_in_tree in H. exact H. Qed.
Lemma wanted_place : forall root n, DepSpec.well_named root -> DepSpec.wanted root n -> exists_module root (n_in n) = true.
Proof. intros root n W [H _]. apply node_module; assumption. Qed.

Section State.
  Variable root : modl.
  Variable par : node -> option ty.
  Hypothesis W : DepSpec.well_named root.
  Hypothesis RO : round_ok root par.
  Variable done : list event.
  Variable R : modl.
  Hypothesis A : admissible root done.
  Hypothesis ST : state root done R.

  Lemma st_nulls : no_nulls R. Proof. apply ST. Qed.
  Lemma st_node : forall q k y t, entry R q k y = Some t -> In (Node q (kind k) y t) (nodes_of root q).
  Proof. intros q k y t H. apply (st_entry _ _ _ ST) in H. apply (proj1 A) in H. apply wanted_node in H. exact H. Qed.
  Lemma st_place : forall q, exists_module R q = true -> exists_module root q = true.
  Proof. intros q H. apply (st_mod _ _ _ ST) in H. destruct H as [->|H]; [reflexivity|]. apply (proj2 A), H. Qed.
  Lemma st_const_from : forall q y, const_entry R q y <> None -> (exists t, DepSpec.wanted root (Node q xCONST y t) /\ In (EDecl (Node q xCONST y t)) done) \/
    exists x nm sz vals v, In (EDecl (Node q xENUM x (TEnum nm sz vals))) done /\ assoc y vals = Some v /\ enumerator root q x y v.
  Proof.
    intros q y H. destruct (st_no_more _ _ _ ST q y H) as [(t & K)|(x & nm & sz & vals & v & K & Av)]; [left; exists t; split; [apply (proj1 A), K|exact K]|right].
    exists x, nm, sz, vals, v. split; [exact K|]. split; [exact Av|]. exists nm, sz, vals. split; [|exact Av]. apply (proj1 A) in K. apply wanted_node in K. exact K.
  Qed.
  Lemma st_known : forall y q, declares R y q = true -> known root q y.
  Proof.
    intros y q H. assert (E : exists_module root q = true). { apply st_place. unfold declares, exists_module in *. destruct (mod_at R q); [reflexivity|discriminate H]. }
    apply (declares_cases _ _ _ st_nulls) in H. destruct H as [(k & t & H)|[H|H]].
    - left. apply st_node in H. change y with (n_name (Node q (kind k) y t)). apply node_declares; assumption.
    - destruct (st_const_from q y H) as [(t & H1 & _)|(x & nm & sz & vals & v & _ & _ & H1)]; [left|right; eauto]. apply wanted_node in H1. cbn [n_in] in H1. change y with (n_name (Node q xCONST y t)). apply node_declares; assumption.
    - left. apply declares_cases; [apply W|]. right. right. apply st_place, H.
  Qed.
  Lemma st_hidden : forall p y, ~ visible root p y -> has_symbol R p y = false.
  Proof.
    intros p y H. rewrite has_symbol_enclosing. pose proof (enclosing_spec (declares R y) p) as S. destruct (enclosing (declares R y) p) as [q|]; [|reflexivity].
    destruct S as (Aq & Dq & _). exfalso. apply H. exists q. split; [exact Aq|apply st_known, Dq].
  Qed.
  Lemma enclosing_at : forall p h y, around h p -> declares R y h = true -> (forall q, around q p -> known root q y -> around q h) -> enclosing (declares R y) p = Some h.
  Proof.
    intros p h y Ah Dh H. pose proof (enclosing_spec (declares R y) p) as S. destruct (enclosing (declares R y) p) as [q|]; [|rewrite (S h Ah) in Dh; discriminate Dh].
    destruct S as (Aq & Dq & K). f_equal. apply around_antisym; [apply H; [exact Aq|apply st_known, Dq]|apply K; assumption].
  Qed.
  Lemma points_lookup : forall p s u k, exists_module R p = true -> points root p s u -> In (EDecl u) done -> n_kind u = kind k -> exists n, resolve n R p s = Ok (Some (n_in u, n_name u)).
  Proof.
    intros p s u k E (qs & -> & I & P) D K. destruct (path_lookup R p false qs (n_name u) st_nulls E I) as (n & Hn). exists n. cbn [render] in Hn. rewrite Hn. f_equal.
    assert (En : entry R (n_in u) k (n_name u) = Some (n_type u)). { apply (st_entry _ _ _ ST). rewrite <- K. destruct u. exact D. }
    pose proof (entry_exists _ _ _ _ _ En) as Eu. assert (Du : declares R (n_name u) (n_in u) = true) by (apply (declares_cases _ _ _ st_nulls); left; eauto).
    unfold lookup_name, named_module. destruct qs as [|q1 qs].
    - destruct P as [P1 P2]. cbn [rev app]. rewrite E. rewrite (enclosing_at p (n_in u) (n_name u) P1 Du P2). reflexivity.
    - destruct P as (h & P1 & P2 & P3). assert (X : enclosing (has_inner R q1) p = Some h).
      { pose proof (enclosing_spec (has_inner R q1) p) as S. assert (Hh : has_inner R q1 h = true).
        { rewrite (has_inner_exists _ _ _ st_nulls). apply (exists_around R (q1 :: h) (n_in u)); [|exact Eu]. exists (rev qs). rewrite <- P2. cbn [rev]. rewrite <- app_assoc. reflexivity. }
        destruct (enclosing (has_inner R q1) p) as [q|]; [|rewrite (S h P1) in Hh; discriminate Hh]. destruct S as (Aq & Dq & K2). f_equal. apply around_antisym; [|apply K2; assumption].
        apply P3; [exact Aq|]. rewrite (has_inner_exists _ _ _ st_nulls) in Dq. apply st_place, Dq. }
      rewrite X, P2, Eu. cbn [option_map]. destruct (n_in u) as [|a o]; cbn [enclosing]; rewrite Du; reflexivity.
  Qed.
  Lemma kind_of : forall u, n_kind u <> xCONST -> exists k, n_kind u = kind k.
  Proof. intros u H. destruct (n_kind u) eqn:K; [exists Aliases|congruence|exists Enums|exists Structs|exists Unions]; reflexivity. Qed.
  (** No other table has the name. *)
  Lemma st_once : forall u k k', In (EDecl u) done -> n_kind u = kind k -> k' <> k -> entry R (n_in u) k' (n_name u) = None.
  Proof.
    intros u k k' D K NE. destruct (entry R (n_in u) k' (n_name u)) as [t|] eqn:E; [|reflexivity]. exfalso. apply NE. apply st_node in E. apply (proj1 A) in D. apply wanted_node in D.
    pose proof (no_nodes _ (ro_once _ _ RO) _ _ _ E D eq_refl) as Q. apply (f_equal n_kind) in Q. cbn [n_kind] in Q. rewrite K in Q. now apply kind_inj in Q.
  Qed.
  Lemma qualified_scope : forall qs y, ident_path qs y -> match split_scope (qualified qs y) with Some (sc, _) => String.eqb sc "" = false | None => True end.
  Proof.
    intros qs y I. destruct (ident_path_names _ _ I) as [Iq Iy]. destruct qs as [|q qs]; [cbn [qualified]; rewrite (split_ident _ (proj2 Iy)); exact Logic.I|].
    inversion Iq as [|? ? [N1 N2] _]; subst. cbn [qualified]. rewrite split_app by exact N2. apply String.eqb_neq, N1.
  Qed.
  Lemma points_type : forall p s u, exists_module R p = true -> points root p s u -> In (EDecl u) done -> n_kind u <> xCONST -> names_type R p s (n_type u).
  Proof.
    intros p s u E P D K. destruct (kind_of u K) as (k & Kk). destruct (points_lookup p s u k E P D Kk) as (n & Hn). exists n. unfold type_named. rewrite Hn. cbn [bind type_of].
    assert (En : entry R (n_in u) k (n_name u) = Some (n_type u)). { apply (st_entry _ _ _ ST). rewrite <- Kk. destruct u. exact D. }
    pose proof (fun k' => st_once u k k' D Kk) as O. unfold entry in *. destruct P as (qs & -> & I & _). pose proof (qualified_scope qs _ I) as SS.
    set (tb := tab_at R (n_in u)) in *. set (x := n_name u) in *. match goal with |- context [match split_scope _ with Some _ => _ | None => Ok ?r end] => assert (X : r = Some (n_type u)) end.
    { destruct k; cbn [get_table] in En.
      - specialize (O Unions ltac:(discriminate)) as O1. specialize (O Aliases ltac:(discriminate)) as O2. cbn [get_table] in *. rewrite O2, O1, En. reflexivity.
      - specialize (O Aliases ltac:(discriminate)) as O2. cbn [get_table] in *. rewrite O2, En. reflexivity.
      - specialize (O Unions ltac:(discriminate)) as O1. specialize (O Aliases ltac:(discriminate)) as O2. specialize (O Structs ltac:(discriminate)) as O3. cbn [get_table] in *. rewrite O2, O1, O3, En. reflexivity.
      - rewrite En. reflexivity. }
    rewrite X. destruct (split_scope (qualified qs x)) as [[sc rest]|]; [rewrite SS|]; reflexivity.
  Qed.
  Lemma points_struct : forall p s u, exists_module R p = true -> points root p s u -> In (EDecl u) done -> n_kind u = xSTRUCT -> names_struct R p s (n_type u).
  Proof.
    intros p s u E P D K. destruct (points_lookup p s u Structs E P D K) as (n & Hn). exists n, (n_in u), (n_name u). unfold lookup. rewrite Hn. cbn [bind].
    assert (En : entry R (n_in u) Structs (n_name u) = Some (n_type u)). { apply (st_entry _ _ _ ST). cbn [kind]. rewrite <- K. destruct u. exact D. }
    unfold entry in En. rewrite En. reflexivity.
  Qed.
  Lemma absolute_struct : forall p s u, exists_module R p = true -> absolute s u -> In (EDecl u) done -> n_kind u = xSTRUCT -> names_struct R p s (n_type u).
  Proof.
    intros p s u E (-> & I) D K. destruct (path_lookup R p true (rev (n_in u)) (n_name u) st_nulls E I) as (n & Hn). exists n, (n_in u), (n_name u). unfold lookup. rewrite Hn. cbn [bind].
    assert (En : entry R (n_in u) Structs (n_name u) = Some (n_type u)). { apply (st_entry _ _ _ ST). cbn [kind]. rewrite <- K. destruct u. exact D. }
    pose proof (entry_exists _ _ _ _ _ En) as Eu. assert (Du : declares R (n_name u) (n_in u) = true) by (apply (declares_cases _ _ _ st_nulls); left; eauto).
    unfold lookup_name, named_module. rewrite rev_involutive, app_nil_r, Eu. cbn [option_map]. assert (X : enclosing (declares R (n_name u)) (n_in u) = Some (n_in u)) by (destruct (n_in u) as [|a o]; cbn [enclosing]; rewrite Du; reflexivity). rewrite X.
    unfold entry in En. cbn [option_map]. rewrite En. reflexivity.
  Qed.
  Lemma meant_named : forall name p t, exists_module R p = true -> all_meant name root p t -> readable name t ->
    (forall u, In u (all_nodes root) -> n_kind u <> xCONST -> In (n_type u) (DepSpec.named_in t) -> In (EDecl u) done) -> named_in name R p t.
  Proof.
    intros name p t E. assert (X : forall t, means root p (name t) t -> (forall u, In u (all_nodes root) -> n_kind u <> xCONST -> In (n_type u) [t] -> In (EDecl u) done) -> names_type R p (name t) t).
    { intros t' (u & Iu & Ku & Tu & P) D. rewrite <- Tu. apply points_type; [exact E|rewrite Tu; exact P| |exact Ku]. apply D; [exact Iu|exact Ku|left; symmetry; exact Tu]. }
    induction t as [p'|nm sz vals|k b|nm c IH b|c IH b|k IHk v IHv b|k IHk v IHv|nm sz ms|nm sz ms ls dv iv d|nm a] using ty_rect; intros M Re D; cbn [all_meant readable named_in DepSpec.named_in] in *; try exact Logic.I; try contradiction; try (apply X; [exact M|exact D]).
    - apply IH; [exact M|apply Re|exact D].
    - destruct M as [M1 M2]. destruct Re as (R1 & R2 & _). split; [apply IHk; auto; intros u H1 H2 H3; apply D; auto; apply in_or_app; left; exact H3|apply IHv; auto; intros u H1 H2 H3; apply D; auto; apply in_or_app; right; exact H3].
  Qed.
End State.
