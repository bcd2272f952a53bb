(** Deciding the hypotheses of the theorems for concrete trees. *)
From Verif Require Import Base Types TyInd TypeBuild Mem Ops Module ModuleSpec ModuleFacts DepTree DepSpec DepFacts DepGen DepSolve DepOrder.

Fixpoint nodupb (l : list string) : bool := match l with [] => true | a :: r => negb (existsb (String.eqb a) r) && nodupb r end.
Lemma nodupb_ok l : nodupb l = true -> NoDup l.
Proof.
  induction l as [| a r IH]; cbn; intro H; [constructor |]. apply andb_true_iff in H. destruct H as [A B]. constructor; [| auto].
  intro I. apply negb_true_iff in A. rewrite <- not_true_iff_false in A. apply A. apply existsb_exists. exists a. split; [exact I | apply String.eqb_refl].
Qed.
Definition identb (s : string) : bool := negb (String.eqb s "") && no_colon s.
Lemma identb_ok s : identb s = true -> ident s.
Proof. unfold identb. intro H. apply andb_true_iff in H. destruct H as [A B]. split; [| exact B]. apply negb_true_iff in A. now apply String.eqb_neq in A. Qed.
Definition shapeb (k : table) (t : ty) : bool :=
  match k, t with
  | Structs, TStruct _ _ _ | Unions, TUnion _ _ _ _ _ _ _ | Enums, TEnum _ _ _ | Aliases, TAlias _ _ => true
  | _, _ => false
  end.
Definition all_tables : list table := [Structs; Unions; Aliases; Enums].
Definition named_at (root : modl) (p : place) : bool :=
  match mod_at root p with
  | None => false
  | Some m => forallb (fun e => identb (fst e) && match snd e with Some _ => true | None => false end) (m_inner m) && nodupb (map fst (m_inner m)) &&
      forallb (fun k => nodupb (map fst (get_table k (m_tab m))) &&
                        forallb (fun e => identb (fst e) && shapeb k (snd e) && String.eqb (tname (snd e)) (scoped (scope p) (fst e))) (get_table k (m_tab m))) all_tables &&
      nodupb (map fst (const_types (m_tab m))) && forallb (fun e => identb (fst e)) (const_types (m_tab m)) &&
      (if list_eq_dec string_dec (map fst (const_types (m_tab m))) (map fst (consts (m_tab m))) then true else false)
  end.
Lemma at_place root p m : mod_at root p = Some m -> In p (places root).
Proof. intro H. rewrite mod_at_walk in H. unfold places. rewrite <- (rev_involutive p). rewrite <- (app_nil_r (rev (rev p))). eapply places_walk. exact H. Qed.
Lemma mem_map {A B} x (l : list (string * A)) (l' : list (string * B)) : map fst l = map fst l' -> mem x l = mem x l'.
Proof.
  unfold mem. revert l'. induction l as [| [a v] r IH]; intros [| [b w] r'] H; try discriminate; [reflexivity |]. cbn in H. injection H as -> H.
  cbn. destruct (String.eqb x b); [reflexivity |]. now apply IH.
Qed.
Lemma well_named_check root : forallb (named_at root) (places root) = true -> well_named root.
Proof.
  intro H. rewrite forallb_forall in H.
  assert (AT : forall p m, mod_at root p = Some m -> named_at root p = true) by (intros p m M; apply H; eapply at_place; eauto).
  assert (G : forall p m, mod_at root p = Some m ->
    (forall e, In e (m_inner m) -> ident (fst e) /\ snd e <> None) /\ NoDup (map fst (m_inner m)) /\
    (forall k, NoDup (map fst (get_table k (m_tab m))) /\ forall x t, In (x, t) (get_table k (m_tab m)) -> ident x /\ shape k t /\ tname t = scoped (scope p) x) /\
    NoDup (map fst (const_types (m_tab m))) /\ (forall x t, In (x, t) (const_types (m_tab m)) -> ident x) /\
    map fst (const_types (m_tab m)) = map fst (consts (m_tab m))).
  { intros p m M. assert (N := AT p m M). unfold named_at in N. rewrite M in N. rewrite !andb_true_iff in N. destruct N as [[[[[N1 N2] N3] N4] N5] N6].
    rewrite forallb_forall in N1, N3, N5. split; [| split; [| split; [| split; [| split]]]].
    - intros e He. specialize (N1 e He). apply andb_true_iff in N1. destruct N1 as [A B]. split; [now apply identb_ok |]. destruct (snd e); [discriminate | discriminate B].
    - now apply nodupb_ok.
    - intro k. assert (K : In k all_tables) by (destruct k; cbn; tauto). specialize (N3 k K). apply andb_true_iff in N3. destruct N3 as [A B]. split; [now apply nodupb_ok |].
      rewrite forallb_forall in B. intros x t I. specialize (B (x, t) I). cbn [fst snd] in B. rewrite !andb_true_iff in B. destruct B as [[B1 B2] B3].
      split; [now apply identb_ok |]. split; [destruct k, t; try discriminate; exact Logic.I | now apply String.eqb_eq].
    - now apply nodupb_ok.
    - intros x t I. apply identb_ok. apply (N5 (x, t) I).
    - destruct (list_eq_dec _ _ _); [assumption | discriminate]. }
  assert (NOTAB : forall p, mod_at root p = None -> tab_at root p = no_tables) by (intros p M; unfold tab_at; now rewrite M).
  assert (TAB : forall p m, mod_at root p = Some m -> tab_at root p = m_tab m) by (intros p m M; unfold tab_at; now rewrite M).
  split; [| split; [| split; [| split; [| split; [| split]]]]].
  - intros c p m M A. apply assoc_in in A. destruct (G p m M) as (X & _). destruct (X _ A) as [_ Y]. now apply Y.
  - intros q y. destruct (mod_at root q) as [m |] eqn:M; [| now rewrite (NOTAB q M)]. rewrite (TAB q m M). destruct (G q m M) as (_ & _ & _ & _ & _ & E). now apply mem_map.
  - intros p m M. destruct (G p m M) as (X & Y & _). split; [exact Y |]. apply Forall_forall. intros e He. now apply X.
  - intros p k. destruct (mod_at root p) as [m |] eqn:M; [rewrite (TAB p m M); apply (G p m M) | rewrite (NOTAB p M); destruct k; constructor].
  - intros p. destruct (mod_at root p) as [m |] eqn:M; [rewrite (TAB p m M); apply (G p m M) | rewrite (NOTAB p M); constructor].
  - intros p k x t _ I. destruct (mod_at root p) as [m |] eqn:M; [| rewrite (NOTAB p M) in I; destruct k; contradiction]. rewrite (TAB p m M) in I. destruct (G p m M) as (_ & _ & X & _). destruct (X k) as [_ Y]. now apply Y.
  - intros p x t _ I. destruct (mod_at root p) as [m |] eqn:M; [| rewrite (NOTAB p M) in I; contradiction]. rewrite (TAB p m M) in I. destruct (G p m M) as (_ & _ & _ & _ & X & _). apply (X x t I).
Qed.
Definition mentionsb (par : node -> option ty) (n u : node) : bool :=
  existsb (fun w => existsb (fun t => String.eqb (unscoped (tname t)) (n_name u)) (parts w)) (written par n).
Lemma mentionsb_iff par n u : mentionsb par n u = true <-> mentions par n u.
Proof.
  unfold mentionsb, mentions. rewrite existsb_exists. split.
  - intros (w & A & B). apply existsb_exists in B. destruct B as (t & B & C). exists w, t. apply String.eqb_eq in C. auto.
  - intros (w & t & A & B & C). exists w. split; [exact A |]. apply existsb_exists. exists t. split; [exact B |]. now apply String.eqb_eq.
Qed.
Fixpoint tails (p : place) : list place := match p with [] => [] | _ :: o => p :: tails o end.
Lemma tails_in c o p : around (c :: o) p -> In (c :: o) (tails p).
Proof. intros (r & ->). induction r as [| a r IH]; cbn; [now left | now right]. Qed.
Definition rank_check (root : modl) par (rank : place -> nat) : bool :=
  forallb (fun n => forallb (fun u => negb (mentionsb par n u) ||
    forallb (fun a => forallb (fun b => match a, b with c :: o, c' :: o' => negb (place_eqb o o') || String.eqb c c' || Nat.ltb (rank b) (rank a) | _, _ => true end)
      (tails (n_in u))) (tails (n_in n))) (all_nodes root)) (all_nodes root).
Lemma no_circle_check root par rank : rank_check root par rank = true -> no_circle root par.
Proof.
  intro H. exists rank. intros n u c c' o Hn Hu M A B NE. unfold rank_check in H. rewrite forallb_forall in H. specialize (H n Hn). rewrite forallb_forall in H. specialize (H u Hu).
  apply mentionsb_iff in M. rewrite M in H. cbn [negb orb] in H. rewrite forallb_forall in H. specialize (H _ (tails_in _ _ _ A)). rewrite forallb_forall in H. specialize (H _ (tails_in _ _ _ B)).
  cbn in H. rewrite place_eqb_refl in H. cbn in H. apply String.eqb_neq in NE. rewrite NE in H. cbn in H. now apply Nat.ltb_lt in H.
Qed.
(** All the named types a tree mentions, with a decision for membership left to the kernel. *)
Definition mentioned (root : modl) par : list ty := flat_map (fun n => filter opts (flat_map parts (written par n))) (all_nodes root).
Definition declared (root : modl) : list ty := map n_type (filter (fun u => negb (ekind_eqb (n_kind u) xCONST)) (all_nodes root)).
Lemma self_contained_check root par : incl (mentioned root par) (declared root) -> self_contained root par.
Proof.
  intros H n w t Hn Hw Ht Ho. assert (I : In t (mentioned root par)).
  { unfold mentioned. apply in_flat_map. exists n. split; [exact Hn |]. apply filter_In. split; [| exact Ho]. apply in_flat_map. now exists w. }
  apply H in I. unfold declared in I. apply in_map_iff in I. destruct I as (u & <- & I). apply filter_In in I. destruct I as [I K]. exists u. split; [exact I |]. split; [| reflexivity].
  intro E. rewrite E in K. discriminate.
Qed.
Definition unambiguousb (root : modl) (u : node) : bool :=
  (match n_in u with [] => forallb (fun q => match q with [] => true | _ => negb (declares root (n_name u) q) end) (places root) | _ => true end) &&
  Nat.leb (List.length (filter (fun m => String.eqb (n_name m) (n_name u)) (nodes_of root (n_in u)))) 1.
Lemma unambiguous_check root u : well_named root -> In u (all_nodes root) -> unambiguousb root u = true -> unambiguous root u.
Proof.
  intros W Hu H. unfold unambiguousb in H. apply andb_true_iff in H. destruct H as [A B]. split.
  - intros E q D. rewrite E in A. rewrite forallb_forall in A. destruct q as [| c q]; [reflexivity |].
    assert (I : In (c :: q) (places root)). { unfold declares in D. destruct (mod_at root (c :: q)) as [m |] eqn:M; [| discriminate]. eapply at_place; eauto. }
    specialize (A _ I). cbn in A. rewrite D in A. discriminate.
  - intros m Hm E. apply all_in_tree in Hu. unfold in_tree in Hu. apply Nat.leb_le in B.
    assert (I1 : In m (filter (fun x => String.eqb (n_name x) (n_name u)) (nodes_of root (n_in u)))) by (apply filter_In; split; [exact Hm | now apply String.eqb_eq]).
    assert (I2 : In u (filter (fun x => String.eqb (n_name x) (n_name u)) (nodes_of root (n_in u)))) by (apply filter_In; split; [exact Hu | now apply String.eqb_eq]).
    destruct (filter _ _) as [| x [| y l]]; [contradiction | | cbn in B; lia]. destruct I1 as [<- | []], I2 as [<- | []]. reflexivity.
Qed.

Definition has_decl (n : node) (o : list event) : bool := existsb (fun e => match e with EDecl m => node_eqb n m | _ => false end) o.
Lemma has_decl_in n o : In (EDecl n) o -> has_decl n o = true.
Proof. intro H. apply existsb_exists. exists (EDecl n). split; [exact H | apply node_eqb_refl]. Qed.
(** [u] is not before [n] when it is not in the part of the output that ends with the only [n]. *)
Fixpoint decl_free (u n : node) (o : list event) : bool :=
  match o with
  | [] => true
  | EDecl m :: r => if node_eqb n m then negb (has_decl n r) else negb (node_eqb u m) && decl_free u n r
  | _ :: r => decl_free u n r
  end.
Lemma not_before_check u n o : decl_free u n o = true -> ~ before o (EDecl u) (EDecl n).
Proof.
  intros H (a & b & c & ->). induction a as [| e a IH]; cbn [app decl_free] in H.
  - destruct (node_eqb n u).
    + assert (X : has_decl n (b ++ EDecl n :: c) = true) by (apply has_decl_in, in_or_app; right; now left). rewrite X in H. discriminate.
    + rewrite node_eqb_refl in H. discriminate.
  - destruct e as [p | p | m]; auto. destruct (node_eqb n m).
    + assert (X : has_decl n (a ++ EDecl u :: b ++ EDecl n :: c) = true) by (apply has_decl_in, in_or_app; right; right; apply in_or_app; right; now left). rewrite X in H. discriminate.
    + apply andb_true_iff in H. destruct H as [_ H]. auto.
Qed.
