(** Facts about the dependency tree and the emission order. *)
From Verif Require Import Base Types TyInd TypeBuild Mem Ops Module ModuleSpec ModuleFacts DepTree DepSpec.

(** ** Equality tests *)
Lemma place_eqb_eq p : forall q, place_eqb p q = true <-> p = q.
Proof.
  induction p as [| a p IH]; intros [| b q]; cbn; split; intro H; try discriminate; try reflexivity.
  - apply andb_true_iff in H. destruct H as [A B]. apply String.eqb_eq in A. apply IH in B. now subst.
  - inversion H; subst. rewrite String.eqb_refl. now apply IH.
Qed.
Lemma place_eqb_refl p : place_eqb p p = true. Proof. now apply place_eqb_eq. Qed.
Lemma ekind_eqb_eq a b : ekind_eqb a b = true <-> a = b.
Proof. destruct a, b; cbn; split; intro H; try discriminate; reflexivity. Qed.
Definition key (n : node) : place * ekind * string := (n_in n, n_kind n, n_name n).
Lemma node_eqb_key n m : node_eqb n m = true <-> key n = key m.
Proof.
  unfold node_eqb, key. rewrite !andb_true_iff, place_eqb_eq, ekind_eqb_eq, String.eqb_eq. split.
  - intros [[A B] C]. now rewrite A, B, C.
  - intro H. inversion H. auto.
Qed.
Lemma node_eqb_refl n : node_eqb n n = true. Proof. now apply node_eqb_key. Qed.

(** ** The modules of the tree *)
Lemma toward_some d f : forall i, toward d f = Some i -> exists c r, i = c :: d /\ f = r ++ i.
Proof.
  induction f as [| a o IH]; cbn; intros i H; [discriminate |].
  destruct (place_eqb o d) eqn:E.
  - inversion H; subst. apply place_eqb_eq in E. subst. exists a, []. auto.
  - destruct (IH _ H) as (c & r & -> & ->). exists c, (a :: r). auto.
Qed.
Lemma toward_below d c r : toward d (r ++ c :: d) = Some (c :: d).
Proof.
  induction r as [| a r IH]; cbn [app toward].
  - now rewrite place_eqb_refl.
  - destruct (place_eqb (r ++ c :: d) d) eqn:E; [| exact IH].
    apply place_eqb_eq in E. apply (f_equal (@List.length string)) in E. rewrite app_length in E. cbn in E. lia.
Qed.
Lemma toward_none d f : toward d f = None -> forall c r, f <> r ++ c :: d.
Proof. intros H c r ->. rewrite toward_below in H. discriminate. Qed.
Lemma inside_iff p q : inside p q = true <-> exists r c, p = r ++ c :: q.
Proof.
  unfold inside. destruct (toward q p) as [i |] eqn:E.
  - destruct (toward_some _ _ _ E) as (c & r & -> & ->). split; [intros _; now exists r, c | reflexivity].
  - split; [discriminate |]. intros (r & c & ->). now rewrite toward_below in E.
Qed.
Lemma outer_siblings_ok p dep a i : outer_siblings p dep = Ok (a, i) -> exists c c' o r r', a = c :: o /\ i = c' :: o /\ p = r ++ a /\ dep = r' ++ i.
Proof.
  revert a i. induction p as [| c o IH]; cbn; intros a i H; [discriminate |].
  destruct (toward o dep) as [j |] eqn:E.
  - inversion H; subst. destruct (toward_some _ _ _ E) as (c' & r' & -> & ->). exists c, c', o, [], r'. auto.
  - destruct (IH _ _ H) as (x & y & o' & r & r' & -> & -> & -> & ->). exists x, y, o', (c :: r), r'. auto.
Qed.

Lemma assoc_in {A} k (v : A) l : assoc k l = Some v -> In (k, v) l.
Proof.
  induction l as [| [k' w] r IH]; cbn; intro H; [discriminate |]. destruct (String.eqb k k') eqn:E.
  - apply String.eqb_eq in E. inversion H; subst. now left.
  - right. auto.
Qed.
Lemma in_assoc {A} k (v : A) l : NoDup (map fst l) -> In (k, v) l -> assoc k l = Some v.
Proof.
  induction l as [| [k' w] r IH]; cbn; intros N H; [contradiction |]. inversion N as [| a b Na Nb]; subst.
  destruct H as [H | H].
  - inversion H; subst. now rewrite String.eqb_refl.
  - destruct (String.eqb k k') eqn:E; [| auto]. apply String.eqb_eq in E. subst. exfalso. apply Na. apply in_map_iff. now exists (k', v).
Qed.

Lemma places_walk l : forall p m x, walk l m = Some x -> In (rev l ++ p) (places_from p m).
Proof.
  induction l as [| c r IH]; intros p m x H.
  - destruct m; cbn. now left.
  - destruct m as [nm tab inner]. cbn [walk m_inner] in H. destruct (assoc c inner) as [[y |] |] eqn:E; try discriminate.
    cbn [places_from]. right. apply in_flat_map. exists (c, Some y). split; [now apply assoc_in |]. cbn [snd fst].
    cbn [rev]. rewrite <- app_assoc. cbn [app]. eapply IH. exact H.
Qed.
Lemma walk_places : forall m p q, (forall l x, walk l m = Some x -> NoDup (map fst (m_inner x))) ->
  In q (places_from p m) -> exists l x, walk l m = Some x /\ q = rev l ++ p.
Proof.
  fix IH 1. intros [nm tab inner] p q N H. cbn [places_from] in H. destruct H as [H | H].
  - exists [], (Mod nm tab inner). auto.
  - assert (G : forall inner', (forall e, In e inner' -> In e inner) ->
      In q (flat_map (fun e => match snd e with Some x => places_from (fst e :: p) x | None => [] end) inner') ->
      exists l x, walk l (Mod nm tab inner) = Some x /\ q = rev l ++ p).
    { induction inner' as [| [c o] r IHr]; intros S I; cbn in I; [contradiction |].
      apply in_app_or in I. destruct I as [I | I]; [| apply IHr; auto; intros; apply S; now right].
      cbn in I. destruct o as [y |]; [| contradiction].
      assert (E : assoc c inner = Some (Some y)). { apply in_assoc; [exact (N [] _ eq_refl) | apply S; now left]. }
      destruct (IH y (c :: p) q) as (l & x & W & ->); [| exact I |].
      - intros l x W. apply (N (c :: l) x). cbn [walk m_inner]. now rewrite E.
      - exists (c :: l), x. split; [cbn [walk m_inner]; now rewrite E |]. cbn [rev]. now rewrite <- app_assoc. }
    apply (G inner); auto.
Qed.
Lemma places_exist root p : well_named root -> (In p (places root) <-> exists_module root p = true).
Proof.
  intros (_ & _ & N & _). unfold places, exists_module. rewrite mod_at_walk. split.
  - intro H. apply walk_places in H.
    + destruct H as (l & x & W & ->). rewrite app_nil_r, rev_involutive, W. reflexivity.
    + intros l x W. apply (N (rev l)). now rewrite mod_at_walk, rev_involutive.
  - destruct (walk (rev p) root) as [x |] eqn:W; [| discriminate]. intros _.
    apply (places_walk _ []) in W. now rewrite rev_involutive, app_nil_r in W.
Qed.

(** ** The nodes of the tree *)
Definition ktable (k : ekind) (t : tables) : list (string * ty) :=
  match k with xALIAS => aliases t | xCONST => const_types t | xENUM => enums t | xSTRUCT => structs t | xUNION => unions t end.
Lemma as_nodes_in n p k l : In n (as_nodes p k l) <-> n_in n = p /\ n_kind n = k /\ In (n_name n, n_type n) l.
Proof.
  unfold as_nodes. rewrite in_map_iff. split.
  - intros ([x t] & <- & H). cbn. auto.
  - intros (A & B & C). exists (n_name n, n_type n). split; [| exact C]. destruct n; cbn in *. now subst.
Qed.
Lemma nodes_of_in root p n : In n (nodes_of root p) <-> n_in n = p /\ In (n_name n, n_type n) (ktable (n_kind n) (tab_at root p)).
Proof.
  unfold nodes_of, nodes_in. rewrite !in_app_iff, !as_nodes_in. split.
  - intros [(A & B & C) | [(A & B & C) | [(A & B & C) | [(A & B & C) | (A & B & C)]]]]; rewrite B; auto.
  - intros (A & B). destruct (n_kind n); cbn in B; tauto.
Qed.
Lemma all_nodes_in root n : In n (all_nodes root) <-> In (n_in n) (places root) /\ In n (nodes_of root (n_in n)).
Proof.
  unfold all_nodes. rewrite in_flat_map. split.
  - intros (p & P & H). assert (H' := H). apply nodes_of_in in H'. destruct H' as [E _]. subst p. auto.
  - intros (P & H). now exists (n_in n).
Qed.
Lemma ktable_nodup root p k : well_named root -> NoDup (map fst (ktable k (tab_at root p))).
Proof.
  intros (_ & _ & _ & T & C & _). destruct k; cbn; [apply (T p Aliases) | apply C | apply (T p Enums) | apply (T p Structs) | apply (T p Unions)].
Qed.
Lemma nodes_key root p n m : well_named root -> In n (nodes_of root p) -> In m (nodes_of root p) -> node_eqb n m = true -> n = m.
Proof.
  intros W A B E. apply node_eqb_key in E. unfold key in E. injection E as E1 E2 E3.
  apply nodes_of_in in A. apply nodes_of_in in B. destruct A as [A1 A2], B as [B1 B2].
  rewrite <- E2, <- E3 in B2.
  assert (K := ktable_nodup root p (n_kind n) W). apply (in_assoc _ _ _ K) in A2. apply (in_assoc _ _ _ K) in B2.
  destruct n, m; cbn in *. congruence.
Qed.
Definition in_tree root (n : node) : Prop := In n (nodes_of root (n_in n)).
Lemma tree_key root n m : well_named root -> in_tree root n -> in_tree root m -> node_eqb n m = true -> n = m.
Proof.
  intros W A B E. assert (K := E). apply node_eqb_key in K. unfold key in K. injection K as K1 _ _.
  unfold in_tree in *. rewrite <- K1 in B. eapply nodes_key; eauto.
Qed.
Lemma in_tree_of root p n : In n (nodes_of root p) -> in_tree root n /\ n_in n = p.
Proof. intro H. assert (E := H). apply nodes_of_in in E. destruct E as [E _]. unfold in_tree. now rewrite E. Qed.

(** ** Precedence in the output *)
Definition ok_out (Q : list event -> event -> Prop) (o : list event) : Prop := forall pre e post, o = pre ++ e :: post -> Q pre e.
Lemma ok_out_nil Q : ok_out Q [].
Proof. intros [| a p] e post H; discriminate. Qed.
Lemma ok_out_snoc Q o e : ok_out Q o -> Q o e -> ok_out Q (o ++ [e]).
Proof.
  intros H HQ pre x post E. destruct post as [| y post] using rev_ind.
  - apply app_inj_tail in E. destruct E as [-> ->]. exact HQ.
  - rewrite app_comm_cons, app_assoc in E. apply app_inj_tail in E. destruct E as [-> _]. eapply H. reflexivity.
Qed.
Lemma ok_out_app Q o w : ok_out Q (o ++ w) -> ok_out Q o.
Proof. intros H pre e post E. apply (H pre e (post ++ w)). rewrite E, <- app_assoc. reflexivity. Qed.
Lemma before_split o a b : (exists pre post, o = pre ++ b :: post /\ In a pre) -> before o a b.
Proof.
  intros (pre & post & -> & H). apply in_split in H. destruct H as (l1 & l2 & ->). exists l1, l2, post. now rewrite <- app_assoc.
Qed.
Lemma ok_before Q o a b : ok_out Q o -> (forall pre, Q pre b -> In a pre) -> In b o -> before o a b.
Proof. intros H HQ HI. apply in_split in HI. destruct HI as (pre & post & ->). apply before_split. exists pre, post. split; [reflexivity |]. apply HQ, (H pre b post eq_refl). Qed.

(** ** The stack of open modules *)
Lemma stack_after_app stk o o' : stack_after stk (o ++ o') = match stack_after stk o with Some s => stack_after s o' | None => None end.
Proof.
  revert stk. induction o as [| e o IH]; intro stk; [reflexivity |]. cbn [app stack_after].
  destruct e as [p | p | n].
  - destruct p as [| c p'], stk as [| q stk']; try reflexivity; [apply IH |]. destruct (place_eqb p' q); [apply IH | reflexivity].
  - destruct stk as [| q stk']; [reflexivity |]. destruct (place_eqb p q); [apply IH | reflexivity].
  - destruct stk as [| q stk']; [reflexivity |]. destruct (place_eqb (n_in n) q); [apply IH | reflexivity].
Qed.
(** A module on the stack has been opened, and so have the modules around it. *)
Definition opened (o : list event) (stk : list place) : Prop := forall p, In p stk -> forall q, around q p -> In (EOpen q) o.
Lemma stack_opened o : forall stk stk' o0, opened o0 stk -> stack_after stk o = Some stk' -> opened (o0 ++ o) stk'.
Proof.
  induction o as [| e o IH]; intros stk stk' o0 HO H; cbn [stack_after] in H.
  - inversion H; subst. now rewrite app_nil_r.
  - assert (M : forall s, opened o0 s -> opened (o0 ++ [e]) s) by (intros s Hs p Hp q Hq; apply in_or_app; left; eapply Hs; eauto).
    change (e :: o) with ([e] ++ o). rewrite app_assoc. destruct e as [p | p | n].
    + destruct p as [| c p'].
      * destruct stk; [| discriminate]. eapply IH; [| exact H]. intros p [<- | []] q (r & E).
        symmetry in E. apply app_eq_nil in E. destruct E as [-> ->]. apply in_or_app. right. now left.
      * destruct stk as [| q0 stk0]; [discriminate |]. destruct (place_eqb p' q0) eqn:E0; [| discriminate]. apply place_eqb_eq in E0. subst q0.
        eapply IH; [| exact H]. intros p [<- | Hp] q Hq.
        -- destruct Hq as (r & E). destruct r as [| a r]; cbn in E.
           ++ subst q. apply in_or_app. right. now left.
           ++ inversion E; subst. apply in_or_app. left. apply (HO _ (or_introl eq_refl)). now exists r.
        -- apply M in HO. now apply (HO p Hp).
    + destruct stk as [| q stk0]; [discriminate |]. destruct (place_eqb p q); [| discriminate]. eapply IH; [| exact H].
      apply M. intros x Hx. apply HO. now right.
    + destruct stk as [| q stk0]; [discriminate |]. destruct (place_eqb (n_in n) q); [| discriminate]. eapply IH; [| exact H]. now apply M.
Qed.
(** In a well nested output a declaration follows the opening of its module and of the modules around it. *)
Lemma nested_decl o n q : well_nested o -> In (EDecl n) o -> around q (n_in n) -> exists pre post, o = pre ++ EDecl n :: post /\ In (EOpen q) pre.
Proof.
  intros W H Hq. apply in_split in H. destruct H as (pre & post & ->). exists pre, post. split; [reflexivity |].
  unfold well_nested in W. rewrite stack_after_app in W. destruct (stack_after [] pre) as [stk |] eqn:E; [| discriminate].
  cbn [stack_after] in W. destruct stk as [| p stk']; [discriminate |]. destruct (place_eqb (n_in n) p) eqn:E1; [| discriminate].
  apply place_eqb_eq in E1. subst p. apply (stack_opened pre [] _ []) in E; [| intros p []]. apply (E _ (or_introl eq_refl) q Hq).
Qed.
