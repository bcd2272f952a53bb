(** When the generation of a module ends. *)
From Verif Require Import Base Types TyInd TypeBuild Mem Ops Module ModuleSpec ModuleFacts DepTree DepSpec DepFacts DepGen DepSolve DepOrder.

(** ** The dependencies can be recorded *)
Lemma outer_siblings_total p dep : dep <> [] \/ p = [] -> p <> [] -> exists s, outer_siblings p dep = Ok s.
Proof.
  intros H. induction p as [| c o IH]; intro N; [now destruct N |]. cbn [outer_siblings].
  destruct (toward o dep) as [i |] eqn:T; [eauto |]. destruct o as [| c' o'].
  - exfalso. destruct H as [H | H]; [| discriminate]. destruct (exists_last H) as (l & x & ->). apply (toward_none _ _ T x l). reflexivity.
  - apply IH; [| discriminate]. destruct H as [H | H]; [now left | discriminate].
Qed.
Lemma search_in_exists root nm l p u : In p l -> In u (nodes_of root p) -> n_name u = unscoped nm -> scope_match p nm = true -> exists v, search_in root nm l = Some v.
Proof.
  intros Hp Hu Nu Mu. induction l as [| q l IH]; [contradiction |]. cbn [search_in].
  destruct (node_named root q nm) as [v |] eqn:E; [eauto |]. destruct Hp as [-> | Hp]; [| auto].
  exfalso. unfold node_named in E. assert (X := find_none _ _ E u Hu). cbn in X. rewrite Nu, String.eqb_refl, Mu in X. discriminate.
Qed.
Lemma set_dependency_total root n u D : well_named root -> In n (all_nodes root) -> In u (all_nodes root) -> n_kind u <> xCONST ->
  exists D', set_dependency root n (tname (n_type u)) (n_kind n) D = Ok D'.
Proof.
  intros W Hn Hu K. destruct (node_type_ok root u W Hu K) as (TN & _).
  assert (Eu := node_module root u W Hu). assert (In_u := place_idents root _ W Eu). destruct (node_named_ok root u W Hu) as [_ NCu].
  unfold set_dependency. destruct (String.eqb (n_name n) (tname (n_type u))); [eauto |].
  match goal with |- context [if ?b then _ else _] => destruct b eqn:NB end.
  { destruct (find _ _); eauto. }
  destruct (search_in_exists root (tname (n_type u)) (places root) (n_in u) u) as (v & Ev).
  - now apply places_exist.
  - now apply all_in_tree.
  - rewrite TN. symmetry. now apply scoped_unscoped.
  - rewrite TN. apply scope_match_scoped; auto.
  - rewrite Ev. destruct (toward (n_in n) (n_in v)) as [i |] eqn:T1; [eauto |]. destruct (inside (n_in n) (n_in v)) eqn:I1; [eauto |].
    destruct (search_in_some _ _ _ _ Ev) as (q & Hq & Hv & Nv & Mv). destruct (in_tree_of root q v Hv) as [Tv Pv]. subst q.
    assert (NE : n_in n <> n_in v).
    { intro E. assert (DV : declares root (n_name v) (n_in v) = true) by (apply node_declares; auto; now apply places_exist).
      rewrite <- E in DV, Mv. unfold declares in DV. rewrite Nv in DV. rewrite DV, Mv in NB. discriminate. }
    destruct (outer_siblings_total (n_in n) (n_in v)) as (s & ->).
    + destruct (n_in v) as [| x y] eqn:E; [right | left; discriminate]. destruct (n_in n) as [| z w] eqn:E1; [reflexivity |].
      assert (X : inside (z :: w) [] = true) by (destruct (@exists_last _ (z :: w)) as (l & a & ->); [discriminate |]; apply inside_iff; now exists l, a). congruence.
    + destruct (n_in n) as [| z w] eqn:E1; [| discriminate]. destruct (n_in v) as [| x y] eqn:E; [now destruct NE |].
      destruct (@exists_last _ (x :: y)) as (l & a & E2); [discriminate |]. exfalso. apply (toward_none _ _ T1 a l). exact E2.
    + cbn [bind]. eauto.
Qed.
Lemma solve_total root par : well_named root -> self_contained root par -> exists D, solve root par = Ok D.
Proof.
  intros W SC. unfold solve.
  assert (A : forall n l D, In n (all_nodes root) -> incl l (masters par n) -> exists D', set_all root n l D = Ok D').
  { intros n l. induction l as [| t l IH]; intros D Hn Hl; [cbn; eauto |]. cbn [set_all].
    assert (X : exists D1, (if opts t then set_dependency root n (tname t) (n_kind n) D else Ok D) = Ok D1).
    { destruct (opts t) eqn:O; [| eauto]. assert (Ht : In t (masters par n)) by (apply Hl; now left).
      assert (exists u, In u (all_nodes root) /\ n_kind u <> xCONST /\ n_type u = t) as (u & Hu & K & <-).
      { destruct (n_kind n) eqn:KN.
        3: { unfold masters in Ht. rewrite KN in Ht. destruct Ht as [<- | []]. exists n. rewrite KN. split; [exact Hn |]. split; [discriminate | reflexivity]. }
        all: destruct (masters_parts root par n t W Hn Ht O) as (w & B & C); [rewrite KN; discriminate | eapply SC; eauto]. }
      now apply set_dependency_total. }
    destruct X as (D1 & ->). cbn [bind]. apply IH; [exact Hn |]. intros x Hx. apply Hl. now right. }
  assert (B : forall l D, incl l (all_nodes root) -> exists D', solve_nodes root par l D = Ok D').
  { induction l as [| n l IH]; intros D Hl; [cbn; eauto |]. cbn [solve_nodes].
    destruct (A n (masters par n) D) as (D1 & ->); [apply Hl; now left | apply incl_refl |]. cbn [bind]. apply IH. intros x Hx. apply Hl. now right. }
  apply B, incl_refl.
Qed.

(** ** Termination *)
Definition deepest (root : modl) : nat := fold_right Nat.max 0%nat (map (@List.length string) (places root)).
Lemma deepest_ge root p : In p (places root) -> (List.length p <= deepest root)%nat.
Proof.
  unfold deepest. induction (places root) as [| q l IH]; cbn; intros H; [contradiction |]. destruct H as [-> | H]; [lia |]. specialize (IH H). lia.
Qed.
Lemma inner_exists root p q : well_named root -> In q (inner_of root p) -> exists c, q = c :: p /\ exists_module root q = true.
Proof.
  intros W H. unfold inner_of in H. destruct (mod_at root p) as [m |] eqn:M; [| contradiction].
  apply in_map_iff in H. destruct H as ([c v] & <- & H). exists c. split; [reflexivity |]. cbn [fst].
  destruct W as (NN & _ & N & _). destruct (N p m M) as [ND _]. unfold exists_module. cbn [mod_at]. rewrite M.
  rewrite (in_assoc _ _ _ ND H). destruct v as [y |]; [reflexivity |]. exfalso.
  apply (NN c p m M). now apply in_assoc.
Qed.
Lemma max_ge {A} (f : A -> nat) l x : In x l -> (f x <= fold_right Nat.max 0%nat (map f l))%nat.
Proof. induction l as [| q l IH]; cbn; intros H; [contradiction |]. destruct H as [-> | H]; [lia |]. specialize (IH H). lia. Qed.
Lemma gen_terminates root par D : well_named root -> solve root par = Ok D -> no_circle root par -> exists fuel s, gen_idl fuel root D [] gst0 = Ok s.
Proof.
  intros W HS (rank & HR). destruct (solve_from root par D HS) as [F _].
  assert (AROUND : forall n q, In n (all_nodes root) -> around q (n_in n) -> In q (places root)).
  { intros n q Hn Ha. apply places_exist; [exact W |]. eapply exists_around; [exact Ha |]. now apply node_module. }
  assert (RK : forall a b, In b (mod_ancestors D a) -> In b (places root) /\ List.length b = List.length a /\ (rank b < rank a)%nat).
  { intros a b H. apply mod_ancestors_iff in H. destruct (from_mod _ _ _ F a b H) as (c & c' & o & n & u & -> & -> & Hu & Sn & A1 & A2 & NE).
    split; [eapply AROUND; eauto |]. split; [reflexivity |]. assert (Hn : In n (all_nodes root)) by apply Sn.
    apply (HR n u); auto; [now apply (searched_mentions root) |]. apply NE. intro E.
    destruct Sn as (_ & t & _ & _ & Nm & NB & MU).
    assert (DV : declares root (n_name u) (n_in u) = true) by (apply node_declares; auto; [now apply node_module | now apply all_in_tree]).
    rewrite E, <- Nm, DV, MU in NB. discriminate. }
  assert (PX : forall n i, In i (parents D n) -> exists c, i = c :: n_in n /\ In i (places root)).
  { intros n i H. apply parents_iff in H. destruct H as (m & I & E). destruct (from_par _ _ _ F m i I) as (c & u & -> & Hu & A). exists c.
    apply node_eqb_key in E. unfold key in E. injection E as E _ _. rewrite E. split; [reflexivity | eapply AROUND; eauto]. }
  set (M := fold_right Nat.max 0%nat (map rank (places root))).
  assert (RM : forall p, In p (places root) -> (rank p <= M)%nat).
  { intros p Hp. apply (max_ge rank _ _ Hp). }
  set (mu := fun p : place => ((deepest root - List.length p) * S M + rank p)%nat).
  assert (G : forall f p s, In p (places root) -> (mu p < f)%nat -> exists s', gen_idl f root D p s = Ok s').
  { induction f as [| f IH]; intros p s Hp Hf; [lia |]. cbn [gen_idl]. destruct (it_mod p s); [eauto |].
    assert (GA : forall l s0, (forall q, In q l -> In q (places root) /\ (mu q < mu p)%nat) -> exists s', gen_all (gen_idl f root D) l s0 = Ok s').
    { induction l as [| q l IHl]; intros s0 Hl; [cbn; eauto |]. cbn [gen_all].
      assert (exists s1, (if it_mod q s0 then Ok s0 else gen_idl f root D q s0) = Ok s1) as (s1 & ->).
      { destruct (it_mod q s0); [eauto |]. destruct (Hl q (or_introl eq_refl)) as [A B]. apply IH; [exact A | lia]. }
      cbn [bind]. apply IHl. intros x Hx. apply Hl. now right. }
    assert (DEEP : forall c, In (c :: p) (places root) -> (mu (c :: p) < mu p)%nat).
    { intros c Hc. assert (B1 := deepest_ge root _ Hc). assert (B2 := RM _ Hc). unfold mu. cbn [List.length] in *.
      replace (deepest root - List.length p)%nat with (S (deepest root - S (List.length p)))%nat by lia. cbn [Nat.mul]. lia. }
    destruct (GA (mod_ancestors D p) s) as (s1 & ->).
    { intros q Hq. destruct (RK p q Hq) as (A & B & C). split; [exact A |]. unfold mu. rewrite B. lia. }
    cbn [bind]. match goal with |- context [gen_all _ (flat_map (parents D) (nodes_of root p)) ?x] => destruct (GA (flat_map (parents D) (nodes_of root p)) x) as (s4 & ->) end.
    { intros q Hq. apply in_flat_map in Hq. destruct Hq as (n & Hn & Hq). destruct (PX n q Hq) as (c & -> & A).
      destruct (in_tree_of root p n Hn) as [_ Pn]. rewrite Pn in *. split; [exact A | now apply DEEP]. }
    cbn [bind]. destruct (GA (inner_of root p) (gen_module root D p s4)) as (s6 & ->).
    { intros q Hq. destruct (inner_exists root p q W Hq) as (c & -> & A). apply (places_exist root _ W) in A. split; [exact A | now apply DEEP]. }
    cbn [bind]. eauto. }
  exists (S (mu [])). apply G; [| lia]. unfold places. destruct root; cbn. now left.
Qed.

(** ** A circle never ends *)
Definition free (C : place -> Prop) (s : gst) : Prop := forall a, C a -> it_mod a s = false.
Lemma gen_all_free (P : gst -> Prop) gen : (forall p s s', gen p s = Ok s' -> P s -> P s' /\ it_mod p s' = true /\ (forall q, it_mod q s = true -> it_mod q s' = true)) ->
  forall l s s', gen_all gen l s = Ok s' -> P s -> P s' /\ (forall q, In q l -> it_mod q s' = true) /\ (forall q, it_mod q s = true -> it_mod q s' = true).
Proof.
  intro G. induction l as [| q l IH]; intros s s' H FR.
  - cbn in H. inversion H; subst. split; [exact FR |]. split; [intros q [] | auto].
  - cbn [gen_all] in H. destruct (it_mod q s) eqn:E; cbn [bind] in H.
    + destruct (IH s s' H FR) as (A & B & K). split; [exact A |]. split; [| exact K]. intros x [<- | Hx]; auto.
    + apply bind_ok_iff in H. destruct H as (s1 & H1 & H). destruct (G _ _ _ H1 FR) as (A & B & K).
      destruct (IH s1 s' H A) as (A' & B' & K'). split; [exact A' |]. split; [| auto]. intros x [<- | Hx]; auto.
Qed.
Lemma sentences_mods root l : forall s, g_mods (sentences root l s) = g_mods s.
Proof. induction l as [| n l IH]; intro s; [reflexivity |]. unfold sentences in *. cbn [fold_left]. rewrite IH. unfold sentence. destruct (it_node n s); reflexivity. Qed.
Lemma gen_module_mods root D p s : g_mods (gen_module root D p s) = g_mods s.
Proof.
  unfold gen_module. generalize (nodes_of root p). intro l. revert s. induction l as [| n l IH]; intro s; [reflexivity |]. cbn [fold_left]. rewrite IH.
  unfold sentence. match goal with |- context [if ?b then _ else _] => destruct b end; cbn; apply sentences_mods.
Qed.
Lemma it_mod_same s s' q : g_mods s = g_mods s' -> it_mod q s = it_mod q s'. Proof. unfold it_mod. now intros ->. Qed.
Lemma gen_free root D (C : place -> Prop) : (forall a, C a -> exists b, C b /\ In b (mod_ancestors D a)) ->
  forall f p s s', gen_idl f root D p s = Ok s' -> free C s -> free C s' /\ it_mod p s' = true /\ (forall q, it_mod q s = true -> it_mod q s' = true).
Proof.
  intros HC. induction f as [| f IH]; intros p s s' H FR; [discriminate |]. cbn [gen_idl] in H. destruct (it_mod p s) eqn:IT.
  { inversion H; subst. auto. }
  apply bind_ok_iff in H. destruct H as (s1 & H1 & H). destruct (gen_all_free (free C) _ IH _ _ _ H1 FR) as (F1 & L1 & K1).
  assert (NP : ~ C p). { intro Cp. destruct (HC p Cp) as (b & Cb & Hb). specialize (L1 b Hb). rewrite (F1 b Cb) in L1. discriminate. }
  set (s2 := match p with [] => s1 | _ :: o => sentences root (filter (has_child D p) (nodes_of root o)) s1 end) in H.
  assert (M2 : g_mods s2 = g_mods s1) by (unfold s2; destruct p; [reflexivity | apply sentences_mods]).
  apply bind_ok_iff in H. destruct H as (s4 & H4 & H).
  assert (F3 : free C (out (EOpen p) s2)) by (intros a Ca; rewrite <- (F1 a Ca); apply it_mod_same; exact M2).
  destruct (gen_all_free (free C) _ IH _ _ _ H4 F3) as (F4 & _ & K4).
  apply bind_ok_iff in H. destruct H as (s6 & H6 & H).
  assert (F5 : free C (gen_module root D p s4)) by (intros a Ca; rewrite <- (F4 a Ca); apply it_mod_same, gen_module_mods).
  destruct (gen_all_free (free C) _ IH _ _ _ H6 F5) as (F6 & _ & K6).
  injection H as H. rewrite <- H.
  assert (STEP : forall q, it_mod q (Gst (g_nodes (out (EClose p) s6)) (p :: g_mods (out (EClose p) s6)) (g_out (out (EClose p) s6))) = place_eqb q p || it_mod q s6) by reflexivity.
  split; [| split].
  - intros a Ca. rewrite STEP. destruct (place_eqb a p) eqn:E; [apply place_eqb_eq in E; subst; contradiction |]. cbn. auto.
  - rewrite STEP, place_eqb_refl. reflexivity.
  - intros q Hq. rewrite STEP. apply orb_true_iff. right. apply K6. rewrite (it_mod_same _ s4) by apply gen_module_mods. apply K4.
    rewrite (it_mod_same _ s1) by exact M2. auto.
Qed.
Lemma same_suffix (x y : string) (r r' o : place) : r ++ x :: o = r' ++ y :: o -> x = y.
Proof. intros E. assert (X : r ++ [x] = r' ++ [y]) by (apply (app_inv_tail o); rewrite <- !app_assoc; exact E). apply app_inj_tail in X. apply X. Qed.
Lemma fork_unique (c c' c1 c2 : string) (r r' r1 r2 o o1 : place) : r1 ++ c1 :: o1 = r ++ c :: o -> r2 ++ c2 :: o1 = r' ++ c' :: o -> c1 <> c2 -> c <> c' ->
  c1 :: o1 = c :: o /\ c2 :: o1 = c' :: o.
Proof.
  intros E1 E2 N1 N2. apply app_eq_app in E1. apply app_eq_app in E2. destruct E1 as (l & [[_ E1] | [_ E1]]), E2 as (l' & [[_ E2] | [_ E2]]);
    assert (L1 := f_equal (@List.length string) E1); assert (L2 := f_equal (@List.length string) E2); rewrite app_length in L1, L2; cbn in L1, L2.
  - destruct l as [| x l], l' as [| y l']; cbn in *; try lia; [split; congruence |]. injection E1 as _ E1. injection E2 as _ E2.
    exfalso. apply N1. rewrite E1 in E2. now apply same_suffix in E2.
  - destruct l as [| x l], l' as [| y l']; cbn in *; try lia. split; congruence.
  - destruct l as [| x l], l' as [| y l']; cbn in *; try lia. split; congruence.
  - destruct l as [| x l], l' as [| y l']; cbn in *; try lia; [split; congruence |]. injection E1 as _ E1. injection E2 as _ E2.
    exfalso. apply N2. rewrite E1 in E2. now apply same_suffix in E2.
Qed.
Lemma circle_edges root par D C : well_named root -> solve root par = Ok D -> circle root par C -> forall a, C a -> exists b, C b /\ In b (mod_ancestors D a).
Proof.
  intros W HS (_ & HC) a Ca. destruct (HC a Ca) as (_ & c & c' & o & n & u & -> & Cb & NE & (r & A1) & (r' & A2) & (Hn & Hu & K & Hw) & DI & UA).
  exists (c' :: o). split; [exact Cb |].
  assert (NI : n_in n <> n_in u) by (intro E; apply NE; rewrite A1, A2 in E; now apply same_suffix in E).
  assert (HM : In (n_type u) (masters par n)).
  { eapply masters_written; eauto. intros KN E. apply NI. eapply names_differ; eauto. destruct KN as [-> | ->]; discriminate. }
  destruct (recorded_other root par D n u W HS Hn Hu K HM NI UA) as (_ & _ & RM).
  assert (T1 : forall (x y : string) (l l' t : place) , x <> y -> toward (l ++ x :: t) (l' ++ y :: t) = None).
  { intros x y l l' t XY. destruct (toward (l ++ x :: t) (l' ++ y :: t)) as [i |] eqn:T; [| reflexivity]. exfalso.
    destruct (toward_some _ _ _ T) as (z & w & -> & E). apply XY. change (z :: l ++ x :: t) with ((z :: l) ++ x :: t) in E. rewrite app_assoc in E.
    symmetry. eapply same_suffix. exact E. }
  destruct RM as (c1 & c2 & o1 & r1 & r2 & IM & E1 & E2 & N12).
  - rewrite A1, A2. now apply T1.
  - unfold inside. rewrite A1, A2. rewrite T1; [reflexivity | congruence].
  - rewrite A1 in E1. rewrite A2 in E2. destruct (fork_unique c c' c1 c2 r r' r1 r2 o o1) as [X Y]; auto. now rewrite X, Y in IM.
Qed.
(** The modules inside a finished one are finished. *)
Definition down (root : modl) (s : gst) : Prop := forall p q, it_mod p s = true -> In q (inner_of root p) -> it_mod q s = true.
Lemma gen_down root D : forall f p s s', gen_idl f root D p s = Ok s' -> down root s -> down root s' /\ it_mod p s' = true /\ (forall q, it_mod q s = true -> it_mod q s' = true).
Proof.
  induction f as [| f IH]; intros p s s' H FR; [discriminate |]. cbn [gen_idl] in H. destruct (it_mod p s) eqn:IT.
  { inversion H; subst. auto. }
  apply bind_ok_iff in H. destruct H as (s1 & H1 & H). destruct (gen_all_free (down root) _ IH _ _ _ H1 FR) as (F1 & _ & K1).
  set (s2 := match p with [] => s1 | _ :: o => sentences root (filter (has_child D p) (nodes_of root o)) s1 end) in H.
  assert (M2 : g_mods s2 = g_mods s1) by (unfold s2; destruct p; [reflexivity | apply sentences_mods]).
  assert (TR : forall x y, g_mods x = g_mods y -> down root y -> down root x).
  { intros x y E Hy a b Ha Hb. rewrite (it_mod_same _ _ b E). rewrite (it_mod_same _ _ a E) in Ha. eapply Hy; eauto. }
  apply bind_ok_iff in H. destruct H as (s4 & H4 & H).
  destruct (gen_all_free (down root) _ IH _ _ _ H4) as (F4 & _ & K4); [apply (TR _ s1); [exact M2 | exact F1] |].
  apply bind_ok_iff in H. destruct H as (s6 & H6 & H).
  destruct (gen_all_free (down root) _ IH _ _ _ H6) as (F6 & L6 & K6); [apply (TR _ s4); [apply gen_module_mods | exact F4] |].
  injection H as H. rewrite <- H.
  assert (STEP : forall q, it_mod q (Gst (g_nodes (out (EClose p) s6)) (p :: g_mods (out (EClose p) s6)) (g_out (out (EClose p) s6))) = place_eqb q p || it_mod q s6) by reflexivity.
  split; [| split].
  - intros a b Ha Hb. rewrite STEP in *. apply orb_true_iff. right. apply orb_true_iff in Ha. destruct Ha as [Ha | Ha].
    + apply place_eqb_eq in Ha. subst. auto.
    + eapply F6; eauto.
  - rewrite STEP, place_eqb_refl. reflexivity.
  - intros q Hq. rewrite STEP. apply orb_true_iff. right. apply K6. rewrite (it_mod_same _ s4) by apply gen_module_mods. apply K4.
    rewrite (it_mod_same _ s1) by exact M2. auto.
Qed.
Lemma circle_diverges root par D C f s : well_named root -> solve root par = Ok D -> circle root par C -> gen_idl f root D [] gst0 <> Ok s.
Proof.
  intros W HS HC H. assert (E := circle_edges root par D C W HS HC).
  destruct (gen_free root D C E f _ _ _ H) as (FR & _ & _); [intros a _; reflexivity |].
  destruct (gen_down root D f _ _ _ H) as (DN & R & _); [intros a b Ha; discriminate |].
  destruct HC as ((a & Ca) & HC). destruct (HC a Ca) as (EX & _).
  assert (ALL : forall p, exists_module root p = true -> it_mod p s = true).
  { induction p as [| c p IH]; intro X; [exact R |].
    assert (X' : exists_module root p = true) by (eapply exists_around; [exists [c]; reflexivity | exact X]).
    apply (DN p); [auto |]. unfold inner_of. unfold exists_module in X. cbn [mod_at] in X. destruct (mod_at root p) as [m |]; [| discriminate].
    destruct (assoc c (m_inner m)) as [[y |] |] eqn:A; try discriminate. apply in_map_iff. exists (c, Some y). split; [reflexivity |]. now apply assoc_in. }
  specialize (ALL a EX). rewrite (FR a Ca) in ALL. discriminate.
Qed.

(** ** More fuel does not matter *)
Lemma gen_all_mono (g g' : place -> gst -> res gst) : (forall p s s', g p s = Ok s' -> g' p s = Ok s') -> forall l s s', gen_all g l s = Ok s' -> gen_all g' l s = Ok s'.
Proof.
  intro G. induction l as [| q l IH]; intros s s' H; [exact H |]. cbn [gen_all] in *. apply bind_ok_iff in H. destruct H as (s1 & H1 & H).
  assert (E : (if it_mod q s then Ok s else g' q s) = Ok s1) by (destruct (it_mod q s); auto). rewrite E. cbn [bind]. auto.
Qed.
Lemma gen_idl_S f root D p s : gen_idl (S f) root D p s =
  if it_mod p s then Ok s
  else
    do s1 <- gen_all (gen_idl f root D) (mod_ancestors D p) s;
    do s4 <- gen_all (gen_idl f root D) (flat_map (parents D) (nodes_of root p)) (out (EOpen p) (match p with [] => s1 | _ :: o => sentences root (filter (has_child D p) (nodes_of root o)) s1 end));
    do s6 <- gen_all (gen_idl f root D) (inner_of root p) (gen_module root D p s4);
    Ok (Gst (g_nodes (out (EClose p) s6)) (p :: g_mods (out (EClose p) s6)) (g_out (out (EClose p) s6))).
Proof. reflexivity. Qed.
Lemma gen_fuel root D : forall f p s s', gen_idl f root D p s = Ok s' -> gen_idl (S f) root D p s = Ok s'.
Proof.
  induction f as [| f IH]; intros p s s' H; [discriminate |]. rewrite gen_idl_S in H. rewrite gen_idl_S.
  destruct (it_mod p s); [exact H |]. apply bind_ok_iff in H. destruct H as (s1 & H1 & H). rewrite (gen_all_mono _ _ IH _ _ _ H1). cbn [bind].
  apply bind_ok_iff in H. destruct H as (s4 & H4 & H). rewrite (gen_all_mono _ _ IH _ _ _ H4). cbn [bind].
  apply bind_ok_iff in H. destruct H as (s6 & H6 & H). rewrite (gen_all_mono _ _ IH _ _ _ H6). cbn [bind]. exact H.
Qed.
Lemma gen_fuel_le root D f g p s s' : (f <= g)%nat -> gen_idl f root D p s = Ok s' -> gen_idl g root D p s = Ok s'.
Proof. induction 1; intro H'; [exact H' |]. apply gen_fuel. auto. Qed.
