(** Invariants of the emission. *)
From Verif Require Import Base Types TypeBuild Mem Ops Module ModuleSpec ModuleFacts DepTree DepSpec DepFacts.

Definition early (D : deps) (n : node) : Prop := exists c, has_child D (c :: n_in n) n = true.
(** What precedes an event.  [SM n u]: the declaration [u] of the same module must precede [n]. *)
Definition Q (root : modl) (D : deps) (SM : node -> node -> Prop) (pre : list event) (e : event) : Prop :=
  match e with
  | EOpen p => (forall b, In b (mod_ancestors D p) -> In (EClose b) pre) /\
               match p with [] => True | _ :: o => forall u, In u (nodes_of root o) -> has_child D p u = true -> printed root u = true -> In (EDecl u) pre end
  | EClose p => (forall u, In u (nodes_of root p) -> printed root u = true -> In (EDecl u) pre) /\
                (forall i, In i (inner_of root p) -> In (EClose i) pre)
  | EDecl n => ~ early D n -> (forall i, In i (parents D n) -> In (EClose i) pre) /\ (forall u, SM n u -> printed root u = true -> In (EDecl u) pre)
  end.
Record Inv (root : modl) (D : deps) (SM : node -> node -> Prop) (s : gst) : Prop := {
  inv_q : ok_out (Q root D SM) (g_out s);
  inv_tree : forall n, In n (g_nodes s) -> in_tree root n;
  inv_out : forall n, In n (g_nodes s) -> printed root n = true -> In (EDecl n) (g_out s);
  inv_times : forall n, in_tree root n -> times n (g_out s) = if it_node n s && printed root n then 1%nat else 0%nat;
  inv_decl : forall n, In (EDecl n) (g_out s) -> In n (g_nodes s);
  inv_mods : forall p, In p (g_mods s) -> In (EClose p) (g_out s) }.
Definition step root D SM stk (s s' : gst) : Prop :=
  exists w, g_out s' = g_out s ++ w /\ stack_after stk w = Some stk /\ Inv root D SM s' /\ incl (g_nodes s) (g_nodes s') /\ incl (g_mods s) (g_mods s').
Lemma step_refl root D SM stk s : Inv root D SM s -> step root D SM stk s s.
Proof. intro I. exists []. rewrite app_nil_r. repeat split; auto using incl_refl. all: apply I. Qed.
Lemma step_trans root D SM stk s1 s2 s3 : step root D SM stk s1 s2 -> step root D SM stk s2 s3 -> step root D SM stk s1 s3.
Proof.
  intros (w & A & B & C & E & F) (w' & A' & B' & C' & E' & F'). exists (w ++ w').
  split; [rewrite A', A, app_assoc; reflexivity |]. split; [now rewrite stack_after_app, B |]. split; [exact C' |].
  split; eapply incl_tran; eauto.
Qed.
Lemma it_node_in root s n : well_named root -> (forall m, In m (g_nodes s) -> in_tree root m) -> in_tree root n -> (it_node n s = true <-> In n (g_nodes s)).
Proof.
  intros W T H. unfold it_node. rewrite existsb_exists. split.
  - intros (m & M & E). now rewrite (tree_key root n m W H (T m M) E).
  - intro I. exists n. split; [exact I | apply node_eqb_refl].
Qed.
Lemma it_mod_in p s : it_mod p s = true <-> In p (g_mods s).
Proof.
  unfold it_mod. rewrite existsb_exists. split.
  - intros (q & I & E). apply place_eqb_eq in E. now subst.
  - intro I. exists p. split; [exact I | apply place_eqb_refl].
Qed.
Lemma times_app n o o' : times n (o ++ o') = (times n o + times n o')%nat.
Proof. unfold times. now rewrite filter_app, app_length. Qed.

Lemma sentence_ok root D SM stk n s : well_named root -> Inv root D SM s -> in_tree root n -> hd_error stk = Some (n_in n) ->
  (it_node n s = false -> printed root n = true -> Q root D SM (g_out s) (EDecl n)) ->
  step root D SM stk s (sentence root n s) /\ In n (g_nodes (sentence root n s)) /\ g_mods (sentence root n s) = g_mods s.
Proof.
  intros W I T HS HQ. unfold sentence. destruct (it_node n s) eqn:IT.
  - split; [now apply step_refl |]. split; [| reflexivity]. now apply (it_node_in root s n W (inv_tree _ _ _ _ I) T).
  - split; [| split; [cbn; apply in_or_app; right; now left | reflexivity]].
    assert (NI : ~ In n (g_nodes s)) by (intro H; apply (it_node_in root s n W (inv_tree _ _ _ _ I) T) in H; congruence).
    assert (ITN : forall m, in_tree root m -> it_node m {| g_nodes := g_nodes s ++ [n]; g_mods := g_mods s; g_out := if printed root n then g_out s ++ [EDecl n] else g_out s |} = it_node m s || node_eqb m n).
    { intros m _. unfold it_node. cbn [g_nodes]. rewrite existsb_app. cbn. now rewrite orb_false_r. }
    destruct (printed root n) eqn:P.
    + exists [EDecl n]. cbn [g_out g_nodes g_mods]. split; [reflexivity |]. split.
      { destruct stk as [| q stk']; [discriminate |]. cbn in HS. inversion HS; subst. cbn. now rewrite place_eqb_refl. }
      split; [| split; [apply incl_appl, incl_refl | apply incl_refl]].
      constructor; cbn [g_out g_nodes g_mods].
      * apply ok_out_snoc; [apply I | now apply HQ].
      * intros m H. apply in_app_or in H. destruct H as [H | [<- | []]]; [now apply (inv_tree _ _ _ _ I) | exact T].
      * intros m H PM. apply in_app_or in H. apply in_or_app. destruct H as [H | [<- | []]]; [left; now apply (inv_out _ _ _ _ I) | right; now left].
      * intros m TM. rewrite times_app, (inv_times _ _ _ _ I m TM). rewrite ITN by exact TM. unfold times. cbn.
        destruct (node_eqb m n) eqn:E.
        -- assert (m = n) by (eapply tree_key; eauto). subst m. rewrite IT, P. reflexivity.
        -- cbn. rewrite orb_false_r. lia.
      * intros m H. apply in_app_or in H. apply in_or_app. destruct H as [H | [H | []]]; [left; now apply (inv_decl _ _ _ _ I) | right; inversion H; now left].
      * intros p H. apply in_or_app. left. now apply (inv_mods _ _ _ _ I).
    + exists []. cbn [g_out g_nodes g_mods]. rewrite app_nil_r. split; [reflexivity |]. split; [reflexivity |].
      split; [| split; [apply incl_appl, incl_refl | apply incl_refl]].
      constructor; cbn [g_out g_nodes g_mods].
      * apply I.
      * intros m H. apply in_app_or in H. destruct H as [H | [<- | []]]; [now apply (inv_tree _ _ _ _ I) | exact T].
      * intros m H PM. apply in_app_or in H. destruct H as [H | [<- | []]]; [now apply (inv_out _ _ _ _ I) | congruence].
      * intros m TM. rewrite (inv_times _ _ _ _ I m TM). rewrite ITN by exact TM.
        destruct (node_eqb m n) eqn:E; [| now rewrite orb_false_r].
        assert (m = n) by (eapply tree_key; eauto). subst m. rewrite IT, P, orb_true_r. reflexivity.
      * intros m H. apply in_or_app. left. now apply (inv_decl _ _ _ _ I).
      * apply I.
Qed.

(** A list of sentences of one module; [ok] gives what must precede each. *)
Lemma sentences_ok root D SM stk p : well_named root -> hd_error stk = Some p -> forall l s, Inv root D SM s ->
  (forall n, In n l -> In n (nodes_of root p)) ->
  (forall n s', In n l -> step root D SM stk s s' -> it_node n s' = false -> printed root n = true -> Q root D SM (g_out s') (EDecl n)) ->
  step root D SM stk s (sentences root l s) /\ (forall n, In n l -> In n (g_nodes (sentences root l s))) /\ g_mods (sentences root l s) = g_mods s.
Proof.
  intros W HS. induction l as [| n l IH]; intros s I HN HQ.
  - cbn. split; [now apply step_refl |]. split; [intros n [] | reflexivity].
  - cbn [sentences fold_left]. fold (sentences root l (sentence root n s)).
    destruct (in_tree_of root p n (HN n (or_introl eq_refl))) as [T E].
    destruct (sentence_ok root D SM stk n s W I T) as (S1 & I1 & M1).
    { now rewrite E. }
    { apply HQ; [now left | now apply step_refl]. }
    destruct (IH (sentence root n s)) as (S2 & I2 & M2).
    { destruct S1 as (w & _ & _ & X & _). exact X. }
    { intros m Hm. apply HN. now right. }
    { intros m s' Hm St. apply HQ; [now right |]. eapply step_trans; eauto. }
    split; [eapply step_trans; eauto |]. split; [| now rewrite M2].
    intros m [<- | Hm]; [| auto]. destruct S2 as (w & _ & _ & _ & X & _). now apply X.
Qed.

(** The conditions on the recorded dependencies. *)
Record Dok (root : modl) (D : deps) (SM : node -> node -> Prop) : Prop := {
  dok_mod : forall a b, In b (mod_ancestors D a) -> exists c c' o, a = c :: o /\ b = c' :: o;
  dok_par : forall n i, In i (parents D n) -> exists c, i = c :: n_in n;
  dok_anc : forall p n a, In n (nodes_of root p) -> In a (ancestors D n) -> In a (nodes_of root p);
  dok_sm : forall p l1 n l2, nodes_of root p = l1 ++ n :: l2 ->
    (forall a, In a (ancestors D n) -> In a l1 \/ forall u, SM a u -> In u l1) /\
    (forall u, SM n u -> In u l1 \/ In u (ancestors D n)) }.

Lemma gen_module_ok root D SM stk p s : well_named root -> Dok root D SM -> hd_error stk = Some p -> Inv root D SM s ->
  (forall n i, In n (nodes_of root p) -> In i (parents D n) -> In i (g_mods s)) ->
  step root D SM stk s (gen_module root D p s) /\ (forall n, In n (nodes_of root p) -> In n (g_nodes (gen_module root D p s))) /\
  g_mods (gen_module root D p s) = g_mods s.
Proof.
  intros W DK HS I HP. unfold gen_module.
  assert (G : forall l2 l1 s', nodes_of root p = l1 ++ l2 -> step root D SM stk s s' -> g_mods s' = g_mods s -> (forall n, In n l1 -> In n (g_nodes s')) ->
    let s2 := fold_left (fun s n => sentence root n (sentences root (ancestors D n) s)) l2 s' in
    step root D SM stk s s2 /\ (forall n, In n (nodes_of root p) -> In n (g_nodes s2)) /\ g_mods s2 = g_mods s).
  { induction l2 as [| n l2 IH]; intros l1 s' E S M HL.
    - cbn. rewrite app_nil_r in E. rewrite E. auto.
    - cbn [fold_left]. destruct (dok_sm _ _ _ DK p l1 n l2 E) as [DA DN].
      assert (Hn : In n (nodes_of root p)) by (rewrite E; apply in_or_app; right; now left).
      assert (PC : forall m x, In m (nodes_of root p) -> step root D SM stk s x -> forall i, In i (parents D m) -> In (EClose i) (g_out x)).
      { intros m x Hm (w & Ew & _ & X & _ & XM) i Hi. apply (inv_mods _ _ _ _ X). apply XM. eapply HP; eauto. }
      assert (OUT : forall x u, step root D SM stk s' x -> In u (g_nodes x) -> printed root u = true -> In (EDecl u) (g_out x)).
      { intros x u (w & Ew & _ & X & _) Hu Pu. now apply (inv_out _ _ _ _ X). }
      destruct S as (w0 & Ew0 & Sw0 & I' & Gn & Gm).
      assert (S : step root D SM stk s s') by (exists w0; auto).
      destruct (sentences_ok root D SM stk p W HS (ancestors D n) s' I') as (S1 & I1 & M1).
      { intros a Ha. eapply (dok_anc _ _ _ DK); eauto. }
      { intros a x Ha Sx IT Pa _. split.
        - intros i Hi. apply (PC a x); [eapply (dok_anc _ _ _ DK); eauto | eapply step_trans; eauto | exact Hi].
        - intros u Hu Pu. apply (OUT x u Sx); [| exact Pu].
          assert (Sx' := Sx). destruct Sx' as (wx & _ & _ & X & Xn & _).
          destruct (DA a Ha) as [Hl | Hl].
          + exfalso. assert (TA : in_tree root a) by (eapply in_tree_of; eapply (dok_anc _ _ _ DK); eauto).
            assert (Y : it_node a x = true) by (apply (it_node_in root x a W (inv_tree _ _ _ _ X) TA); apply Xn, HL, Hl). congruence.
          + apply Xn, HL, Hl, Hu. }
      set (s1 := sentences root (ancestors D n) s') in *.
      assert (I1v : Inv root D SM s1) by (destruct S1 as (w & _ & _ & X & _); exact X).
      destruct (in_tree_of root p n Hn) as [T En].
      destruct (sentence_ok root D SM stk n s1 W I1v T) as (S2 & I2 & M2).
      { now rewrite En. }
      { intros _ Pn _. split.
        - apply (PC n s1 Hn). eapply step_trans; eauto.
        - intros u Hu Pu. apply (OUT s1 u S1); [| exact Pu]. destruct (DN u Hu) as [Hl | Ha]; [| now apply I1].
          destruct S1 as (w & _ & _ & _ & X & _). apply X, HL, Hl. }
      apply (IH (l1 ++ [n])).
      + rewrite <- app_assoc. exact E.
      + eapply step_trans; [exact S |]. eapply step_trans; eauto.
      + now rewrite M2, M1.
      + intros m Hm. apply in_app_or in Hm. destruct Hm as [Hm | [<- | []]]; [| exact I2].
        destruct S2 as (w & _ & _ & _ & X & _). apply X. destruct S1 as (w' & _ & _ & _ & X' & _). apply X', HL, Hm. }
  apply (G (nodes_of root p) [] s); auto.
  - now apply step_refl.
  - intros n [].
Qed.

Definition sits (stk : list place) (p : place) : Prop := match p with [] => stk = [] | _ :: o => hd_error stk = Some o end.
Definition gen_good root D SM (gen : place -> gst -> res gst) : Prop :=
  forall p s s' stk, gen p s = Ok s' -> Inv root D SM s -> sits stk p -> step root D SM stk s s' /\ In p (g_mods s').
Lemma gen_all_ok root D SM gen stk : gen_good root D SM gen -> forall l s s', gen_all gen l s = Ok s' -> Inv root D SM s -> (forall q, In q l -> sits stk q) ->
  step root D SM stk s s' /\ (forall q, In q l -> In q (g_mods s')).
Proof.
  intro G. induction l as [| q l IH]; intros s s' H I HS.
  - cbn in H. inversion H; subst. split; [now apply step_refl | intros q []].
  - cbn [gen_all] in H. destruct (it_mod q s) eqn:E; cbn [bind] in H.
    + destruct (IH _ _ H I) as [A B]; [intros; apply HS; now right |]. split; [exact A |]. intros x [<- | Hx]; [| auto].
      destruct A as (w & _ & _ & _ & _ & M). apply M. now apply it_mod_in.
    + destruct (gen q s) as [s1 |] eqn:E1; [| discriminate]. cbn [bind] in H.
      destruct (G _ _ _ stk E1 I) as [A1 B1]; [apply HS; now left |].
      destruct (IH _ _ H) as [A B]; [destruct A1 as (w & _ & _ & X & _); exact X | intros; apply HS; now right |].
      split; [eapply step_trans; eauto |]. intros x [<- | Hx]; [| auto]. destruct A as (w & _ & _ & _ & _ & M). now apply M.
Qed.
Lemma times_out n o e : (match e with EDecl _ => False | _ => True end) -> times n (o ++ [e]) = times n o.
Proof. intro H. rewrite times_app. destruct e; try contradiction; unfold times; cbn; lia. Qed.
Lemma out_inv root D SM e s : Inv root D SM s -> (match e with EDecl _ => False | _ => True end) -> Q root D SM (g_out s) e -> Inv root D SM (out e s).
Proof.
  intros I HE HQ. destruct I as [I1 I2 I3 I4 I5 I6]. constructor; cbn [out g_out g_nodes g_mods].
  - apply ok_out_snoc; assumption.
  - exact I2.
  - intros n A B. apply in_or_app. left. auto.
  - intros n T. rewrite times_out by exact HE. apply I4, T.
  - intros n H. apply in_app_or in H. destruct H as [H | [H | []]]; [auto |]. subst e. contradiction.
  - intros p H. apply in_or_app. left. auto.
Qed.

Lemma gen_ok root D SM : well_named root -> Dok root D SM -> forall f, gen_good root D SM (gen_idl f root D).
Proof.
  intros W DK. induction f as [| f IH]; intros p s s' stk H I HS; [discriminate |].
  cbn [gen_idl] in H. destruct (it_mod p s) eqn:IT.
  { inversion H; subst. split; [now apply step_refl | now apply it_mod_in]. }
  apply bind_ok_iff in H. destruct H as (s1 & H1 & H).
  set (s2 := match p with [] => s1 | _ :: o => sentences root (filter (has_child D p) (nodes_of root o)) s1 end) in H.
  apply bind_ok_iff in H. destruct H as (s4 & H4 & H). apply bind_ok_iff in H. destruct H as (s6 & H6 & H). injection H as <-.
  (* the siblings *)
  destruct (gen_all_ok root D SM _ stk IH _ _ _ H1 I) as (S1 & M1).
  { intros b Hb. destruct (dok_mod _ _ _ DK p b Hb) as (c & c' & o & -> & ->). exact HS. }
  assert (I1 : Inv root D SM s1) by (destruct S1 as (w & _ & _ & X & _); exact X).
  (* the nodes of the outer module *)
  assert (A2 : step root D SM stk s1 s2 /\ g_mods s2 = g_mods s1 /\
               match p with [] => True | _ :: o => forall u, In u (nodes_of root o) -> has_child D p u = true -> In u (g_nodes s2) end).
  { destruct p as [| c o]; [split; [now apply step_refl | auto] |].
    destruct (sentences_ok root D SM stk o W HS (filter (has_child D (c :: o)) (nodes_of root o)) s1 I1) as (A & B & C).
    - intros n Hn. apply filter_In in Hn. apply Hn.
    - intros n x Hn _ _ _ NE. exfalso. apply NE. apply filter_In in Hn. destruct Hn as [Hn Hc].
      destruct (in_tree_of root o n Hn) as [_ E]. exists c. now rewrite E.
    - split; [exact A |]. split; [exact C |]. intros u Hu Hc. apply B. apply filter_In. auto. }
  destruct A2 as (S2 & M2 & C2). assert (I2 : Inv root D SM s2) by (destruct S2 as (w & _ & _ & X & _); exact X).
  (* open *)
  assert (Q3 : Q root D SM (g_out s2) (EOpen p)).
  { cbn. split.
    - intros b Hb. apply (inv_mods _ _ _ _ I2). rewrite M2. auto.
    - destruct p as [| c o]; [exact Logic.I |]. intros u Hu Hc Pu. apply (inv_out _ _ _ _ I2); auto. }
  assert (I3 : Inv root D SM (out (EOpen p) s2)) by (apply out_inv; [exact I2 | exact Logic.I | exact Q3]).
  (* inner modules needed by the nodes *)
  destruct (gen_all_ok root D SM _ (p :: stk) IH _ _ _ H4 I3) as (S4 & M4).
  { intros i Hi. apply in_flat_map in Hi. destruct Hi as (n & Hn & Hi). destruct (dok_par _ _ _ DK n i Hi) as (c & ->).
    destruct (in_tree_of root p n Hn) as [_ ->]. reflexivity. }
  assert (I4 : Inv root D SM s4) by (destruct S4 as (w & _ & _ & X & _); exact X).
  destruct (gen_module_ok root D SM (p :: stk) p s4 W DK eq_refl I4) as (S5 & N5 & M5).
  { intros n i Hn Hi. apply M4. apply in_flat_map. now exists n. }
  set (s5 := gen_module root D p s4) in *. assert (I5 : Inv root D SM s5) by (destruct S5 as (w & _ & _ & X & _); exact X).
  destruct (gen_all_ok root D SM _ (p :: stk) IH _ _ _ H6 I5) as (S6 & M6).
  { intros i Hi. unfold inner_of in Hi. destruct (mod_at root p) as [m |]; [| contradiction]. apply in_map_iff in Hi. destruct Hi as (e & <- & _). reflexivity. }
  assert (I6 : Inv root D SM s6) by (destruct S6 as (w & _ & _ & X & _); exact X).
  assert (Q7 : Q root D SM (g_out s6) (EClose p)).
  { cbn. split.
    - intros u Hu Pu. apply (inv_out _ _ _ _ I6); [| exact Pu]. destruct S6 as (w & _ & _ & _ & X & _). apply X, N5, Hu.
    - intros i Hi. apply (inv_mods _ _ _ _ I6). auto. }
  assert (I7 : Inv root D SM (out (EClose p) s6)) by (apply out_inv; [exact I6 | exact Logic.I | exact Q7]).
  assert (S46 : step root D SM (p :: stk) (out (EOpen p) s2) s6) by (eapply step_trans; [exact S4 |]; eapply step_trans; eauto).
  split.
  - destruct (step_trans _ _ _ _ _ _ _ S1 S2) as (w2 & E2 & K2 & _ & N2 & Mm2).
    destruct S46 as (w6 & E6 & K6 & _ & N6 & Mm6).
    exists (w2 ++ EOpen p :: w6 ++ [EClose p]). cbn [out g_out g_nodes g_mods] in *.
    split; [rewrite E6, E2, <- !app_assoc; reflexivity |]. split.
    + rewrite stack_after_app, K2. cbn [stack_after]. destruct p as [| c o].
      * cbn in HS. subst stk. cbn [stack_after]. rewrite stack_after_app, K6. reflexivity.
      * cbn in HS. destruct stk as [| q stk']; [discriminate |]. cbn in HS. inversion HS; subst. rewrite place_eqb_refl.
        rewrite stack_after_app, K6. cbn [stack_after]. now rewrite place_eqb_refl.
    + split; [| split; [eapply incl_tran; [exact N2 | exact N6] | apply incl_tl; eapply incl_tran; [exact Mm2 | exact Mm6]]].
      destruct I7 as [J1 J2 J3 J4 J5 J6]. constructor; cbn [out g_out g_nodes g_mods] in *; auto.
      intros q [<- | Hq]; [| auto]. apply in_or_app. right. now left.
  - now left.
Qed.

Lemma Inv0 root D SM : Inv root D SM gst0.
Proof.
  constructor; cbn; try (intros; contradiction).
  - apply ok_out_nil.
  - intros n _. reflexivity.
Qed.
(** What a finished generation satisfies. *)
Lemma gen_result root D SM f s : well_named root -> Dok root D SM -> gen_idl f root D [] gst0 = Ok s ->
  well_nested (g_out s) /\ Inv root D SM s /\ In (EClose []) (g_out s).
Proof.
  intros W DK H. destruct (gen_ok root D SM W DK f _ _ _ [] H (Inv0 root D SM) eq_refl) as ((w & E & K & I & _) & M).
  cbn in E. split; [now rewrite E |]. split; [exact I |]. now apply (inv_mods _ _ _ _ I).
Qed.
(** What is inside a closed module is closed. *)
Lemma closed_all root D SM o : ok_out (Q root D SM) o -> forall b r, In (EClose b) o -> exists_module root (r ++ b) = true -> In (EClose (r ++ b)) o.
Proof.
  intros HQ b r H0. induction r as [| c r IH]; intro E; [exact H0 |]. cbn [app] in *.
  assert (E' : exists_module root (r ++ b) = true) by (eapply exists_around; [| exact E]; exists [c]; reflexivity).
  specialize (IH E'). apply in_split in IH. destruct IH as (pre & post & ->). destruct (HQ _ _ _ eq_refl) as [_ X].
  apply in_or_app. left. apply X. unfold inner_of. unfold exists_module in E. cbn [mod_at] in E.
  destruct (mod_at root (r ++ b)) as [m |]; [| discriminate]. destruct (assoc c (m_inner m)) as [[y |] |] eqn:A; try discriminate.
  apply in_map_iff. exists (c, Some y). split; [reflexivity | now apply assoc_in].
Qed.
Lemma closed_decl root D SM o b r u : ok_out (Q root D SM) o -> In (EClose b) o -> exists_module root (r ++ b) = true ->
  In u (nodes_of root (r ++ b)) -> printed root u = true -> In (EDecl u) o.
Proof.
  intros HQ H0 E Hu Pu. assert (H := closed_all root D SM o HQ b r H0 E). apply in_split in H. destruct H as (pre & post & ->).
  destruct (HQ _ _ _ eq_refl) as [X _]. apply in_or_app. left. auto.
Qed.
