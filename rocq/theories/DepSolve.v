(** What the dependency pass records. *)
From Verif Require Import Base Types TyInd TypeBuild Mem Ops Module ModuleSpec ModuleFacts DepTree DepSpec DepFacts DepGen.

Definition sub_deps (D E : deps) : Prop :=
  incl (d_anc D) (d_anc E) /\ incl (d_child D) (d_child E) /\ incl (d_par D) (d_par E) /\ incl (d_mod D) (d_mod E).
Lemma sub_refl D : sub_deps D D. Proof. repeat split; apply incl_refl. Qed.
Lemma sub_trans D E F : sub_deps D E -> sub_deps E F -> sub_deps D F.
Proof. intros (A & B & C & G) (A' & B' & C' & G'). repeat split; eapply incl_tran; eauto. Qed.
Lemma add_once_incl {A} eqb (x : A) l : incl l (add_once eqb x l).
Proof. unfold add_once. destruct (existsb (eqb x) l); [apply incl_refl | apply incl_appl, incl_refl]. Qed.
Lemma add_once_in {A} eqb (x y : A) l : In y (add_once eqb x l) -> In y l \/ y = x.
Proof. unfold add_once. destruct (existsb (eqb x) l); [auto |]. intro H. apply in_app_or in H. destruct H as [H | [H | []]]; auto. Qed.
Lemma add_once_has {A} eqb (x : A) l : (eqb x x = true) -> exists y, In y (add_once eqb x l) /\ eqb x y = true.
Proof.
  intro R. unfold add_once. destruct (existsb (eqb x) l) eqn:E.
  - apply existsb_exists in E. exact E.
  - exists x. split; [apply in_or_app; right; now left | exact R].
Qed.

(** The origin of the entries. *)
Definition origin (root : modl) (par : node -> option ty) (n : node) (u : node) : Prop :=
  In n (all_nodes root) /\ exists t, In t (masters par n) /\ opts t = true /\ n_name u = unscoped (tname t).
Definition searched (root : modl) (par : node -> option ty) (n : node) (u : node) : Prop :=
  In n (all_nodes root) /\ exists t, In t (masters par n) /\ opts t = true /\ n_name u = unscoped (tname t) /\
    declares root (unscoped (tname t)) (n_in n) && scope_match (n_in n) (tname t) = false /\ scope_match (n_in u) (tname t) = true.
Record From (root : modl) (par : node -> option ty) (D : deps) : Prop := {
  from_anc : forall n u, In (n, u) (d_anc D) -> In u (nodes_of root (n_in n)) /\ n_kind u = n_kind n /\ origin root par n u;
  from_child : forall u c, In (u, c) (d_child D) -> in_tree root u /\ exists m, searched root par m u /\ c = match toward (n_in u) (n_in m) with Some i => i | None => n_in m end;
  from_par : forall n i, In (n, i) (d_par D) -> exists c u, i = c :: n_in n /\ In u (all_nodes root) /\ around i (n_in u);
  from_mod : forall a b, In (a, b) (d_mod D) -> exists c c' o n u, a = c :: o /\ b = c' :: o /\ In u (all_nodes root) /\ searched root par n u /\
    around a (n_in n) /\ around b (n_in u) /\ (n_in n <> n_in u -> c <> c') }.
Lemma outer_siblings_differ dep : forall p c c' o, (forall r, dep <> r ++ p) -> inside p dep = false -> outer_siblings p dep = Ok (c :: o, c' :: o) -> c <> c'.
Proof.
  induction p as [| x o0 IH]; intros c c' o ND NI H; [discriminate |]. cbn [outer_siblings] in H. destruct (toward o0 dep) as [i |] eqn:T.
  - inversion H; subst. destruct (toward_some _ _ _ T) as (y & r & E1 & E2). inversion E1; subst. intros ->. now apply (ND r).
  - apply (IH c c' o); [| | exact H].
    + intros r E. destruct r as [| a r0] using rev_ind.
      * cbn in E. subst dep. assert (X : inside (x :: o0) o0 = true) by (apply inside_iff; exists [], x; reflexivity). congruence.
      * rewrite <- app_assoc in E. cbn in E. now apply (toward_none _ _ T a r0).
    + destruct (inside o0 dep) eqn:X; [| reflexivity]. apply inside_iff in X. destruct X as (r & c0 & ->).
      assert (Y : inside (x :: r ++ c0 :: dep) dep = true) by (apply inside_iff; now exists (x :: r), c0). congruence.
Qed.
Lemma search_in_some root nm l u : search_in root nm l = Some u -> exists p, In p l /\ In u (nodes_of root p) /\ n_name u = unscoped nm /\ scope_match p nm = true.
Proof.
  induction l as [| p r IH]; cbn; intro H; [discriminate |]. destruct (node_named root p nm) as [v |] eqn:E.
  - inversion H; subst. unfold node_named in E. apply find_some in E. destruct E as [A B]. apply andb_true_iff in B. destruct B as [B C]. apply String.eqb_eq in B.
    exists p. split; [now left | auto].
  - destruct (IH H) as (q & A & B). exists q. split; [now right | exact B].
Qed.
Lemma set_dependency_from root par n t k D D' : From root par D -> In n (all_nodes root) -> In t (masters par n) -> opts t = true -> k = n_kind n ->
  set_dependency root n (tname t) k D = Ok D' -> From root par D' /\ sub_deps D D'.
Proof.
  intros F Hn Ht Ho -> H. unfold set_dependency in H. destruct (String.eqb (n_name n) (tname t)); [inversion H; subst; split; [exact F | apply sub_refl] |].
  match type of H with (if ?b then _ else _) = _ => destruct b eqn:NB end.
  - destruct (find _ _) as [u |] eqn:E; inversion H; subst; [| split; [exact F | apply sub_refl]].
    apply find_some in E. destruct E as [E1 E2]. apply andb_true_iff in E2. destruct E2 as [E2 E3]. apply ekind_eqb_eq in E2. apply String.eqb_eq in E3.
    split; [| repeat split; cbn; try apply incl_refl; apply add_once_incl].
    destruct F as [F1 F2 F3 F4]. constructor; cbn; auto. intros m v Hin. apply add_once_in in Hin. destruct Hin as [Hin | Hin]; [auto |].
    inversion Hin; subst. split; [exact E1 |]. split; [exact E2 |]. split; [exact Hn |]. now exists t.
  - destruct (search_in root (tname t) (places root)) as [u |] eqn:E; [| discriminate].
    destruct (search_in_some _ _ _ _ E) as (q & Hq & Hu & Nu & Mu). destruct (in_tree_of root q u Hu) as [Tu Pu].
    assert (AU : In u (all_nodes root)) by (apply all_nodes_in; rewrite Pu; auto).
    assert (OR : searched root par n u) by (split; [exact Hn |]; exists t; rewrite Pu; auto).
    set (c := match toward (n_in u) (n_in n) with Some i => i | None => n_in n end) in *.
    assert (F1 : From root par (Deps (d_anc D) (add_once (pair_eqb node_eqb place_eqb) (u, c) (d_child D)) (d_par D) (d_mod D))).
    { destruct F as [F1 F2 F3 F4]. constructor; cbn; auto. intros v x Hin. apply add_once_in in Hin. destruct Hin as [Hin | Hin]; [auto |].
      inversion Hin; subst. split; [exact Tu |]. exists n. auto. }
    assert (S1 : sub_deps D (Deps (d_anc D) (add_once (pair_eqb node_eqb place_eqb) (u, c) (d_child D)) (d_par D) (d_mod D))).
    { repeat split; cbn; try apply incl_refl. apply add_once_incl. }
    destruct (toward (n_in n) (n_in u)) as [i |] eqn:Ti.
    + inversion H; subst. cbn. split; [| eapply sub_trans; [exact S1 |]; repeat split; cbn; try apply incl_refl; apply add_once_incl].
      destruct F1 as [G1 G2 G3 G4]. cbn in *. constructor; cbn; auto. intros m x Hin. apply add_once_in in Hin. destruct Hin as [Hin | Hin]; [auto |].
      inversion Hin; subst. destruct (toward_some _ _ _ Ti) as (c0 & r & -> & E2). exists c0, u. split; [reflexivity |]. split; [exact AU |]. now exists r.
    + destruct (inside (n_in n) (n_in u)) eqn:INS; [inversion H; subst; auto |].
      apply bind_ok_iff in H. destruct H as ([a b] & Hs & H). inversion H; subst. cbn.
      split; [| eapply sub_trans; [exact S1 |]; repeat split; cbn; try apply incl_refl; apply add_once_incl].
      destruct F1 as [G1 G2 G3 G4]. cbn in *. constructor; cbn; auto. intros x y Hin. apply add_once_in in Hin. destruct Hin as [Hin | Hin]; [auto |].
      inversion Hin; subst. destruct (outer_siblings_ok _ _ _ _ Hs) as (c1 & c2 & o & r1 & r2 & -> & -> & R1 & R2). exists c1, c2, o, n, u.
      split; [reflexivity |]. split; [reflexivity |]. split; [exact AU |]. split; [exact OR |]. split; [now exists r1 |]. split; [now exists r2 |].
      intro NE. apply (outer_siblings_differ (n_in u) (n_in n) c1 c2 o); auto. intros r E2. destruct r as [| a r0] using rev_ind; [now apply NE |].
      rewrite <- app_assoc in E2. cbn in E2. now apply (toward_none _ _ Ti a r0).
Qed.
Lemma set_all_from root par n l : forall D D', From root par D -> In n (all_nodes root) -> incl l (masters par n) ->
  set_all root n l D = Ok D' -> From root par D' /\ sub_deps D D' /\
  (forall t, In t l -> opts t = true -> exists E E', set_dependency root n (tname t) (n_kind n) E = Ok E' /\ sub_deps E' D').
Proof.
  induction l as [| t l IH]; intros D D' F Hn Hl H.
  - cbn in H. inversion H; subst. split; [exact F |]. split; [apply sub_refl | intros t []].
  - cbn [set_all] in H. apply bind_ok_iff in H. destruct H as (D1 & H1 & H).
    assert (X : From root par D1 /\ sub_deps D D1).
    { destruct (opts t) eqn:O; [| inversion H1; subst; split; [exact F | apply sub_refl]].
      eapply set_dependency_from; eauto. apply Hl. now left. }
    destruct X as [F1 S1]. destruct (IH D1 D' F1 Hn (fun x Hx => Hl x (or_intror Hx)) H) as (F2 & S2 & R).
    split; [exact F2 |]. split; [eapply sub_trans; eauto |]. intros x [<- | Hx] Ox; [| auto].
    rewrite Ox in H1. exists D, D1. auto.
Qed.
Lemma solve_from root par D : solve root par = Ok D -> From root par D /\
  (forall n t, In n (all_nodes root) -> In t (masters par n) -> opts t = true -> exists E E', set_dependency root n (tname t) (n_kind n) E = Ok E' /\ sub_deps E' D).
Proof.
  unfold solve. intro H.
  assert (G : forall l E D', (forall n, In n l -> In n (all_nodes root)) -> From root par E -> solve_nodes root par l E = Ok D' -> From root par D' /\ sub_deps E D' /\
    (forall n t, In n l -> In t (masters par n) -> opts t = true -> exists X X', set_dependency root n (tname t) (n_kind n) X = Ok X' /\ sub_deps X' D')).
  { induction l as [| n l IH]; intros E D' Hl F HS.
    - cbn in HS. inversion HS; subst. split; [exact F |]. split; [apply sub_refl | intros n t []].
    - cbn [solve_nodes] in HS. apply bind_ok_iff in HS. destruct HS as (E1 & H1 & HS).
      destruct (set_all_from root par n _ E E1 F (Hl n (or_introl eq_refl)) (incl_refl _) H1) as (F1 & S1 & R1).
      destruct (IH E1 D' (fun x Hx => Hl x (or_intror Hx)) F1 HS) as (F2 & S2 & R2).
      split; [exact F2 |]. split; [eapply sub_trans; eauto |]. intros m t [<- | Hm] Ht Ot; [| eauto].
      destruct (R1 t Ht Ot) as (X & X' & HX & SX). exists X, X'. split; [exact HX |]. eapply sub_trans; eauto. }
  destruct (G (all_nodes root) no_deps D) as (F & _ & R); auto. constructor; cbn; intros; contradiction.
Qed.

(** Entries as the emission looks them up. *)
Lemma has_child_iff D p n : has_child D p n = true <-> exists u, In (u, p) (d_child D) /\ node_eqb n u = true.
Proof.
  unfold has_child. rewrite existsb_exists. split.
  - intros ([u c] & I & E). apply andb_true_iff in E. cbn in E. destruct E as [A B]. apply place_eqb_eq in B. subst. now exists u.
  - intros (u & I & E). exists (u, p). split; [exact I |]. cbn. now rewrite E, place_eqb_refl.
Qed.
Lemma ancestors_iff D n a : In a (ancestors D n) <-> exists m, In (m, a) (d_anc D) /\ node_eqb n m = true.
Proof.
  unfold ancestors. rewrite in_map_iff. split.
  - intros ([m b] & <- & H). apply filter_In in H. destruct H. now exists m.
  - intros (m & I & E). exists (m, a). split; [reflexivity |]. now apply filter_In.
Qed.
Lemma parents_iff D n i : In i (parents D n) <-> exists m, In (m, i) (d_par D) /\ node_eqb n m = true.
Proof.
  unfold parents. rewrite in_map_iff. split.
  - intros ([m b] & <- & H). apply filter_In in H. destruct H. now exists m.
  - intros (m & I & E). exists (m, i). split; [reflexivity |]. now apply filter_In.
Qed.
Lemma mod_ancestors_iff D a b : In b (mod_ancestors D a) <-> In (a, b) (d_mod D).
Proof.
  unfold mod_ancestors. rewrite in_map_iff. split.
  - intros ([x y] & <- & H). apply filter_In in H. destruct H as [H E]. cbn in E. apply place_eqb_eq in E. now subst.
  - intro I. exists (a, b). split; [reflexivity |]. apply filter_In. split; [exact I | apply place_eqb_refl].
Qed.
Lemma all_in_tree root n : In n (all_nodes root) -> in_tree root n.
Proof. intro H. apply all_nodes_in in H. apply H. Qed.

(** The emission conditions hold without any claim about one module. *)
Lemma solve_Dok root par D : well_named root -> From root par D -> Dok root D (fun _ _ => False).
Proof.
  intros W F. constructor.
  - intros a b H. apply mod_ancestors_iff in H. destruct (from_mod _ _ _ F a b H) as (c & c' & o & _ & _ & A & B & _). now exists c, c', o.
  - intros n i H. apply parents_iff in H. destruct H as (m & I & E). destruct (from_par _ _ _ F m i I) as (c & u & -> & _). exists c.
    apply node_eqb_key in E. unfold key in E. now injection E as -> _ _.
  - intros p n a Hn Ha. apply ancestors_iff in Ha. destruct Ha as (m & I & E). destruct (from_anc _ _ _ F m a I) as (A & _).
    apply node_eqb_key in E. unfold key in E. injection E as E _ _. rewrite <- E in A. apply in_tree_of in Hn. destruct Hn as [_ <-]. exact A.
  - intros p l1 n l2 _. split; [intros a _; right; intros u [] | intros u []].
Qed.

(** ** Scoped names *)
Lemma split_last_plain x : no_colon x = true -> split_last x = None.
Proof. intro H. destruct x as [| a r]; [reflexivity |]. cbn [split_last]. now rewrite split_ident. Qed.
Lemma split_scope_ext a s : split_scope s <> None -> split_scope (String a s) <> None.
Proof.
  intro H. destruct s as [| b r]; [now cbn in H |]. cbn [split_scope] in *.
  destruct (Ascii.eqb a ":" && Ascii.eqb b ":"); [discriminate |].
  destruct r as [| c r']; [now destruct H |].
  destruct (Ascii.eqb b ":" && Ascii.eqb c ":")%bool; [discriminate |].
  destruct (split_scope (String c r')) as [[u v] |]; [discriminate |]. now destruct H.
Qed.
Lemma split_last_app a c : no_colon c = true -> split_scope (a ++ "::" ++ c) <> None /\ split_last (a ++ "::" ++ c) = Some (a, c).
Proof.
  intro H. induction a as [| h a IH].
  - split; [discriminate |].
    assert (E : split_scope (String ":" c) = None).
    { destruct c as [| d c']; [reflexivity |]. assert (E0 := split_ident _ H). cbn [no_colon] in H. apply andb_true_iff in H. destruct H as [H1 _]. apply negb_true_iff in H1.
      change (split_scope (String ":" (String d c'))) with (if (Ascii.eqb ":" ":" && Ascii.eqb d ":")%bool then Some (""%string, c') else match split_scope (String d c') with Some (x, y) => Some (String ":" x, y) | None => None end).
      rewrite E0, H1. reflexivity. }
    change ("" ++ "::" ++ c)%string with (String ":" (String ":" c)).
    change (split_last (String ":" (String ":" c))) with (match split_last (String ":" c) with Some (x, y) => Some (String ":" x, y) | None => Some (EmptyString, c) end).
    assert (E1 : split_last (String ":" c) = None) by (cbn [split_last]; now rewrite E). now rewrite E1.
  - destruct IH as [I1 I2]. change (String h a ++ "::" ++ c)%string with (String h (a ++ "::" ++ c)) in *.
    assert (X := split_scope_ext h _ I1). split; [exact X |].
    cbn [split_last]. destruct (split_scope (String h (a ++ "::" ++ c))) as [v |]; [| now destruct X].
    rewrite I2. reflexivity.
Qed.

Lemma ident_ne x : ident x -> x <> ""%string. Proof. now intros []. Qed.
Lemma scope_empty p : Forall ident p -> (scope p = ""%string <-> p = []).
Proof.
  intro H. destruct p as [| c o]; [cbn; tauto |]. split; [| discriminate]. cbn [scope]. inversion H as [| a b [N _] _]; subst.
  destruct (String.eqb (scope o) ""); [now intros -> | destruct (scope o); discriminate].
Qed.
Lemma scope_cons c o : Forall ident (c :: o) -> scope (c :: o) = match o with [] => c | _ => (scope o ++ "::" ++ c)%string end.
Proof.
  intro H. inversion H as [| a b _ Ho]; subst. cbn [scope]. destruct o as [| d o]; [reflexivity |].
  destruct (String.eqb (scope (d :: o)) "") eqn:E; [| reflexivity]. apply String.eqb_eq in E. apply (scope_empty _ Ho) in E. discriminate.
Qed.
Lemma scope_inj p : forall q, Forall ident p -> Forall ident q -> scope p = scope q -> p = q.
Proof.
  induction p as [| c o IH]; intros q Hp Hq E.
  - symmetry. apply (scope_empty q Hq). now rewrite <- E.
  - destruct q as [| c' o'].
    { exfalso. assert (X : c :: o = []) by (apply (scope_empty _ Hp); exact E). discriminate. }
    rewrite (scope_cons _ _ Hp), (scope_cons _ _ Hq) in E. inversion Hp as [| a b [_ Nc] Ho]; inversion Hq as [| a' b' [_ Nc'] Ho']; subst.
    assert (E2 := f_equal split_last E). destruct o as [| d o], o' as [| d' o'].
    + now subst.
    + rewrite (split_last_plain _ Nc) in E2. destruct (split_last_app (scope (d' :: o')) _ Nc') as [_ X]. rewrite X in E2. discriminate.
    + rewrite (split_last_plain _ Nc') in E2. destruct (split_last_app (scope (d :: o)) _ Nc) as [_ X]. rewrite X in E2. discriminate.
    + destruct (split_last_app (scope (d :: o)) _ Nc) as [_ X]. destruct (split_last_app (scope (d' :: o')) _ Nc') as [_ X']. rewrite X, X' in E2.
      inversion E2; subst. f_equal. now apply IH.
Qed.
Lemma scoped_split p x : Forall ident p -> no_colon x = true -> split_last (scoped (scope p) x) = match p with [] => None | _ => Some (scope p, x) end.
Proof.
  intros Hp Hx. unfold scoped. destruct p as [| c o]; [cbn; now apply split_last_plain |].
  destruct (String.eqb (scope (c :: o)) "") eqn:E.
  - apply String.eqb_eq in E. apply (scope_empty _ Hp) in E. discriminate.
  - now apply split_last_app.
Qed.
Lemma scoped_unscoped p x : Forall ident p -> no_colon x = true -> unscoped (scoped (scope p) x) = x.
Proof. intros Hp Hx. unfold unscoped. rewrite (scoped_split p x Hp Hx). destruct p; [reflexivity |]. reflexivity. Qed.
Lemma app_assoc_s (a b c : string) : ((a ++ b) ++ c)%string = (a ++ (b ++ c))%string.
Proof. induction a as [| h t IH]; [reflexivity |]. change (String h ((t ++ b) ++ c)%string = String h (t ++ (b ++ c))%string). now rewrite IH. Qed.
Lemma no_prefix p : Forall ident p -> prefix "::" (scope p) = false.
Proof.
  intro H. assert (X : forall s, s <> ""%string -> (exists c r, ident c /\ s = (c ++ r)%string) -> prefix "::" s = false).
  { intros s _ (c & r & [Nc Cc] & ->). destruct c as [| a c]; [now destruct Nc |]. cbn [no_colon] in Cc. apply andb_true_iff in Cc. destruct Cc as [Ca _]. apply negb_true_iff in Ca.
    cbn [append prefix]. destruct (ascii_dec ":" a) as [E | E]; [subst a; discriminate | reflexivity]. }
  assert (G : p <> [] -> exists c r, ident c /\ scope p = (c ++ r)%string).
  { clear X. induction p as [| c o IH]; [intros []; reflexivity |]. intros _. rewrite (scope_cons _ _ H). inversion H as [| a b Hc Ho]; subst.
    destruct o as [| d o]; [exists c, ""%string; split; [exact Hc |]; clear; induction c; cbn; congruence |].
    destruct (IH Ho) as (c0 & r & A & B); [discriminate |]. rewrite B. exists c0, (r ++ "::" ++ c)%string. split; [exact A |].
    apply app_assoc_s. }
  destruct p as [| c o]; [reflexivity |]. apply X; [intro E; apply (scope_empty _ H) in E; discriminate | apply G; discriminate].
Qed.
(** A module matches the scope of a name declared in [q] exactly when it is [q], or the name is declared at the root. *)
Lemma scope_match_scoped p q x : Forall ident p -> Forall ident q -> no_colon x = true ->
  scope_match p (scoped (scope q) x) = true <-> (q = [] \/ p = q).
Proof.
  intros Hp Hq Hx. unfold scope_match. rewrite (scoped_split q x Hq Hx). destruct q as [| c o]; [tauto |].
  rewrite (no_prefix _ Hq). rewrite String.eqb_eq. split.
  - intro E. right. symmetry. now apply scope_inj.
  - intros [E | ->]; [discriminate | reflexivity].
Qed.

(** ** Types found in declarations *)
Lemma seen_visited t : forall seen, In seen (visited seen t).
Proof. induction t; intro seen; cbn; auto. Qed.
Lemma visited_parts : forall t seen x, In x (visited seen t) -> x = seen \/ In x (parts t) \/ exists a b, x = TPair a b.
Proof.
  assert (U : forall y x, y = x \/ In x (parts y) \/ (exists a b, x = TPair a b) -> In x (parts y) \/ exists a b, x = TPair a b).
  { intros y x [-> | H]; [left; destruct x; cbn; now left | exact H]. }
  induction t using ty_ind'; intros seen x Hx; cbn [visited] in Hx.
  1-3: destruct Hx as [<- | []]; now left.
  - destruct Hx as [<- | Hx]; [now left |]. right. apply IHt in Hx. destruct (U t x) as [H | H]; [destruct Hx as [-> | Hx]; auto | left; cbn; now right | now right].
  - destruct Hx as [<- | Hx]; [now left |]. right. apply IHt in Hx. destruct (U t x) as [H | H]; [destruct Hx as [-> | Hx]; auto | left; cbn; now right | now right].
  - destruct Hx as [<- | [<- | Hx]]; [now left | right; right; eauto |]. right. apply in_app_or in Hx.
    destruct Hx as [Hx | Hx]; [apply IHt1 in Hx; destruct (U t1 x) as [H | H] | apply IHt2 in Hx; destruct (U t2 x) as [H | H]];
      try (destruct Hx as [-> | Hx]; auto; fail); try (now right); left; cbn; right; apply in_or_app; auto.
  - destruct Hx as [<- | Hx]; [now left |]. right. apply in_app_or in Hx.
    destruct Hx as [Hx | Hx]; [apply IHt1 in Hx; destruct (U t1 x) as [H | H] | apply IHt2 in Hx; destruct (U t2 x) as [H | H]];
      try (destruct Hx as [-> | Hx]; auto; fail); try (now right); left; cbn; right; apply in_or_app; auto.
  - destruct Hx as [<- | Hx]; [now left |]. right. apply in_flat_map in Hx. destruct Hx as (m & Hm & Hx).
    assert (HF := H). rewrite Forall_forall in HF. assert (Hx' := HF m Hm _ _ Hx). destruct (U (snd m) x) as [G | G].
    + destruct Hx' as [-> | Hx']; auto.
    + left. cbn. right. apply in_flat_map. now exists m.
    + now right.
  - destruct Hx as [<- | Hx]; [now left |]. right. apply in_flat_map in Hx. destruct Hx as (m & Hm & Hx).
    assert (HF := H). rewrite Forall_forall in HF. assert (Hx' := HF m Hm _ _ Hx). destruct (U (snd m) x) as [G | G].
    + destruct Hx' as [-> | Hx']; auto.
    + left. cbn. right. apply in_flat_map. now exists m.
    + now right.
  - apply IHt in Hx. destruct Hx as [-> | [Hx | Hx]]; [now left | right; left; cbn; now right | now right; right].
Qed.
Lemma self_parts t : In t (parts t). Proof. destruct t; cbn; now left. Qed.
Lemma visited_named : forall t seen x, In x (visited seen t) -> opts x = true -> x = seen \/ exists w, In w (named_in t) /\ In x (parts w).
Proof.
  assert (U : forall t x, opts x = true -> x = t \/ (exists w, In w (named_in t) /\ In x (parts w)) -> exists w, In w (named_in t) /\ In x (parts w)).
  { intros t x O [-> | H]; [| exact H]. exists t. split; [destruct t; try discriminate O; cbn; now left | apply self_parts]. }
  induction t using ty_ind'; intros seen x Hx Ox.
  1-3: cbn in Hx; destruct Hx as [<- | []]; now left.
  - cbn in Hx. destruct Hx as [<- | Hx]; [now left |]. right. cbn. apply U; eauto.
  - cbn in Hx. destruct Hx as [<- | Hx]; [now left |]. right. cbn. apply U; eauto.
  - cbn in Hx. destruct Hx as [<- | [<- | Hx]]; [now left | discriminate |]. right. cbn. apply in_app_or in Hx.
    destruct Hx as [Hx | Hx]; [apply IHt1 in Hx | apply IHt2 in Hx]; auto; apply U in Hx; auto; destruct Hx as (w & A & B); exists w; split; auto; apply in_or_app; auto.
  - cbn in Hx. destruct Hx as [<- | Hx]; [now left |]. right. cbn. apply in_app_or in Hx.
    destruct Hx as [Hx | Hx]; [apply IHt1 in Hx | apply IHt2 in Hx]; auto; apply U in Hx; auto; destruct Hx as (w & A & B); exists w; split; auto; apply in_or_app; auto.
  - apply visited_parts in Hx. destruct Hx as [-> | [Hx | (a & b & ->)]]; [now left | | discriminate]. right. eexists. split; [cbn; now left | exact Hx].
  - apply visited_parts in Hx. destruct Hx as [-> | [Hx | (a & b & ->)]]; [now left | | discriminate]. right. eexists. split; [cbn; now left | exact Hx].
  - cbn [visited] in Hx. apply visited_parts in Hx. destruct Hx as [-> | [Hx | (a & b & ->)]]; [now left | | discriminate]. right. eexists. split; [cbn; now left | cbn; now right].
Qed.
Lemma named_visited : forall t x, In x (named_in t) -> In x (visited t t).
Proof.
  induction t using ty_ind'; intros x Hx; cbn [named_in] in Hx; try contradiction.
  - destruct Hx as [<- | []]. cbn. now left.
  - cbn. right. auto.
  - cbn. right. auto.
  - cbn. right. right. apply in_or_app. apply in_app_or in Hx. destruct Hx; auto.
  - cbn. right. apply in_or_app. apply in_app_or in Hx. destruct Hx; auto.
  - destruct Hx as [<- | []]. cbn. now left.
  - destruct Hx as [<- | []]. cbn. now left.
  - destruct Hx as [<- | []]. apply seen_visited.
Qed.
Lemma named_opts : forall t x, In x (named_in t) -> opts x = true.
Proof.
  induction t using ty_ind'; intros x Hx; cbn [named_in] in Hx; try contradiction; auto; try (apply in_app_or in Hx; destruct Hx; auto);
    destruct Hx as [<- | []]; reflexivity.
Qed.
