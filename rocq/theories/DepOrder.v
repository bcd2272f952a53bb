(** From names to recorded dependencies, and to the order of the output. *)
From Verif Require Import Base Types TyInd TypeBuild Mem Ops Module ModuleSpec ModuleFacts DepTree DepSpec DepFacts DepGen DepSolve.

Lemma place_idents root p : well_named root -> exists_module root p = true -> Forall ident p.
Proof.
  intros W. induction p as [| c p IH]; intro E; [constructor |].
  assert (E' : exists_module root p = true) by (eapply exists_around; [| exact E]; exists [c]; reflexivity).
  constructor; [| auto]. unfold exists_module in E. cbn [mod_at] in E. destruct (mod_at root p) as [m |] eqn:M; [| discriminate].
  destruct (assoc c (m_inner m)) as [[y |] |] eqn:A; try discriminate. destruct W as (_ & _ & N & _). destruct (N p m M) as [_ F].
  rewrite Forall_forall in F. apply (F (c, Some y)). now apply assoc_in.
Qed.
Lemma node_module root n : well_named root -> In n (all_nodes root) -> exists_module root (n_in n) = true.
Proof. intros W H. apply all_nodes_in in H. apply (places_exist root _ W). apply H. Qed.
Definition ktab (k : ekind) : option table := match k with xALIAS => Some Aliases | xCONST => None | xENUM => Some Enums | xSTRUCT => Some Structs | xUNION => Some Unions end.
Lemma node_entry root n k : in_tree root n -> ktab (n_kind n) = Some k -> In (n_name n, n_type n) (get_table k (tab_at root (n_in n))).
Proof. intros T K. apply nodes_of_in in T. destruct T as [_ T]. destruct (n_kind n); inversion K; subst; exact T. Qed.
Lemma node_named_ok root n : well_named root -> In n (all_nodes root) -> ident (n_name n).
Proof.
  intros W H. assert (E := node_module root n W H). apply all_in_tree in H. destruct W as (_ & _ & _ & _ & _ & T & C).
  destruct (ktab (n_kind n)) as [k |] eqn:K.
  - apply (T _ _ _ _ E (node_entry root n k H K)).
  - destruct (n_kind n) eqn:KK; try discriminate. apply nodes_of_in in H. rewrite KK in H. destruct H as [_ H]. eapply C; eauto.
Qed.
Lemma node_type_ok root n : well_named root -> In n (all_nodes root) -> n_kind n <> xCONST -> tname (n_type n) = scoped (scope (n_in n)) (n_name n) /\
  opts (n_type n) = true /\ printed root n = true /\
  match n_kind n with xALIAS => exists nm a, n_type n = TAlias nm a | xSTRUCT => exists nm s ms, n_type n = TStruct nm s ms
                    | xUNION => exists nm s ms l a b c, n_type n = TUnion nm s ms l a b c | _ => True end.
Proof.
  intros W H K. assert (E := node_module root n W H). apply all_in_tree in H. destruct W as (_ & _ & _ & _ & _ & T & C).
  unfold printed. destruct (n_kind n) eqn:KK; try (now destruct K).
  - assert (Y := node_entry root n Aliases H). rewrite KK in Y. destruct (T _ _ _ _ E (Y eq_refl)) as (_ & S & Nm).
    destruct (n_type n); try contradiction. repeat split; auto. eauto.
  - assert (Y := node_entry root n Enums H). rewrite KK in Y. destruct (T _ _ _ _ E (Y eq_refl)) as (_ & S & Nm).
    destruct (n_type n); try contradiction. auto.
  - assert (Y := node_entry root n Structs H). rewrite KK in Y. destruct (T _ _ _ _ E (Y eq_refl)) as (_ & S & Nm).
    destruct (n_type n); try contradiction. repeat split; auto. eauto.
  - assert (Y := node_entry root n Unions H). rewrite KK in Y. destruct (T _ _ _ _ E (Y eq_refl)) as (_ & S & Nm).
    destruct (n_type n); try contradiction. repeat split; auto. repeat eexists.
Qed.
Lemma mem_in {A} x (v : A) l : In (x, v) l -> mem x l = true.
Proof. unfold mem. induction l as [| [y w] r IH]; cbn; intro H; [contradiction |]. destruct (String.eqb x y) eqn:E; [reflexivity |]. destruct H as [H | H]; [inversion H; subst; now rewrite String.eqb_refl in E | auto]. Qed.
Lemma node_declares root n p : well_named root -> exists_module root p = true -> In n (nodes_of root p) -> declares root (n_name n) p = true.
Proof.
  intros W E H. apply nodes_of_in in H. destruct H as [_ H]. unfold declares, exists_module, tab_at in *. 
  assert (CP : mem (n_name n) (const_types (tab_at root p)) = mem (n_name n) (consts (tab_at root p))) by (destruct W as (_ & CP & _); apply CP).
  unfold tab_at in CP. destruct (mod_at root p) as [m |]; [| discriminate]. unfold has_symbol_here.
  destruct (n_kind n); cbn in H; apply mem_in in H.
  - rewrite H. now rewrite !orb_true_r.
  - rewrite <- CP, H. now rewrite !orb_true_r.
  - rewrite H. now rewrite !orb_true_r.
  - now rewrite H.
  - rewrite H. now rewrite !orb_true_r.
Qed.
Lemma scoped_neq root n x q : well_named root -> In n (all_nodes root) -> Forall ident q -> q <> [] -> n_name n <> scoped (scope q) x.
Proof.
  intros W H Hq N E. destruct (node_named_ok root n W H) as [_ NC]. apply split_ident in NC. rewrite E in NC. unfold scoped in NC.
  destruct (String.eqb (scope q) "") eqn:S; [apply String.eqb_eq in S; apply (scope_empty q Hq) in S; contradiction |].
  assert (X : split_scope (scope q ++ "::" ++ x) <> None).
  { clear. induction (scope q) as [| a s IH]; [discriminate |]. change (split_scope (String a (s ++ "::" ++ x)) <> None). now apply split_scope_ext. }
  contradiction.
Qed.

(** The dependency on a type declared in another module. *)
Lemma recorded_other root par D n u : well_named root -> solve root par = Ok D -> In n (all_nodes root) -> In u (all_nodes root) ->
  n_kind u <> xCONST -> In (n_type u) (masters par n) -> n_in n <> n_in u -> unambiguous root u ->
  has_child D (match toward (n_in u) (n_in n) with Some i => i | None => n_in n end) u = true /\
  (forall i, toward (n_in n) (n_in u) = Some i -> In i (parents D n)) /\
  (toward (n_in n) (n_in u) = None -> inside (n_in n) (n_in u) = false ->
     exists c c' o r r', In (c' :: o) (mod_ancestors D (c :: o)) /\ n_in n = r ++ c :: o /\ n_in u = r' ++ c' :: o /\ c <> c').
Proof.
  intros W HS Hn Hu K Hm NE [U1 U2]. destruct (solve_from root par D HS) as [F R].
  destruct (node_type_ok root u W Hu K) as (TN & OP & _ & _).
  assert (En := node_module root n W Hn). assert (Eu := node_module root u W Hu).
  assert (In_n := place_idents root _ W En). assert (In_u := place_idents root _ W Eu).
  destruct (node_named_ok root u W Hu) as [_ NCu].
  destruct (R n (n_type u) Hn Hm OP) as (E & E' & HSD & (SA & SC & SP & SM)).
  unfold set_dependency in HSD. rewrite TN in HSD. rewrite (scoped_unscoped _ _ In_u NCu) in HSD.
  destruct (String.eqb (n_name n) (scoped (scope (n_in u)) (n_name u))) eqn:E0.
  { exfalso. apply String.eqb_eq in E0. destruct (n_in u) as [| c0 o0] eqn:EQ.
    - cbn in E0. apply NE. apply (U1 eq_refl). rewrite <- E0. apply node_declares; auto. now apply all_in_tree.
    - revert E0. eapply scoped_neq; eauto. discriminate. }
  destruct ((match mod_at root (n_in n) with Some m => has_symbol_here m (n_name u) | None => false end) && scope_match (n_in n) (scoped (scope (n_in u)) (n_name u))) eqn:E1.
  { exfalso. apply andb_true_iff in E1. destruct E1 as [A B]. apply (scope_match_scoped _ _ _ In_n In_u NCu) in B. destruct B as [B | B]; [| contradiction].
    apply NE. rewrite B. apply (U1 B). exact A. }
  destruct (search_in root (scoped (scope (n_in u)) (n_name u)) (places root)) as [v |] eqn:E2; [| discriminate].
  assert (V : v = u).
  { destruct (search_in_some _ _ _ _ E2) as (q & Hq & Hv & Nv & Mv). rewrite (scoped_unscoped _ _ In_u NCu) in Nv.
    apply (places_exist root q W) in Hq. assert (Iq := place_idents root q W Hq). apply (scope_match_scoped _ _ _ Iq In_u NCu) in Mv.
    assert (EQ : q = n_in u). { destruct Mv as [B | B]; [| exact B]. rewrite B. apply (U1 B). rewrite <- Nv. apply node_declares; auto. }
    apply U2; [now rewrite <- EQ | exact Nv]. }
  subst v. cbn [d_anc d_child d_par d_mod] in HSD.
  set (c := match toward (n_in u) (n_in n) with Some i => i | None => n_in n end) in *.
  assert (CH : forall D', incl (add_once (pair_eqb node_eqb place_eqb) (u, c) (d_child E)) (d_child D') -> has_child D' c u = true).
  { intros D' I. destruct (add_once_has (pair_eqb node_eqb place_eqb) (u, c) (d_child E)) as ([a b] & Ia & Ea).
    { unfold pair_eqb. cbn. now rewrite node_eqb_refl, place_eqb_refl. }
    unfold pair_eqb in Ea. cbn in Ea. apply andb_true_iff in Ea. destruct Ea as [Ea Eb]. apply place_eqb_eq in Eb. subst b.
    apply has_child_iff. exists a. split; [now apply I | exact Ea]. }
  destruct (toward (n_in n) (n_in u)) as [i |] eqn:T1.
  - inversion HSD; subst E'. cbn in *. split; [now apply CH |]. split; [| discriminate]. intros i0 Hi. inversion Hi; subst i0.
    destruct (add_once_has (pair_eqb node_eqb place_eqb) (n, i) (d_par E)) as ([a b] & Ia & Ea).
    { unfold pair_eqb. cbn. now rewrite node_eqb_refl, place_eqb_refl. }
    unfold pair_eqb in Ea. cbn in Ea. apply andb_true_iff in Ea. destruct Ea as [Ea Eb]. apply place_eqb_eq in Eb. subst b.
    apply parents_iff. exists a. split; [now apply SP | exact Ea].
  - destruct (inside (n_in n) (n_in u)) eqn:IN.
    + inversion HSD; subst E'. cbn in *. split; [now apply CH |]. split; [discriminate |]. discriminate.
    + apply bind_ok_iff in HSD. destruct HSD as ([a b] & HO & HSD). inversion HSD; subst E'. cbn in *. split; [now apply CH |].
      split; [discriminate |]. intros _ _. destruct (outer_siblings_ok _ _ _ _ HO) as (c1 & c2 & o & r & r' & -> & -> & Ea & Eb).
      exists c1, c2, o, r, r'. split; [| split; [exact Ea | split; [exact Eb |]]].
      2: { apply (outer_siblings_differ (n_in u) (n_in n) c1 c2 o); auto. intros z E3. destruct z as [| x z0] using rev_ind; [now apply NE |].
        rewrite <- app_assoc in E3. cbn in E3. now apply (toward_none _ _ T1 x z0). }
      apply mod_ancestors_iff.
      destruct (add_once_has (pair_eqb place_eqb place_eqb) (c1 :: o, c2 :: o) (d_mod E)) as ([x y] & Ix & Ex).
      { unfold pair_eqb. cbn [fst snd]. now rewrite !place_eqb_refl. }
      unfold pair_eqb in Ex. cbn [fst snd] in Ex. apply andb_true_iff in Ex. destruct Ex as [Ex Ey]. apply place_eqb_eq in Ex. apply place_eqb_eq in Ey. subst. now apply SM.
Qed.
Lemma masters_written root par n u : well_named root -> In n (all_nodes root) -> In u (all_nodes root) -> n_kind u <> xCONST -> In (n_type u) (written par n) ->
  (n_kind n = xSTRUCT \/ n_kind n = xUNION -> tname (n_type u) <> tname (n_type n)) -> direct n u ->
  In (n_type u) (masters par n).
Proof.
  intros W Hn Hu K Hw Hne [Hd Hc]. unfold written in Hw. unfold masters.
  assert (FM : forall ms, In (n_type u) (flat_map (fun m : string * N * ty => named_in (snd m)) ms) -> In (n_type u) (flat_map (fun m : string * N * ty => visited (snd m) (snd m)) ms)).
  { intros ms H. apply in_flat_map in H. destruct H as (m & A & B). apply in_flat_map. exists m. split; [exact A |]. now apply named_visited. }
  destruct (n_kind n) eqn:KN.
  - destruct (Hd eq_refl) as (nm & ->). now left.
  - rewrite (Hc eq_refl). now left.
  - contradiction.
  - destruct (n_type n) as [| | | | | | | nm s ms | |] eqn:TN; try contradiction. apply in_app_or in Hw. apply in_or_app. destruct Hw as [Hw | Hw]; [now left |].
    right. apply filter_In. split; [cbn; right; now apply FM |]. apply negb_true_iff. apply String.eqb_neq. apply Hne. now left.
  - destruct (n_type n) as [| | | | | | | | nm s ms l a b c |] eqn:TN; try contradiction.
    apply filter_In. split; [cbn; right; now apply FM |]. apply negb_true_iff. apply String.eqb_neq. apply Hne. now right.
Qed.
Lemma names_differ root n u : well_named root -> In n (all_nodes root) -> In u (all_nodes root) -> n_kind n <> xCONST -> n_kind u <> xCONST ->
  tname (n_type u) = tname (n_type n) -> n_in n = n_in u /\ n_name n = n_name u.
Proof.
  intros W Hn Hu Kn Ku E. destruct (node_type_ok root n W Hn Kn) as (Tn & _). destruct (node_type_ok root u W Hu Ku) as (Tu & _).
  assert (In_n := place_idents root _ W (node_module root n W Hn)). assert (In_u := place_idents root _ W (node_module root u W Hu)).
  destruct (node_named_ok root n W Hn) as [_ Nn]. destruct (node_named_ok root u W Hu) as [_ Nu].
  rewrite Tn, Tu in E. assert (E2 := f_equal split_last E). rewrite (scoped_split _ _ In_n Nn), (scoped_split _ _ In_u Nu) in E2.
  destruct (n_in n) as [| c o] eqn:Pn, (n_in u) as [| c' o'] eqn:Pu; try discriminate.
  - cbn in E. auto.
  - inversion E2. split; [| auto]. symmetry. apply scope_inj; auto.
Qed.

(** ** The order of the output *)
Lemma other_before root par D SM o n u : well_named root -> solve root par = Ok D -> ok_out (Q root D SM) o -> well_nested o ->
  uses root par n u -> unambiguous root u -> n_in n <> n_in u -> inside (n_in u) (n_in n) = false -> direct n u ->
  In (EDecl n) o -> before o (EDecl u) (EDecl n).
Proof.
  intros W HS HQ WN (Hn & Hu & K & Hw) UA NE IN DI HE.
  destruct (node_type_ok root u W Hu K) as (TN & OP & PU & _).
  assert (HM : In (n_type u) (masters par n)).
  { eapply masters_written; eauto. intros KN E. apply NE. eapply names_differ; eauto. destruct KN as [-> | ->]; discriminate. }
  destruct (recorded_other root par D n u W HS Hn Hu K HM NE UA) as (RC & RP & RM).
  assert (TU := all_in_tree root u Hu).
  destruct (toward (n_in u) (n_in n)) as [i |] eqn:T1.
  - destruct (toward_some _ _ _ T1) as (c & r & Ei & Ep). subst i.
    destruct (nested_decl o n (c :: n_in u) WN HE) as (pre & post & Eo & HI); [exists r; exact Ep |].
    apply before_split. exists pre, post. split; [exact Eo |]. apply in_split in HI. destruct HI as (p1 & p2 & E1).
    assert (X : Q root D SM p1 (EOpen (c :: n_in u))). { apply (HQ p1 _ (p2 ++ EDecl n :: post)). rewrite Eo, E1, <- app_assoc. reflexivity. }
    destruct X as [_ X]. rewrite E1. apply in_or_app. left. now apply X.
  - assert (T2 : toward (n_in n) (n_in u) = None).
    { unfold inside in IN. destruct (toward (n_in n) (n_in u)); [discriminate | reflexivity]. }
    destruct (RM T2) as (c & c' & o0 & r & r' & RB & Ep & Eq & _).
    { unfold inside. now rewrite T1. }
    destruct (nested_decl o n (c :: o0) WN HE) as (pre & post & Eo & HI); [exists r; exact Ep |].
    apply before_split. exists pre, post. split; [exact Eo |]. apply in_split in HI. destruct HI as (p1 & p2 & E1).
    assert (OK1 : ok_out (Q root D SM) p1).
    { apply (ok_out_app _ p1 (EOpen (c :: o0) :: p2 ++ EDecl n :: post)). replace (p1 ++ EOpen (c :: o0) :: p2 ++ EDecl n :: post) with o; [exact HQ |].
      rewrite Eo, E1, <- app_assoc. reflexivity. }
    assert (X : Q root D SM p1 (EOpen (c :: o0))). { apply (HQ p1 _ (p2 ++ EDecl n :: post)). rewrite Eo, E1, <- app_assoc. reflexivity. }
    destruct X as [X _]. rewrite E1. apply in_or_app. left.
    apply (closed_decl root D SM p1 (c' :: o0) r' u OK1 (X _ RB)); auto.
    + rewrite <- Eq. now apply node_module.
    + rewrite <- Eq. exact TU.
Qed.
Lemma early_needed root par D n : well_named root -> From root par D -> In n (all_nodes root) -> early D n ->
  exists m t, In m (all_nodes root) /\ In t (masters par m) /\ opts t = true /\ n_name n = unscoped (tname t) /\ inside (n_in m) (n_in n) = true /\
    declares root (unscoped (tname t)) (n_in m) && scope_match (n_in m) (tname t) = false /\ scope_match (n_in n) (tname t) = true.
Proof.
  intros W F Hn (c & H). apply has_child_iff in H. destruct H as (u & I & E). destruct (from_child _ _ _ F u _ I) as (Tu & m & (Hm & t & A & B & C & NB & MU) & Ec).
  assert (n = u) by (eapply tree_key; eauto; now apply all_in_tree). subst u.
  exists m, t. split; [exact Hm |]. split; [exact A |]. split; [exact B |]. split; [exact C |]. split; [| split; [exact NB | exact MU]]. apply inside_iff. destruct (toward (n_in n) (n_in m)) as [i |] eqn:T.
  - destruct (toward_some _ _ _ T) as (c0 & r & -> & E2). exists r, c0. exact E2.
  - exists [], c. now rewrite <- Ec.
Qed.
Lemma masters_parts root par m t : well_named root -> In m (all_nodes root) -> In t (masters par m) -> opts t = true ->
  n_kind m <> xENUM -> exists w, In w (written par m) /\ In t (parts w).
Proof.
  intros W Hm Ht Ho K. unfold masters in Ht. unfold written.
  assert (FM : forall ms, In t (flat_map (fun x : string * N * ty => visited (snd x) (snd x)) ms) -> exists w, In w (flat_map (fun x : string * N * ty => named_in (snd x)) ms) /\ In t (parts w)).
  { intros ms H. apply in_flat_map in H. destruct H as (x & A & B). apply visited_named in B; [| exact Ho]. destruct B as [-> | (w & B & C)].
    - exists (snd x). split; [| apply self_parts]. apply in_flat_map. exists x. split; [exact A |]. destruct (snd x); try discriminate Ho; cbn; now left.
    - exists w. split; [| exact C]. apply in_flat_map. now exists x. }
  destruct (n_kind m) eqn:KM; [| | now destruct K | |].
  - destruct (node_type_ok root m W Hm) as (_ & _ & _ & S); [rewrite KM; discriminate |]. rewrite KM in S. destruct S as (nm & a & S). rewrite S in *.
    destruct Ht as [<- | []]. exists a. split; [destruct a; try discriminate Ho; cbn; now left | apply self_parts].
  - destruct Ht as [<- | []]. exists (n_type m). split; [destruct (n_type m); try discriminate Ho; cbn; now left | apply self_parts].
  - destruct (node_type_ok root m W Hm) as (TN & _ & _ & S); [rewrite KM; discriminate |]. rewrite KM in S. destruct S as (nm & s & ms & S). rewrite S in *.
    apply in_app_or in Ht. destruct Ht as [Ht | Ht].
    + exists t. split; [apply in_or_app; now left | apply self_parts].
    + apply filter_In in Ht. destruct Ht as [Ht Hf]. cbn [visited] in Ht. destruct Ht as [<- | Ht]; [rewrite String.eqb_refl in Hf; discriminate |].
      destruct (FM ms Ht) as (w & A & B). exists w. split; [apply in_or_app; now right | exact B].
  - destruct (node_type_ok root m W Hm) as (TN & _ & _ & S); [rewrite KM; discriminate |]. rewrite KM in S. destruct S as (nm & s & ms & l & x & y & z & S). rewrite S in *.
    apply filter_In in Ht. destruct Ht as [Ht Hf]. cbn [visited] in Ht. destruct Ht as [<- | Ht]; [rewrite String.eqb_refl in Hf; discriminate |].
    destruct (FM ms Ht) as (w & A & B). exists w. split; [exact A | exact B].
Qed.

Lemma masters_mention root par m n t : well_named root -> In m (all_nodes root) -> In t (masters par m) -> opts t = true -> n_name n = unscoped (tname t) ->
  n_kind m <> xENUM -> mentions par m n.
Proof. intros W Hm Ht Ho Hn K. destruct (masters_parts root par m t W Hm Ht Ho K) as (w & A & B). exists w, t. split; [exact A |]. split; [exact B | now symmetry]. Qed.
Lemma searched_mentions root par m u : well_named root -> searched root par m u -> mentions par m u.
Proof.
  intros W (Hm & t & Ht & Ho & Hnm & NB & _).
  destruct (n_kind m) eqn:KM; try (eapply masters_mention; eauto; rewrite KM; discriminate).
  exfalso. unfold masters in Ht. rewrite KM in Ht. destruct Ht as [<- | []].
  destruct (node_type_ok root m W Hm) as (TN & _); [rewrite KM; discriminate |].
  assert (Em := node_module root m W Hm). assert (Im := place_idents root _ W Em). destruct (node_named_ok root m W Hm) as [_ NC].
  rewrite TN, (scoped_unscoped _ _ Im NC) in NB. rewrite (node_declares root m (n_in m) W Em (all_in_tree root m Hm)) in NB.
  assert (X : scope_match (n_in m) (scoped (scope (n_in m)) (n_name m)) = true) by (apply scope_match_scoped; auto).
  rewrite X in NB. discriminate.
Qed.
Lemma not_early root par D n : well_named root -> From root par D -> In n (all_nodes root) -> ~ needed_inside root par n -> ~ early D n.
Proof.
  intros W F Hn NN HE. destruct (early_needed root par D n W F Hn HE) as (m & t & Hm & Ht & Ho & Hnm & Hin & NB & MU).
  apply NN. exists m. split; [exact Hm |]. split; [exact Hin |]. apply (searched_mentions root); auto. split; [exact Hm |]. exists t. auto.
Qed.
(** A type of an inner module. *)
Lemma inner_before root par D SM o n u : well_named root -> solve root par = Ok D -> ok_out (Q root D SM) o ->
  uses root par n u -> unambiguous root u -> inside (n_in u) (n_in n) = true -> direct n u ->
  ~ needed_inside root par n -> In (EDecl n) o -> before o (EDecl u) (EDecl n).
Proof.
  intros W HS HQ (Hn & Hu & K & Hw) UA IN DI NN HE.
  destruct (node_type_ok root u W Hu K) as (TN & OP & PU & _).
  assert (NE : n_in n <> n_in u).
  { intro E. apply inside_iff in IN. destruct IN as (r & c & E1). rewrite E in E1. apply (f_equal (@List.length string)) in E1. rewrite app_length in E1. cbn in E1. lia. }
  assert (HM : In (n_type u) (masters par n)).
  { eapply masters_written; eauto. intros KN E. apply NE. eapply names_differ; eauto. destruct KN as [-> | ->]; discriminate. }
  destruct (recorded_other root par D n u W HS Hn Hu K HM NE UA) as (_ & RP & _).
  destruct (solve_from root par D HS) as [F _].
  assert (NEa := not_early root par D n W F Hn NN). apply inside_iff in IN. destruct IN as (r & c & Ep).
  assert (T : toward (n_in n) (n_in u) = Some (c :: n_in n)) by (rewrite Ep; apply toward_below).
  apply in_split in HE. destruct HE as (pre & post & ->). apply before_split. exists pre, post. split; [reflexivity |].
  destruct (HQ pre (EDecl n) post eq_refl NEa) as [X _]. specialize (X _ (RP _ T)).
  assert (OK1 : ok_out (Q root D SM) pre) by (eapply ok_out_app; exact HQ).
  apply (closed_decl root D SM pre (c :: n_in n) r u OK1 X); auto.
  - rewrite <- Ep. now apply node_module.
  - rewrite <- Ep. now apply all_in_tree.
Qed.

(** ** One module *)
Definition same (root : modl) par (p : place) (n u : node) : Prop := n_in n = p /\ n_in u = p /\ uses root par n u /\ n <> u.
Lemma uses_mention root par n u : well_named root -> uses root par n u -> mentions par n u.
Proof.
  intros W (Hn & Hu & K & Hw). exists (n_type u), (n_type u). split; [exact Hw |]. split; [apply self_parts |].
  destruct (node_type_ok root u W Hu K) as (TN & _). rewrite TN. apply scoped_unscoped.
  - apply (place_idents root _ W). now apply node_module.
  - apply (node_named_ok root u W Hu).
Qed.
Lemma recorded_same root par D n u : well_named root -> solve root par = Ok D -> In n (all_nodes root) -> In u (all_nodes root) ->
  n_kind u <> xCONST -> In (n_type u) (masters par n) -> n_in n = n_in u -> n_kind u = n_kind n -> n <> u -> In u (ancestors D n).
Proof.
  intros W HS Hn Hu K Hm EP EK NE. destruct (solve_from root par D HS) as [F R].
  destruct (node_type_ok root u W Hu K) as (TN & OP & _ & _).
  assert (Eu := node_module root u W Hu). assert (In_u := place_idents root _ W Eu). destruct (node_named_ok root u W Hu) as [_ NCu].
  assert (TT := all_in_tree root u Hu). assert (TTn := all_in_tree root n Hn).
  destruct (R n (n_type u) Hn Hm OP) as (E & E' & HSD & (SA & _)).
  unfold set_dependency in HSD. rewrite TN in HSD. rewrite (scoped_unscoped _ _ In_u NCu) in HSD.
  assert (KEY : n_name n = n_name u -> n = u).
  { intro Enm. apply (tree_key root n u W TTn TT). apply node_eqb_key. unfold key. now rewrite EP, EK, Enm. }
  destruct (String.eqb (n_name n) (scoped (scope (n_in u)) (n_name u))) eqn:E0.
  { exfalso. apply String.eqb_eq in E0. destruct (n_in u) as [| c0 o0] eqn:EQ; [apply NE, KEY; exact E0 |].
    revert E0. eapply scoped_neq; eauto. discriminate. }
  rewrite EP in HSD. assert (DC := node_declares root u (n_in u) W Eu TT). unfold declares in DC. rewrite DC in HSD.
  assert (X : scope_match (n_in u) (scoped (scope (n_in u)) (n_name u)) = true) by (apply scope_match_scoped; auto).
  rewrite X in HSD. cbn [andb] in HSD.
  destruct (find (fun u0 => ekind_eqb (n_kind u0) (n_kind n) && String.eqb (n_name u0) (n_name u)) (nodes_of root (n_in u))) as [v |] eqn:FV.
  - apply find_some in FV. destruct FV as [V1 V2]. apply andb_true_iff in V2. destruct V2 as [V2 V3]. apply ekind_eqb_eq in V2. apply String.eqb_eq in V3.
    destruct (in_tree_of root _ v V1) as [Tv Pv].
    assert (v = u). { apply (tree_key root v u W Tv TT). apply node_eqb_key. unfold key. rewrite Pv, V2, V3, EK. reflexivity. }
    subst v. inversion HSD; subst E'. cbn in SA.
    destruct (add_once_has (pair_eqb node_eqb node_eqb) (n, u) (d_anc E)) as ([a b] & Ia & Ea).
    { unfold pair_eqb. cbn. now rewrite !node_eqb_refl. }
    unfold pair_eqb in Ea. cbn in Ea. apply andb_true_iff in Ea. destruct Ea as [Ea Eb].
    assert (Ib := SA _ Ia). destruct (from_anc _ _ _ F a b Ib) as (B1 & B2 & _). destruct (in_tree_of root _ b B1) as [Tb _].
    assert (b = u) by (symmetry; apply (tree_key root u b W TT Tb Eb)). subst b.
    apply ancestors_iff. exists a. auto.
  - exfalso. assert (Y := find_none _ _ FV u TT). cbn in Y. rewrite String.eqb_refl, andb_true_r in Y. rewrite EK in Y.
    assert (Z : ekind_eqb (n_kind n) (n_kind n) = true) by now apply ekind_eqb_eq. congruence.
Qed.
Lemma same_Dok root par D p : well_named root -> solve root par = Ok D -> exists_module root p = true -> shallow root par p -> Dok root D (same root par p).
Proof.
  intros W HS EP SH. destruct (solve_from root par D HS) as [F _]. destruct (solve_Dok root par D W F) as [D1 D2 D3 _].
  assert (AN : forall n, In n (nodes_of root p) -> In n (all_nodes root)).
  { intros n H. destruct (in_tree_of root p n H) as [T P]. apply all_nodes_in. split; [| exact T]. rewrite P. now apply places_exist. }
  constructor; auto. intros q l1 n l2 EQ.
  assert (Hn : In n (nodes_of root q)) by (rewrite EQ; apply in_or_app; right; now left).
  destruct (in_tree_of root q n Hn) as [Tn Pn]. split.
  - intros a Ha. assert (Ha' := D3 q n a Hn Ha). destruct (in_tree_of root q a Ha') as [Ta Pa].
    destruct (list_eq_dec string_dec q p) as [-> | NQ].
    + apply ancestors_iff in Ha. destruct Ha as (m & I & E). destruct (from_anc _ _ _ F m a I) as (_ & Ka & (Hm & t & Ht & Ho & Hna)).
      assert (n = m) by (apply (tree_key root n m W Tn (all_in_tree root m Hm) E)). subst m.
      destruct (n_kind n) eqn:KN.
      3: { right. intros u (_ & _ & (_ & _ & _ & Hw) & _). unfold written in Hw. rewrite Ka in Hw. destruct (n_type a); contradiction. }
      all: assert (MT : mentions par n a) by (eapply masters_mention; eauto; rewrite KN; discriminate);
        destruct (SH l1 n l2 a EQ Ha' MT) as [L | (_ & _ & V)]; [now left |]; right; intros u (_ & Pu & Us & _); apply V; [| exact Us];
        destruct Us as (_ & Hu & _); apply all_in_tree in Hu; unfold in_tree in Hu; now rewrite Pu in Hu.
    + right. intros u (Pa' & _). congruence.
  - intros u (Pn' & Pu & Us & NE). assert (QP : q = p) by congruence. rewrite QP in EQ.
    assert (Hu : In u (nodes_of root p)). { destruct Us as (_ & Hu & _). apply all_in_tree in Hu. unfold in_tree in Hu. now rewrite Pu in Hu. }
    destruct (SH l1 n l2 u EQ Hu (uses_mention root par n u W Us)) as [L | (KE & DI & _)]; [now left |]. right.
    destruct Us as (Hn' & Hu' & K & Hw). eapply recorded_same; eauto.
    + eapply masters_written; eauto.
      intros KN E. apply NE. apply (tree_key root n u W Tn (all_in_tree root u Hu')). apply node_eqb_key. unfold key.
        assert (Kn : n_kind n <> xCONST) by (destruct KN as [-> | ->]; discriminate).
        destruct (names_differ root n u W Hn' Hu' Kn K E) as [A B]. now rewrite A, B, KE.
    + congruence.
Qed.
Lemma same_before root par D p s n u : well_named root -> solve root par = Ok D -> Inv root D (same root par p) s ->
  n_in n = p -> n_in u = p -> uses root par n u -> n <> u -> ~ needed_inside root par n -> In (EDecl n) (g_out s) -> before (g_out s) (EDecl u) (EDecl n).
Proof.
  intros W HS I P1 P2 Us NE NN HE. destruct (solve_from root par D HS) as [F _]. assert (Us' := Us). destruct Us as (Hn & Hu & K & _).
  assert (NEa := not_early root par D n W F Hn NN). destruct (node_type_ok root u W Hu K) as (_ & _ & PU & _).
  apply in_split in HE. destruct HE as (pre & post & E). apply before_split. exists pre, post. split; [exact E |].
  destruct (inv_q _ _ _ _ I pre _ post E NEa) as [_ X]. apply X; [| exact PU]. unfold same. auto.
Qed.
