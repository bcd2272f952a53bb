(** C52, C53: listing the types of a module, visiting its submodules. *)
From Verif Require Import Base Types TypeBuild TypeSpec Mem Ops Module ModuleSpec ModuleFacts ModList ModListSpec ModListFacts PropModule.

Lemma down_nulls m : (forall qs x, down m qs = Some x -> forall c, assoc c (m_inner x) <> Some None) -> once m -> nulls_free m.
Proof.
  induction m as [n t i IH] using modl_ind2. intros H Ho. pose proof (Ho [] _ eq_refl) as Hn. cbn [m_inner] in Hn. apply nulls_free_in. split.
  - intros c Hin. apply (H [] _ eq_refl c). exact (assoc_of_in _ _ _ Hn Hin).
  - intros c x Hin. pose proof (assoc_of_in _ _ _ Hn Hin) as Ha. apply (IH c x Hin); [|exact (once_child _ _ _ _ _ Ho Ha)].
    intros qs y D. apply (H (c :: qs)). cbn [down m_inner]. rewrite Ha. exact D.
Qed.
Lemma root_once root p m : inner_once root -> mod_at root p = Some m -> once m.
Proof. intros H Hm qs x D. apply (H (rev qs ++ p)). rewrite mod_at_app, Hm. exact D. Qed.
Lemma root_nulls root p m : no_nulls root -> inner_once root -> mod_at root p = Some m -> nulls_free m.
Proof.
  intros Hn Ho Hm. apply down_nulls; [|exact (root_once _ _ _ Ho Hm)]. intros qs x D c. apply (Hn c (rev qs ++ p)). rewrite mod_at_app, Hm. exact D.
Qed.
(** The visited places are those inside. *)
Lemma visited root p m : inner_once root -> mod_at root p = Some m -> forall q x, In (q, x) ((p, m) :: below p m) <-> inside p q /\ mod_at root q = Some x.
Proof.
  intros Ho Hm q x. cbn [In]. rewrite (in_below m (root_once _ _ _ Ho Hm)). split.
  - intros [E|(qs & _ & -> & D)]; [injection E as <- <-; split; [exists []; reflexivity|exact Hm]|]. split; [exists (rev qs); reflexivity|]. rewrite mod_at_app, Hm. exact D.
  - intros [[r ->] E]. rewrite <- (rev_involutive r), mod_at_app, Hm in E. destruct r as [|c r]; [left; cbn in E; injection E as <-; reflexivity|right].
    exists (rev (c :: r)). split; [destruct (rev (c :: r)) eqn:R; [apply (f_equal (@rev _)) in R; rewrite rev_involutive in R; discriminate R|discriminate]|].
    split; [rewrite rev_involutive; reflexivity|exact E].
Qed.
Lemma own_entry root q x m k t : mod_at root q = Some m -> entry root q k x = Some t -> exists t', assoc x (own (m_tab m)) = Some t'.
Proof.
  intros Hm E. unfold entry, tab_at in E. rewrite Hm in E. unfold own. rewrite !assoc_app.
  destruct k; cbn [get_table] in E; destruct (assoc x (structs (m_tab m))); try (eexists; reflexivity); try discriminate E; destruct (assoc x (unions (m_tab m))); try (eexists; reflexivity); try discriminate E;
    destruct (assoc x (aliases (m_tab m))); try (eexists; reflexivity); try discriminate E; rewrite E; eexists; reflexivity.
Qed.
Lemma own_table root q x m t : mod_at root q = Some m -> assoc x (own (m_tab m)) = Some t -> exists k, entry root q k x = Some t.
Proof.
  intros Hm E. unfold entry, tab_at. rewrite Hm. unfold own in E. rewrite !assoc_app in E.
  destruct (assoc x (structs (m_tab m))) eqn:E1; [exists Structs; cbn; congruence|]. destruct (assoc x (unions (m_tab m))) eqn:E2; [exists Unions; cbn; congruence|].
  destruct (assoc x (aliases (m_tab m))) eqn:E3; [exists Aliases; cbn; congruence|]. exists Enums. exact E.
Qed.
Lemma str_app_inj (a b c : string) : (a ++ b)%string = (a ++ c)%string -> b = c.
Proof. induction a as [|z a IH]; cbn; [trivial|]. intros E. injection E as E. auto. Qed.
Lemma assoc_keyed pre (l : list (string * ty)) x : assoc (pre ++ x)%string (map (fun y => ((pre ++ fst y)%string, snd y)) l) = assoc x l.
Proof.
  induction l as [|[y t] l IH]; [reflexivity|]. cbn [map fst snd assoc]. rewrite IH. destruct (String.eqb_spec x y) as [->|N]; [rewrite String.eqb_refl; reflexivity|].
  destruct (String.eqb_spec (pre ++ x) (pre ++ y)) as [E|_]; [apply str_app_inj in E; contradiction|reflexivity].
Qed.
Lemma assoc_keyed_inv pre (l : list (string * ty)) k t : assoc k (map (fun y => ((pre ++ fst y)%string, snd y)) l) = Some t -> exists x, k = (pre ++ x)%string /\ assoc x l = Some t.
Proof.
  intros H. assert (Q : exists x, k = (pre ++ x)%string).
  { apply assoc_is_in, in_map_iff in H as ([x y] & E & _). injection E as <- _. exists x. reflexivity. }
  destruct Q as [x ->]. exists x. split; [reflexivity|]. rewrite assoc_keyed in H. exact H.
Qed.
Lemma assoc_flat_inv {B} (f : B -> list (string * ty)) l k t : assoc k (flat_map f l) = Some t -> exists e, In e l /\ assoc k (f e) = Some t.
Proof.
  induction l as [|e l IH]; [discriminate|]. cbn [flat_map]. rewrite assoc_app. destruct (assoc k (f e)) eqn:E; [intros [= <-]; exists e; split; [left; reflexivity|exact E]|].
  intros H. destruct (IH H) as (e' & H1 & H2). exists e'. split; [right; exact H1|exact H2].
Qed.
Lemma assoc_flat_some {B} (f : B -> list (string * ty)) l e k t : In e l -> assoc k (f e) = Some t -> exists t', assoc k (flat_map f l) = Some t'.
Proof.
  induction l as [|e' l IH]; [intros []|]. intros [->|H] E; cbn [flat_map]; rewrite assoc_app; [rewrite E; eexists; reflexivity|]. destruct (assoc k (f e')); [eexists; reflexivity|exact (IH H E)].
Qed.
Lemma place_ident root : (forall c p, exists_module root (c :: p) = true -> ident c) -> forall q, exists_module root q = true -> Forall ident q.
Proof.
  intros H. induction q as [|c q IH]; intros E; [constructor|]. constructor; [exact (H c q E)|]. apply IH. unfold exists_module in *. destruct (mod_at root (c :: q)) as [m|] eqn:Em; [|discriminate E].
  destruct (outer_exists _ _ _ _ Em) as (m' & ->). reflexivity.
Qed.
Lemma key_prefix root add q x : plain_names root -> exists_module root q = true -> (prefix_of add q ++ x)%string = key_of add q x.
Proof. intros [H _] E. destruct add; [apply prefix_key, (place_ident root H), E|reflexivity]. Qed.
Lemma qualified_inj : forall qs qs' x x', Forall ident qs -> Forall ident qs' -> ident x -> ident x' -> qualified qs x = qualified qs' x' -> qs = qs' /\ x = x'.
Proof.
  induction qs as [|q qs IH]; intros [|q' qs'] x x' H H' Hx Hx' E; cbn [qualified] in E.
  - split; [reflexivity|exact E].
  - exfalso. inversion H' as [|? ? [_ Hq] _]; subst. destruct Hx as [_ Hx]. apply split_ident in Hx. rewrite (split_app _ _ Hq) in Hx. discriminate Hx.
  - exfalso. inversion H as [|? ? [_ Hq] _]; subst. destruct Hx' as [_ Hx']. apply split_ident in Hx'. rewrite (split_app _ _ Hq) in Hx'. discriminate Hx'.
  - inversion H as [|? ? [_ Hq] Hr]; subst. inversion H' as [|? ? [_ Hq'] Hr']; subst. apply (f_equal split_scope) in E. rewrite !split_app in E by assumption. injection E as -> E.
    destruct (IH _ _ _ Hr Hr' Hx Hx' E) as [-> ->]. split; reflexivity.
Qed.

(** ** C52 *)
(** get_all_types lists nothing that is not a type of the module or of a module inside it, under its name; with or
    without scopes. *)
Theorem C52_sound : forall root p add, no_nulls root -> inner_once root -> plain_names root -> exists_module root p = true ->
  exists r, get_all_types add root p = Ok r /\
    forall key t, assoc key r = Some t -> exists q k x, inside p q /\ entry root q k x = Some t /\ key = key_of add q x.
Proof.
  intros root p add Hn Ho Hp He. unfold exists_module in He. unfold get_all_types. destruct (mod_at root p) as [m|] eqn:Hm; [|discriminate He].
  destruct (fill_spec add m (root_nulls _ _ _ Hn Ho Hm) p []) as (r & -> & K). exists r. split; [reflexivity|]. intros key t E. rewrite K in E. cbn [assoc] in E.
  apply assoc_flat_inv in E as ([q x] & Hin & E). apply (visited root p m Ho Hm) in Hin as [Hi Hq]. unfold keyed_own in E. cbn [fst snd] in E. apply assoc_keyed_inv in E as (y & -> & E).
  destruct (own_table _ _ _ _ _ Hq E) as (k & Ek). exists q, k, y. split; [exact Hi|]. split; [exact Ek|]. apply (key_prefix root); [exact Hp|]. unfold exists_module. rewrite Hq. reflexivity.
Qed.
(** Every type of the module and of the modules inside it has its name listed. *)
Theorem C52_complete : forall root p add, no_nulls root -> inner_once root -> plain_names root -> exists_module root p = true ->
  exists r, get_all_types add root p = Ok r /\ forall q k x t, inside p q -> entry root q k x = Some t -> exists t', assoc (key_of add q x) r = Some t'.
Proof.
  intros root p add Hn Ho Hp He. unfold exists_module in He. unfold get_all_types. destruct (mod_at root p) as [m|] eqn:Hm; [|discriminate He].
  destruct (fill_spec add m (root_nulls _ _ _ Hn Ho Hm) p []) as (r & -> & K). exists r. split; [reflexivity|]. intros q k x t Hi E.
  destruct (mod_at root q) as [y|] eqn:Hq; [|unfold entry, tab_at in E; rewrite Hq in E; destruct k; discriminate E].
  rewrite K. cbn [assoc]. destruct (own_entry _ _ _ _ _ _ Hq E) as (t' & Et). apply (assoc_flat_some (keyed_own add) _ (q, y) _ t').
  - apply (visited root p m Ho Hm). split; assumption.
  - unfold keyed_own. cbn [fst snd]. rewrite <- (key_prefix root) by (try assumption; unfold exists_module; rewrite Hq; reflexivity). rewrite assoc_keyed. exact Et.
Qed.
(** With scopes the listing is exact: the type listed as M1::...::Mn::x is the type x of the module M1::...::Mn. *)
Theorem C52_scoped : forall root p, no_nulls root -> inner_once root -> plain_names root -> one_kind root -> exists_module root p = true ->
  exists r, get_all_types true root p = Ok r /\
    forall key t, assoc key r = Some t <-> exists q k x, inside p q /\ entry root q k x = Some t /\ key = qualified (rev q) x.
Proof.
  intros root p Hn Ho Hp H1 He. destruct (C52_sound root p true Hn Ho Hp He) as (r & Er & S1). destruct (C52_complete root p true Hn Ho Hp He) as (r' & Er' & C1).
  rewrite Er in Er'. injection Er' as <-. exists r. split; [exact Er|]. intros key t. split; [apply S1|]. intros (q & k & x & Hi & E & ->).
  destruct (C1 q k x t Hi E) as (t' & Et). cbn [key_of] in Et. rewrite Et. f_equal. destruct (S1 _ _ Et) as (q' & k' & x' & _ & E' & Ek).
  assert (Hq : forall q k x t, entry root q k x = Some t -> exists_module root q = true).
  { intros q0 k0 x0 t0 E0. unfold entry, tab_at in E0. unfold exists_module. destruct (mod_at root q0); [reflexivity|destruct k0; discriminate E0]. }
  apply qualified_inj in Ek as [Eq ->]; [|apply Forall_rev, (place_ident root (proj1 Hp)); eapply Hq; eassumption|apply Forall_rev, (place_ident root (proj1 Hp)); eapply Hq; eassumption|exact (proj2 Hp _ _ _ _ E)|exact (proj2 Hp _ _ _ _ E')].
  apply (f_equal (@rev _)) in Eq. rewrite !rev_involutive in Eq. subst q'. pose proof (H1 _ _ _ _ _ _ E E') as ->. congruence.
Qed.
(** Without scopes a type is lost when two modules declare one name. *)
Theorem C70_unscoped_refuted : let root := ex_flat ["T"; "U"]%string ["T"]%string in
  entry root ["A"]%string Structs "T" = Some (ex_leaf "T") /\ entry root ["B"]%string Structs "T" = Some (ex_leaf "T") /\
  exists r, get_all_types false root [] = Ok r /\ map fst r = ["T"; "U"]%string.
Proof. cbn zeta. split; [reflexivity|]. split; [reflexivity|]. eexists. split; vm_compute; reflexivity. Qed.

(** ** C53 *)
(** for_each calls the visitor once for every module inside, a module after the module it is in. *)
Theorem C53_for_each : forall S (visitor : S -> place -> modl -> S) root p m s, no_nulls root -> inner_once root -> mod_at root p = Some m ->
  exists order, for_each_module visitor p m s = Ok (fold_left (fun s e => visitor s (fst e) (snd e)) order s) /\
    NoDup (map fst order) /\
    (forall q x, In (q, x) order <-> inside p q /\ mod_at root q = Some x) /\
    (forall l1 c q x l2, order = l1 ++ (c :: q, x) :: l2 -> c :: q <> p -> In q (map fst l1)).
Proof.
  intros S v root p m s Hn Ho Hm. exists ((p, m) :: below p m). split; [|split; [|split]].
  - unfold for_each_module. rewrite (walk_spec v m (root_nulls _ _ _ Hn Ho Hm)). reflexivity.
  - cbn [map fst]. constructor; [|exact (below_nodup m (root_once _ _ _ Ho Hm) p)]. intros H. apply in_map_iff in H as ([q x] & E & H). cbn [fst] in E. subst q.
    apply (in_below m (root_once _ _ _ Ho Hm)) in H as (qs & Hne & E & _). apply (f_equal (@List.length _)) in E. rewrite app_length, rev_length in E. destruct qs; [congruence|cbn in E; lia].
  - apply visited; assumption.
  - intros l1 c q x l2 E Hne. destruct l1 as [|e l1]; cbn [app] in E; injection E as E1 E2; [congruence|]. destruct (below_order m p _ _ _ _ E2) as (c' & o & Eo & H). injection Eo as _ <-. subst e. cbn [map fst].
    destruct H as [->|H]; [left; reflexivity|right; exact H].
Qed.
(** for_each_submodule with recursive = false calls it for the direct submodules only, each once. *)
Theorem C53_children : forall S (visitor : S -> place -> modl -> S) root p m s, no_nulls root -> inner_once root -> mod_at root p = Some m ->
  exists order, for_each_submodule visitor p m false s = Ok (fold_left (fun s e => visitor s (fst e) (snd e)) order s) /\
    NoDup (map fst order) /\ forall q x, In (q, x) order <-> (exists c, q = c :: p) /\ mod_at root q = Some x.
Proof.
  intros S v root p m s Hn Ho Hm. pose proof (root_nulls _ _ _ Hn Ho Hm) as Hf. pose proof (root_once _ _ _ Ho Hm [] m eq_refl) as Hd. destruct m as [n t i]. cbn [m_inner] in Hd.
  exists (flat_map (fun e => match snd e with Some x => [(fst e :: p, x)] | None => [] end) i). split; [|split].
  - rewrite children_spec by exact Hf. f_equal. clear. revert s. induction i as [|[c [x|]] i IH]; intros s; cbn [flat_map fold_left fst snd app]; [reflexivity|apply IH|apply IH].
  - clear - Hd. induction i as [|[c [x|]] i IH]; cbn [flat_map map fst snd app]; [constructor| |inversion Hd; auto]. inversion Hd as [|? ? H1 H2]; subst. constructor; [|exact (IH H2)].
    intros H. apply in_map_iff in H as ([q y] & E & H). cbn [fst] in E. subst q. apply in_flat_map in H as ([c' [x'|]] & Hin & H); [destruct H as [E|[]]|destruct H]. injection E as -> _. apply H1. apply (in_map fst) in Hin. exact Hin.
  - intros q x. rewrite in_flat_map. split.
    + intros ([c [y|]] & Hin & H); [destruct H as [E|[]]|destruct H]. cbn [fst snd] in E. injection E as <- <-. split; [exists c; reflexivity|]. cbn [mod_at]. rewrite Hm. cbn [m_inner]. rewrite (assoc_of_in _ _ _ Hd Hin). reflexivity.
    + intros [[c ->] E]. cbn [mod_at] in E. rewrite Hm in E. cbn [m_inner] in E. destruct (assoc c i) as [[y|]|] eqn:Ea; try discriminate E. injection E as ->. exists (c, Some x). split; [exact (assoc_is_in _ _ _ Ea)|left; reflexivity].
Qed.
(** for_each_submodule with recursive = true: for_each without the module itself. *)
Theorem C53_recursive : forall S (visitor : S -> place -> modl -> S) root p m s, no_nulls root -> inner_once root -> mod_at root p = Some m ->
  exists order, for_each_submodule visitor p m true s = Ok (fold_left (fun s e => visitor s (fst e) (snd e)) order s) /\
    NoDup (map fst order) /\ forall q x, In (q, x) order <-> inside p q /\ q <> p /\ mod_at root q = Some x.
Proof.
  intros S v root p m s Hn Ho Hm. pose proof (root_once _ _ _ Ho Hm) as Hd. exists (below p m). split; [apply walk_spec, (root_nulls _ _ _ Hn Ho Hm)|]. split; [apply below_nodup, Hd|]. intros q x.
  assert (Hp : ~ In p (map fst (below p m))).
  { intros H. apply in_map_iff in H as ([q' x'] & E & H). cbn [fst] in E. subst q'. apply (in_below m Hd) in H as (qs & Hne & E & _). apply (f_equal (@List.length _)) in E. rewrite app_length, rev_length in E. destruct qs; [congruence|cbn in E; lia]. }
  pose proof (visited root p m Ho Hm q x) as V. cbn [In] in V. split.
  - intros H. destruct (proj1 V (or_intror H)) as [H1 H2]. split; [exact H1|]. split; [|exact H2]. intros ->. apply Hp. apply (in_map fst) in H. exact H.
  - intros (H1 & H2 & H3). destruct (proj2 V (conj H1 H3)) as [E|H]; [injection E as <- _; congruence|exact H].
Qed.
(** After submodule() of an absent name (C31_query_refuted) walking the tree is undefined. *)
Theorem C31_walk_refuted : exists root', call_submodule "N" ex_tree [] = Ok (false, root') /\
  (forall add, get_all_types add root' [] = Fail UB) /\
  (forall S (visitor : S -> place -> modl -> S) s, for_each_module visitor [] root' s = Fail UB).
Proof. eexists. split; [vm_compute; reflexivity|]. split; [intros []; vm_compute; reflexivity|]. intros S v s. cbn. reflexivity. Qed.

Lemma ex_tree_places p m : mod_at ex_tree p = Some m -> p = [] /\ m = ex_tree \/ (exists x, p = ["A"]%string /\ m = Mod "A" (tabs ["Y"]%string) [("B"%string, Some x)]) \/ p = ["B"; "A"]%string /\ m = Mod "B" (tabs ["X"]%string) [].
Proof.
  intros H. rewrite mod_at_walk in H. rewrite <- (rev_involutive p). destruct (rev p) as [|a [|b [|c r]]]; cbn [walk] in H; unfold ex_tree in H; cbn [m_inner assoc] in H.
  - injection H as <-. left. split; reflexivity.
  - destruct (String.eqb_spec a "A"); [|discriminate H]. subst. injection H as <-. right. left. eexists. split; reflexivity.
  - destruct (String.eqb_spec a "A"); [|discriminate H]. cbn [m_inner assoc] in H. destruct (String.eqb_spec b "B"); [|discriminate H]. subst. injection H as <-. right. right. split; reflexivity.
  - destruct (String.eqb_spec a "A"); [|discriminate H]. cbn [m_inner assoc] in H. destruct (String.eqb_spec b "B"); [|discriminate H]. cbn [m_inner assoc] in H. discriminate H.
Qed.
Lemma ex_tree_once : inner_once ex_tree.
Proof. intros p m H. apply ex_tree_places in H as [[-> ->]|[(x & -> & ->)|[-> ->]]]; cbn; repeat constructor; intros []. Qed.
Lemma ex_tree_entry q k x t : entry ex_tree q k x = Some t -> k = Structs /\ (x = "X" \/ x = "Y")%string.
Proof.
  unfold entry, tab_at. destruct (mod_at ex_tree q) as [m|] eqn:Hm; [|destruct k; discriminate]. apply ex_tree_places in Hm as [[-> ->]|[(y & -> & ->)|[-> ->]]]; destruct k; cbn; try discriminate;
    intros E; (split; [reflexivity|]); [destruct (String.eqb_spec x "X")|destruct (String.eqb_spec x "Y")|destruct (String.eqb_spec x "X")]; try discriminate E; auto.
Qed.
Lemma ex_tree_plain : plain_names ex_tree.
Proof.
  split.
  - intros c p H. unfold exists_module in H. destruct (mod_at ex_tree (c :: p)) as [m|] eqn:E; [|discriminate H]. apply ex_tree_places in E as [[E _]|[(y & E & _)|[E _]]]; try discriminate E; injection E as -> _; split; (discriminate || reflexivity).
  - intros q k x t H. apply ex_tree_entry in H as [_ [-> | ->]]; split; (discriminate || reflexivity).
Qed.
Lemma ex_tree_kind : one_kind ex_tree.
Proof. intros q k k' x t t' H H'. apply ex_tree_entry in H as [-> _]. apply ex_tree_entry in H' as [-> _]. reflexivity. Qed.
Example C52_nontrivial : no_nulls ex_tree /\ inner_once ex_tree /\ plain_names ex_tree /\ one_kind ex_tree /\
  exists r, get_all_types true ex_tree ["A"]%string = Ok r /\ map fst r = ["A::B::X"; "A::Y"]%string /\ assoc "A::B::X"%string r = Some (ex_leaf "X").
Proof.
  split; [exact (proj1 C29_nontrivial)|]. split; [exact ex_tree_once|]. split; [exact ex_tree_plain|]. split; [exact ex_tree_kind|]. eexists. split; [vm_compute; reflexivity|]. split; reflexivity.
Qed.
Example C53_nontrivial : no_nulls ex_tree /\ inner_once ex_tree /\
  for_each_module (fun s p _ => s ++ [p]) [] ex_tree [] = Ok [[]; ["A"]; ["B"; "A"]]%string /\
  for_each_submodule (fun s p _ => s ++ [p]) [] ex_tree false [] = Ok [["A"]]%string.
Proof. split; [exact (proj1 C29_nontrivial)|]. split; [exact ex_tree_once|]. split; vm_compute; reflexivity. Qed.

Print Assumptions C52_sound.
Print Assumptions C52_complete.
Print Assumptions C52_scoped.
Print Assumptions C70_unscoped_refuted.
Print Assumptions C53_for_each.
Print Assumptions C53_children.
Print Assumptions C53_recursive.
Print Assumptions C31_walk_refuted.
