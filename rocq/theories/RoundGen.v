(** Each module is printed once; the text of a module is the texts of its events. *)
From Verif Require Import Base Types TypeBuild Compat Mem Hash MapOps Ops Module ModuleSpec ModuleFacts Peg0 IntOps IdlLit Peg Grammar IdlParse GenIdl GenModule DepTree DepSpec DepFacts DepGen DepSolve DepTerm.

(** ** Each module is opened once *)
(** A chain of modules that have not been printed, each an ancestor of the one before. *)
Inductive chain (D : deps) (s : gst) : place -> place -> Prop :=
| ch_end a : it_mod a s = false -> chain D s a a
| ch_more a b c : it_mod a s = false -> In b (mod_ancestors D a) -> chain D s b c -> chain D s a c.
Lemma chain_back D s s' a b : (forall q, it_mod q s = true -> it_mod q s' = true) -> chain D s' a b -> chain D s a b.
Proof.
  intros K H. assert (F : forall q, it_mod q s' = false -> it_mod q s = false) by (intros q E; destruct (it_mod q s) eqn:X; [rewrite (K q X) in E; discriminate | reflexivity]).
  induction H; [constructor; auto | econstructor; eauto].
Qed.
Lemma chain_sibling root par D s a b : From root par D -> chain D s a b -> a = b \/ exists c c' o, a = c :: o /\ b = c' :: o.
Proof.
  intros F H. induction H as [| a b c E H1 H2 IH]; [now left |]. right. apply mod_ancestors_iff in H1. destruct (from_mod _ _ _ F _ _ H1) as (x & y & o & n & u & -> & -> & _).
  destruct IH as [<- | (x' & y' & o' & Q & ->)]; [eauto |]. inversion Q; subst. eauto.
Qed.
Lemma gen_mono root D f p s s' : gen_idl f root D p s = Ok s' -> it_mod p s' = true /\ forall q, it_mod q s = true -> it_mod q s' = true.
Proof. intros H. destruct (gen_free root D (fun _ => False) ltac:(intros a []) f p s s' H ltac:(intros a [])) as (_ & A & B). auto. Qed.
(** What a run prints anew is inside the modules of such a chain. *)
Definition news (D : deps) (l : list place) (s s' : gst) : Prop := forall q, it_mod q s = false -> it_mod q s' = true -> exists p r, In p l /\ chain D s p r /\ around r q.
Lemma gen_all_news root D f : (forall p s s', gen_idl f root D p s = Ok s' -> news D [p] s s') ->
  forall l s s', gen_all (gen_idl f root D) l s = Ok s' -> news D l s s' /\ forall q, it_mod q s = true -> it_mod q s' = true.
Proof.
  intros G. induction l as [| p l IH]; intros s s' H.
  - inversion H; subst. split; [intros q E E'; congruence | auto].
  - cbn [gen_all] in H. apply bind_ok_iff in H. destruct H as (s1 & H1 & H).
    assert (K : (forall q, it_mod q s = true -> it_mod q s1 = true) /\ news D [p] s s1).
    { destruct (it_mod p s); [inversion H1; subst; split; [auto | intros q E E'; congruence] | split; [apply gen_mono in H1; apply H1 | now apply G]]. }
    destruct K as [K N1]. destruct (IH s1 s' H) as [N2 K2]. split; [| auto]. intros q E E'. destruct (it_mod q s1) eqn:E1.
    + destruct (N1 q E E1) as (p' & r & [<- | []] & C & A). exists p, r. split; [now left | auto].
    + destruct (N2 q E1 E') as (p' & r & I & C & A). exists p', r. split; [now right |]. split; [| exact A]. eapply chain_back; eauto.
Qed.
Lemma parents_inside root par D p q : From root par D -> In q (flat_map (parents D) (nodes_of root p)) -> exists c, q = c :: p.
Proof.
  intros F H. apply in_flat_map in H. destruct H as (n & Hn & H). apply parents_iff in H. destruct H as (m & Hm & E). apply node_eqb_key in E. inversion E as [[E1 E2 E3]].
  destruct (from_par _ _ _ F _ _ Hm) as (c & u & -> & _). exists c. apply nodes_of_in in Hn. destruct Hn as [<- _]. congruence.
Qed.
Lemma inner_inside root p q : In q (inner_of root p) -> exists c, q = c :: p.
Proof. unfold inner_of. destruct (mod_at root p); [| intros []]. intro H. apply in_map_iff in H. destruct H as (e & <- & _). eauto. Qed.
Lemma chain_start D s a b : chain D s a b -> it_mod a s = false.
Proof. now intros []. Qed.
Lemma around_refl p : around p p. Proof. now exists []. Qed.
Lemma around_trans a b c : around a b -> around b c -> around a c.
Proof. intros (r & ->) (r' & ->). exists (r' ++ r). now rewrite app_assoc. Qed.
Lemma around_cons x q : around q (x :: q). Proof. now exists [x]. Qed.
Lemma gen_news root par D : From root par D -> forall f p s s', gen_idl f root D p s = Ok s' -> news D [p] s s'.
Proof.
  intros F. induction f as [| f IH]; intros p s s' H; [discriminate |]. rewrite gen_idl_S in H. destruct (it_mod p s) eqn:IT.
  { inversion H; subst. intros q E E'. congruence. }
  apply bind_ok_iff in H. destruct H as (s1 & H1 & H). apply bind_ok_iff in H. destruct H as (s4 & H4 & H). apply bind_ok_iff in H. destruct H as (s6 & H6 & H). injection H as H. subst s'.
  destruct (gen_all_news root D f IH _ _ _ H1) as [N1 K1]. destruct (gen_all_news root D f IH _ _ _ H4) as [N4 K4]. destruct (gen_all_news root D f IH _ _ _ H6) as [N6 K6].
  set (s2 := out (EOpen p) (match p with [] => s1 | _ :: o => sentences root (filter (has_child D p) (nodes_of root o)) s1 end)) in *.
  assert (M2 : forall q, it_mod q s2 = it_mod q s1) by (intro q; apply it_mod_same; unfold s2; destruct p; [reflexivity | apply sentences_mods]).
  assert (M5 : forall q, it_mod q (gen_module root D p s4) = it_mod q s4) by (intro q; apply it_mod_same, gen_module_mods).
  assert (IN : forall q i r, (exists c, i = c :: p) -> (forall s0, chain D s0 i r -> around r q -> exists p' r', In p' [p] /\ chain D s p' r' /\ around r' q)).
  { intros q i r (c & ->) s0 C A. exists p, p. split; [now left |]. split; [now constructor |]. destruct (chain_sibling _ _ _ _ _ _ F C) as [<- | (x & y & o & E & ->)].
    - eapply around_trans; [apply around_cons | exact A].
    - inversion E; subst. eapply around_trans; [apply around_cons | exact A]. }
  intros q E E'. change (place_eqb q p || it_mod q s6 = true) in E'. apply orb_true_iff in E'. destruct E' as [E' | E'].
  { apply place_eqb_eq in E'. subst q. exists p, p. split; [now left |]. split; [now constructor | apply around_refl]. }
  destruct (it_mod q s1) eqn:E1.
  { destruct (N1 q E E1) as (b & r & Hb & C & A). exists p, r. split; [now left |]. split; [econstructor; eauto | exact A]. }
  destruct (it_mod q s4) eqn:E4.
  { rewrite <- M2 in E1. destruct (N4 q E1 E4) as (i & r & Hi & C & A). apply (IN q i r (parents_inside _ _ _ _ _ F Hi) _ C A). }
  rewrite <- M5 in E4. destruct (N6 q E4 E') as (i & r & Hi & C & A). apply (IN q i r (inner_inside _ _ _ Hi) _ C A).
Qed.
(** Printing the ancestors of a module does not print the module. *)
Lemma ancestors_not_self root par D f p : From root par D -> forall l s s', incl l (mod_ancestors D p) -> gen_all (gen_idl f root D) l s = Ok s' -> it_mod p s = false -> it_mod p s' = false.
Proof.
  intros F. induction l as [| b l IH]; intros s s' I H E; [inversion H; subst; exact E |]. cbn [gen_all] in H. apply bind_ok_iff in H. destruct H as (s1 & H1 & H).
  apply (IH s1 s'); [intros x Hx; apply I; now right | exact H |]. destruct (it_mod b s) eqn:Eb; [inversion H1; subst; exact E |].
  destruct (it_mod p s1) eqn:E1; [| reflexivity]. exfalso. destruct (gen_news root par D F f b s s1 H1 p E E1) as (b' & r & [<- | []] & C & A).
  assert (Hb : In b (mod_ancestors D p)) by (apply I; now left).
  assert (X : r = p).
  { pose proof Hb as Hb'. apply mod_ancestors_iff in Hb'. destruct (from_mod _ _ _ F _ _ Hb') as (x & y & o & n & u & -> & -> & _).
    assert (L : List.length r = List.length (x :: o)) by (destruct (chain_sibling _ _ _ _ _ _ F C) as [<- | (x' & y' & o' & Q & ->)]; [reflexivity | inversion Q; subst; reflexivity]).
    destruct A as ([| z w] & A); [exact (eq_sym A) |]. exfalso. apply (f_equal (@List.length string)) in A. rewrite app_length, L in A. cbn in A. lia. }
  subst r. destruct (gen_free root D (fun x => chain D s x p)) with (f := f) (p := b) (s := s) (s' := s1) as (FR & B & _); auto.
  - intros a Ca. destruct Ca as [a E0 | a b0 c E0 H0 C0]; [exists b; auto | exists b0; auto].
  - intros a Ca. apply (chain_start _ _ _ _ Ca).
  - rewrite (FR b C) in B. discriminate.
Qed.
Definition opens (p : place) (o : list event) : nat := List.length (filter (fun e => match e with EOpen q => place_eqb p q | _ => false end) o).
Lemma opens_app p o o' : opens p (o ++ o') = (opens p o + opens p o')%nat.
Proof. unfold opens. now rewrite filter_app, app_length. Qed.
Lemma opens_in p o : In (EOpen p) o <-> (0 < opens p o)%nat.
Proof.
  unfold opens. split; intro H.
  - assert (X : In (EOpen p) (filter (fun e => match e with EOpen q => place_eqb p q | _ => false end) o)) by (apply filter_In; split; [exact H | apply place_eqb_refl]).
    destruct (filter _ o); [contradiction | cbn; lia].
  - destruct (filter _ o) as [| e l] eqn:E; [cbn in H; lia |]. assert (X : In e (filter (fun e => match e with EOpen q => place_eqb p q | _ => false end) o)) by (rewrite E; now left).
    apply filter_In in X. destruct X as [X Y]. destruct e as [q | q | n]; try discriminate. apply place_eqb_eq in Y. now subst.
Qed.
(** Modules opened have been printed or are open; all exist; none is opened twice. *)
Record once root (stk : list place) (s : gst) : Prop := {
  on_done : forall q, In (EOpen q) (g_out s) -> it_mod q s = true \/ In q stk;
  on_exists : forall q, In (EOpen q) (g_out s) -> exists_module root q = true;
  on_once : forall q, (opens q (g_out s) <= 1)%nat }.
Definition quiet (s s' : gst) : Prop := g_mods s' = g_mods s /\ forall q, opens q (g_out s') = opens q (g_out s).
Lemma quiet_refl s : quiet s s. Proof. split; auto. Qed.
Lemma quiet_trans a b c : quiet a b -> quiet b c -> quiet a c.
Proof. intros [A B] [A' B']. split; [congruence | intro q; rewrite B', B; reflexivity]. Qed.
Lemma once_quiet root stk s s' : quiet s s' -> once root stk s -> once root stk s'.
Proof.
  intros [M O] [A B C]. assert (X : forall q, In (EOpen q) (g_out s') -> In (EOpen q) (g_out s)) by (intros q H; apply opens_in; rewrite <- O; now apply opens_in).
  constructor; [| auto | intro q; rewrite O; auto]. intros q H. rewrite (it_mod_same _ s) by exact M. auto.
Qed.
Lemma sentence_quiet root n s : quiet s (sentence root n s).
Proof.
  unfold sentence. destruct (it_node n s); [apply quiet_refl |]. split; [reflexivity |]. intro q. cbn [g_out]. destruct (printed root n); [| reflexivity]. rewrite opens_app. cbn. lia.
Qed.
Lemma sentences_quiet root l : forall s, quiet s (sentences root l s).
Proof. induction l as [| n l IH]; intro s; [apply quiet_refl |]. unfold sentences in *. cbn [fold_left]. eapply quiet_trans; [apply sentence_quiet | apply IH]. Qed.
Lemma gen_module_quiet root D p s : quiet s (gen_module root D p s).
Proof.
  unfold gen_module. generalize (nodes_of root p). intro l. revert s. induction l as [| n l IH]; intro s; [apply quiet_refl |]. cbn [fold_left].
  eapply quiet_trans; [| apply IH]. eapply quiet_trans; [apply sentences_quiet | apply sentence_quiet].
Qed.
Lemma gen_all_once root stk gen (Ex : place -> Prop) : (forall p s s', gen p s = Ok s' -> it_mod p s = false -> Ex p -> once root stk s -> once root stk s') ->
  forall l s s', gen_all gen l s = Ok s' -> (forall p, In p l -> Ex p) -> once root stk s -> once root stk s'.
Proof.
  intros G. induction l as [| p l IH]; intros s s' H E O; [inversion H; subst; exact O |]. cbn [gen_all] in H. apply bind_ok_iff in H. destruct H as (s1 & H1 & H).
  apply (IH s1 s' H); [intros x Hx; apply E; now right |]. destruct (it_mod p s) eqn:I; [inversion H1; subst; exact O |]. apply (G p s s1 H1 I); [apply E; now left | exact O].
Qed.
Lemma gen_once root par D : well_named root -> From root par D -> forall f p s s' stk, gen_idl f root D p s = Ok s' -> it_mod p s = false -> exists_module root p = true ->
  (forall q, In q stk -> (List.length q < List.length p)%nat) -> once root stk s -> once root stk s'.
Proof.
  intros W F. induction f as [| f IH]; intros p s s' stk H IT EX LE O; [discriminate |]. rewrite gen_idl_S in H. rewrite IT in H.
  apply bind_ok_iff in H. destruct H as (s1 & H1 & H). apply bind_ok_iff in H. destruct H as (s4 & H4 & H). apply bind_ok_iff in H. destruct H as (s6 & H6 & H). injection H as H. subst s'.
  assert (E1 : it_mod p s1 = false) by (eapply ancestors_not_self; eauto; apply incl_refl).
  assert (O1 : once root stk s1).
  { refine (gen_all_once root stk _ (fun b => exists_module root b = true /\ List.length b = List.length p) _ _ _ _ H1 _ O).
    - intros b t t' Hb Ib [Eb Lb] Ob. apply (IH b t t' stk Hb Ib Eb); [| exact Ob]. intros q Hq. rewrite Lb. auto.
    - intros b Hb. apply mod_ancestors_iff in Hb. destruct (from_mod _ _ _ F _ _ Hb) as (x & y & o & n & u & -> & -> & Hu & _ & _ & A & _). split; [| reflexivity].
      eapply exists_around; [exact A |]. apply places_exist; [exact W |]. apply all_nodes_in in Hu. apply Hu. }
  set (t2 := match p with [] => s1 | _ :: o => sentences root (filter (has_child D p) (nodes_of root o)) s1 end) in *.
  assert (Q2 : quiet s1 t2) by (unfold t2; destruct p; [apply quiet_refl | apply sentences_quiet]).
  assert (O2 : once root stk t2) by (eapply once_quiet; eauto). assert (E2 : it_mod p t2 = false) by (rewrite <- E1; apply it_mod_same, Q2).
  assert (N2 : opens p (g_out t2) = 0%nat).
  { destruct (opens p (g_out t2)) as [| k] eqn:X; [reflexivity |]. exfalso. destruct (on_done _ _ _ O2 p) as [A | A]; [apply opens_in; lia | congruence |]. specialize (LE p A). lia. }
  assert (O3 : once root (p :: stk) (out (EOpen p) t2)).
  { destruct O2 as [A B C]. constructor; cbn [g_out out].
    - intros q Hq. apply in_app_or in Hq. destruct Hq as [Hq | [Hq | []]]; [destruct (A q Hq) as [X | X]; [now left | right; now right] | inversion Hq; subst; right; now left].
    - intros q Hq. apply in_app_or in Hq. destruct Hq as [Hq | [Hq | []]]; [auto | inversion Hq; subst; exact EX].
    - intro q. rewrite opens_app. cbn. destruct (place_eqb q p) eqn:X; cbn; [apply place_eqb_eq in X; subst q; rewrite N2; lia | specialize (C q); unfold opens in *; cbn; lia]. }
  assert (G : forall l t t', gen_all (gen_idl f root D) l t = Ok t' -> (forall i, In i l -> exists_module root i = true /\ exists c, i = c :: p) -> once root (p :: stk) t -> once root (p :: stk) t').
  { intros l t t' Ht Hl Ot. refine (gen_all_once root (p :: stk) _ (fun i => exists_module root i = true /\ exists c, i = c :: p) _ _ _ _ Ht Hl Ot).
    intros i u u' Hu Iu [Ei (c & ->)] Ou. apply (IH _ u u' (p :: stk) Hu Iu Ei); [| exact Ou]. intros q [<- | Hq]; cbn; [lia |]. specialize (LE q Hq). lia. }
  assert (O4 : once root (p :: stk) s4).
  { refine (G _ _ _ H4 _ O3). intros i Hi. split; [| eapply parents_inside; eauto]. apply in_flat_map in Hi. destruct Hi as (n & Hn & Hi). apply parents_iff in Hi. destruct Hi as (m & Hm & _).
    destruct (from_par _ _ _ F _ _ Hm) as (c & u & _ & Hu & A). eapply exists_around; [exact A |]. apply places_exist; [exact W |]. apply all_nodes_in in Hu. apply Hu. }
  assert (O5 := once_quiet _ _ _ _ (gen_module_quiet root D p s4) O4).
  assert (O6 : once root (p :: stk) s6).
  { refine (G _ _ _ H6 _ O5). intros i Hi. destruct (DepTerm.inner_exists root p i W Hi) as (c & -> & E). eauto. }
  destruct O6 as [A B C]. constructor; cbn [g_out out].
  - intros q Hq. change (place_eqb q p || it_mod q s6 = true \/ In q stk). apply in_app_or in Hq. destruct Hq as [Hq | [Hq | []]]; [| discriminate].
    destruct (A q Hq) as [X | [<- | X]]; [left; rewrite X; apply orb_true_r | left; now rewrite place_eqb_refl | now right].
  - intros q Hq. apply in_app_or in Hq. destruct Hq as [Hq | [Hq | []]]; [auto | discriminate].
  - intro q. rewrite opens_app. cbn. specialize (C q). lia.
Qed.
Lemma modules_once root par o : well_named root -> generates root par o -> forall q, (In (EOpen q) o -> exists_module root q = true) /\ (opens q o <= 1)%nat.
Proof.
  intros W (D & f & s & HS & HG & <-) q. destruct (solve_from root par D HS) as [F _].
  assert (O : once root [] s).
  { apply (gen_once root par D W F f [] gst0 s [] HG eq_refl eq_refl); [intros ? [] |]. constructor; cbn; [intros ? [] | intros ? [] | intro; lia]. }
  split; [apply (on_exists _ _ _ O) | apply (on_once _ _ _ O)].
Qed.
