(** Deciding the hypotheses of C39_module_partial for concrete trees. *)
From Verif Require Import Base Types TypeBuild Mem Hash MapOps Ops IntOps ModuleSpec ModuleFacts Module NumSpec IntSpec DepTree Peg0 Grammar Peg PegRules IdlLit IdlParse GenIdl GenSpec EnumText GenText ExprSpec UnionSpec UnionText EnumFacts GenModule RoundSpec.
From Verif Require Import PropDep.
From Verif Require DepSpec DepCheck DepFacts DepSolve.
Local Open Scope string_scope.

(** The module and those around it. *)
Fixpoint outs (p : place) : list place := p :: match p with [] => [] | _ :: o => outs o end.
Lemma outs_iff q p : around q p <-> In q (outs p).
Proof.
  split.
  - intros (r & ->). induction r as [|a r IH]; [destruct q; now left|]. cbn [app]. cbn [outs]. right. exact IH.
  - induction p as [|a p IH]; cbn [outs]; intros [<- | H]; try now exists [].
    destruct (IH H) as (r & ->). now exists (a :: r).
Qed.
Definition aroundb (q p : place) : bool := existsb (DepTree.place_eqb q) (outs p).
Lemma aroundb_iff q p : aroundb q p = true <-> around q p.
Proof. unfold aroundb. rewrite existsb_exists, outs_iff. split; [intros (x & H & E); apply DepFacts.place_eqb_eq in E; now subst|intro H; exists q; split; [exact H|apply DepFacts.place_eqb_eq; reflexivity]]. Qed.
Definition has_enumerator (y : string) (n : node) : bool := match n_kind n, n_type n with xENUM, TEnum _ _ vals => mem y vals | _, _ => false end.
Definition knownb (root : modl) (q : place) (y : string) : bool := declares root y q || existsb (has_enumerator y) (nodes_of root q).
Lemma knownb_of root q y : known root q y -> knownb root q y = true.
Proof.
  unfold knownb. intros [-> | (x & v & nm & sz & vals & H & A)]; [reflexivity|]. apply orb_true_iff. right. apply existsb_exists. eexists. split; [exact H|]. cbn. unfold mem. now rewrite A.
Qed.
Lemma unseen root p y : forallb (fun q => negb (knownb root q y)) (outs p) = true -> ~ visible root p y.
Proof. intros H (q & A & K). rewrite forallb_forall in H. apply outs_iff in A. specialize (H q A). apply knownb_of in K. now rewrite K in H. Qed.
Definition first_known (root : modl) (p : place) (y : string) (i : place) : bool := forallb (fun q => negb (knownb root q y) || aroundb q i) (outs p).
Lemma first_known_ok root p y i : first_known root p y i = true -> forall q, around q p -> known root q y -> around q i.
Proof. intros H q A K. unfold first_known in H. rewrite forallb_forall in H. apply outs_iff in A. specialize (H q A). apply knownb_of in K. rewrite K in H. now apply aroundb_iff. Qed.
Lemma points_name root p s u : s = n_name u -> is_ident (n_name u) = true -> aroundb (n_in u) p = true -> first_known root p (n_name u) (n_in u) = true -> points root p s u.
Proof. intros -> I A F. exists []. split; [reflexivity|]. split; [repeat constructor; exact I|]. split; [now apply aroundb_iff|now apply first_known_ok]. Qed.
Definition first_module (root : modl) (p : place) (c : string) (h : place) : bool := forallb (fun q => negb (exists_module root (c :: q)) || aroundb q h) (outs p).
Lemma points_path root p s u q1 qs h : s = qualified (q1 :: qs) (n_name u) -> forallb is_ident ((q1 :: qs) ++ [n_name u])%list = true -> aroundb h p = true -> (rev (q1 :: qs) ++ h)%list = n_in u ->
  first_module root p q1 h = true -> points root p s u.
Proof.
  intros -> I A E F. exists (q1 :: qs). split; [reflexivity|]. split; [apply Forall_forall; now rewrite forallb_forall in I|]. exists h. split; [now apply aroundb_iff|]. split; [exact E|].
  intros q B X. unfold first_module in F. rewrite forallb_forall in F. apply outs_iff in B. specialize (F q B). rewrite X in F. now apply aroundb_iff.
Qed.
Lemma module_places root q : exists_module root q = true -> In q (places root).
Proof. unfold exists_module. destruct (mod_at root q) eqn:M; [|discriminate]. intros _. eapply DepCheck.at_place, M. Qed.
Lemma nodes_place root q n : In n (nodes_of root q) -> exists_module root q = true.
Proof. unfold nodes_of, tab_at, exists_module. destruct (mod_at root q); [reflexivity|]. intro H. cbn in H. contradiction. Qed.
Definition namesb (n : node) : list string := match n_kind n, n_type n with xENUM, TEnum _ _ vals => map fst vals | _, _ => [] end.
Definition names_onceb (root : modl) : bool :=
  forallb (fun q => DepCheck.nodupb (map n_name (nodes_of root q)) && forallb (fun n => negb (exists_module root (n_name n :: q))) (nodes_of root q) &&
    forallb (fun n => forallb (fun y => negb (exists_module root (y :: q)) &&
      forallb (fun m => negb (String.eqb (n_name m) y) || (match n_kind m with xCONST => true | _ => false end && negb (printed root m))) (nodes_of root q) &&
      forallb (fun n' => negb (existsb (String.eqb y) (namesb n')) || String.eqb (n_name n) (n_name n')) (nodes_of root q)) (namesb n)) (nodes_of root q)) (places root).
Lemma nodup_name (l : list node) m n : NoDup (map n_name l) -> In m l -> In n l -> n_name m = n_name n -> m = n.
Proof.
  induction l as [|a l IH]; cbn; intros D M N E; [contradiction|]. inversion D; subst. destruct M as [<- | M], N as [<- | N]; auto.
  - exfalso. apply H1. rewrite E. now apply in_map.
  - exfalso. apply H1. rewrite <- E. now apply in_map.
Qed.
Lemma enumerator_names root q x y v : enumerator root q x y v -> exists n, In n (nodes_of root q) /\ n_name n = x /\ In y (namesb n).
Proof. intros (nm & sz & vals & H & A). eexists. split; [exact H|]. split; [reflexivity|]. cbn. apply assoc_in in A. now apply (in_map fst) in A. Qed.
Lemma names_onceb_ok root : names_onceb root = true -> names_once root.
Proof.
  intro H. unfold names_onceb in H. rewrite forallb_forall in H.
  assert (G : forall q n, In n (nodes_of root q) -> _) by (intros q n I; exact (H q (module_places root q (nodes_place root q n I)))).
  constructor.
  - intros q m n M N E. specialize (G q m M). rewrite !andb_true_iff in G. destruct G as [[G _] _]. eapply nodup_name; eauto. now apply DepCheck.nodupb_ok.
  - intros q m M. specialize (G q m M). rewrite !andb_true_iff in G. destruct G as [[_ G] _]. rewrite forallb_forall in G. specialize (G m M). now apply negb_true_iff.
  - intros q x y v En. destruct (enumerator_names _ _ _ _ _ En) as (n & I & _ & Y). specialize (G q n I). rewrite !andb_true_iff in G. destruct G as [_ G]. rewrite forallb_forall in G. specialize (G n I). rewrite forallb_forall in G. specialize (G y Y).
    rewrite !andb_true_iff in G. now apply negb_true_iff.
  - intros q x y v m En M E. destruct (enumerator_names _ _ _ _ _ En) as (n & I & _ & Y). specialize (G q n I). rewrite !andb_true_iff in G. destruct G as [_ G]. rewrite forallb_forall in G. specialize (G n I). rewrite forallb_forall in G. specialize (G y Y).
    rewrite !andb_true_iff in G. destruct G as [[_ G] _]. rewrite forallb_forall in G. specialize (G m M). subst y. rewrite String.eqb_refl in G. cbn [negb orb] in G. apply andb_true_iff in G as [G1 G2]. split; [destruct (n_kind m); try discriminate; reflexivity|now apply negb_true_iff].
  - intros q x x' y v v' En En'. destruct (enumerator_names _ _ _ _ _ En) as (n & I & <- & Y). destruct (enumerator_names _ _ _ _ _ En') as (n' & I' & <- & Y'). specialize (G q n I). rewrite !andb_true_iff in G. destruct G as [_ G]. rewrite forallb_forall in G. specialize (G n I). rewrite forallb_forall in G. specialize (G y Y).
    rewrite !andb_true_iff in G. destruct G as [_ G]. rewrite forallb_forall in G. specialize (G n' I'). apply orb_true_iff in G as [G | G]; [|now apply String.eqb_eq].
    exfalso. apply negb_true_iff in G. rewrite <- not_true_iff_false in G. apply G. apply existsb_exists. exists y. split; [exact Y'|apply String.eqb_refl].
Qed.
Lemma modules_plain root : forallb (fun q => match q with [] => true | x :: _ => plain_name x end) (places root) = true -> forall q x, exists_module root (x :: q) = true -> plain_name x = true.
Proof. intros H q x E. rewrite forallb_forall in H. exact (H (x :: q) (module_places _ _ E)). Qed.
Lemma modules_filled root : forallb (fun q => existsb (fun n => printed root n && aroundb q (n_in n)) (all_nodes root)) (places root) = true ->
  forall q, exists_module root q = true -> exists n, DepSpec.wanted root n /\ around q (n_in n).
Proof.
  intros H q E. rewrite forallb_forall in H. specialize (H q (module_places _ _ E)). apply existsb_exists in H as (n & I & G). apply andb_true_iff in G as [G1 G2]. exists n. split; [split; assumption|now apply aroundb_iff].
Qed.
(** [a] comes before [b] in [o]. *)
Fixpoint beforeb (o : list event) (u n : node) : bool :=
  match o with [] => false | e :: r => match e with EDecl m => DepTree.node_eqb m u && existsb (fun e' => match e' with EDecl m' => DepTree.node_eqb m' n | _ => false end) r | _ => false end || beforeb r u n end.
Lemma beforeb_ok root o u n : DepSpec.well_named root -> (forall m, In (EDecl m) o -> In m (all_nodes root)) -> In u (all_nodes root) -> In n (all_nodes root) -> beforeb o u n = true -> DepSpec.before o (EDecl u) (EDecl n).
Proof.
  intros W A Hu Hn. assert (K : forall m m', In m (all_nodes root) -> In m' (all_nodes root) -> DepTree.node_eqb m m' = true -> m = m') by (intros; eapply DepFacts.tree_key; eauto; now apply DepSolve.all_in_tree).
  induction o as [|e r IH]; cbn [beforeb]; [discriminate|]. intro H. apply orb_true_iff in H as [H | H].
  - destruct e as [| |m]; try discriminate. apply andb_true_iff in H as [E H]. apply (K m u) in E; [|apply A; now left|assumption]. subst m. apply existsb_exists in H as (e' & I & E). destruct e' as [| |m']; try discriminate.
    apply (K m' n) in E; [|apply A; now right|assumption]. subst m'. apply in_split in I as (a & b & ->). now exists [], a, b.
  - destruct IH as (o1 & o2 & o3 & ->); [intros m I; apply A; now right|exact H|]. now exists (e :: o1), o2, o3.
Qed.
Definition ordered (root : modl) (par : node -> option ty) (o : list event) : bool :=
  forallb (fun n => negb (printed root n) || forallb (fun u => negb (existsb (fun t => String.eqb (tname t) (tname (n_type u))) (DepSpec.written par n)) || match n_kind u with xCONST => true | _ => false end || beforeb o u n) (all_nodes root)) (all_nodes root).
Lemma ordered_ok root par o : DepSpec.well_named root -> generates root par o -> ordered root par o = true ->
  forall o' n u, generates root par o' -> DepSpec.uses root par n u -> DepSpec.wanted root n -> DepSpec.before o' (EDecl u) (EDecl n).
Proof.
  intros W G H o' n u G' (Hn & Hu & K & I) (_ & P). assert (o' = o) as -> by (eapply C40_deterministic; eauto). unfold ordered in H. rewrite forallb_forall in H. specialize (H n Hn). rewrite P in H. cbn [negb orb] in H.
  rewrite forallb_forall in H. specialize (H u Hu). apply orb_true_iff in H as [H | H]; [apply orb_true_iff in H as [H | H]|].
  - exfalso. apply negb_true_iff in H. rewrite <- not_true_iff_false in H. apply H. apply existsb_exists. eexists. split; [exact I|apply String.eqb_refl].
  - destruct (n_kind u); try discriminate. now elim K.
  - apply (beforeb_ok root); auto. intros m M. destruct (C40_complete root par o W G) as (_ & _ & C). apply C, M.
Qed.
Fixpoint last_char (s : string) : option ascii := match s with "" => None | String a "" => Some a | String _ r => last_char r end.
Lemma last_char_app w x : x <> "" -> last_char (w ++ x) = last_char x.
Proof. intro H. induction w as [|a w IH]; [reflexivity|]. cbn [append last_char]. destruct (w ++ x) eqn:E; [|rewrite <- IH; reflexivity]. destruct w; [now elim H|discriminate E]. Qed.
Lemma not_hidden_check p x s : x <> "" -> last_char s <> last_char x -> not_hidden p x s.
Proof.
  intros N H abs qs -> _. exfalso. apply H. clear H. transitivity (last_char (qualified qs x)); [destruct abs; [|reflexivity]; cbn [render]; apply last_char_app; destruct qs as [|q r]; [exact N|]; cbn [qualified]; intro E; destruct q; discriminate E|]. induction qs as [|q r IH]; [reflexivity|]. cbn [qualified]. rewrite <- IH, last_char_app by discriminate. change (last_char (("::") ++ qualified r x) = last_char (qualified r x)). apply last_char_app.
  destruct r; [exact N|]. cbn [qualified]. intro E. destruct s; discriminate E.
Qed.
Lemma generates_check root par f o : match solve root par with Ok D => match gen_idl f root D [] gst0 with Ok s => Some (g_out s) | _ => None end | _ => None end = Some o -> generates root par o.
Proof. destruct (solve root par) as [D|] eqn:E; [|discriminate]. destruct (gen_idl f root D [] gst0) as [s|] eqn:G; [|discriminate]. intro H. injection H as H. now exists D, f, s. Qed.
Lemma text_check root par f t : match solve root par with Ok D => match gen_text root par D f O [] gst0 with Ok (_, x) => Some x | _ => None end | _ => None end = Some t -> generates_text root par t.
Proof. destruct (solve root par) as [D|] eqn:E; [|discriminate]. destruct (gen_text root par D f O [] gst0) as [[s x]|] eqn:G; [|discriminate]. intro H. injection H as ->. now exists D, f, s. Qed.
