(** Theorems about DynamicType::for_each: C57. *)
From Coq Require Import Sorted.
From Verif Require Import Base Types TypeBuild TypeSpec TyInd Mem Visit VisitSpec VisitFacts TypeVisit TypeVisitSpec.

(** ** The nodes, as a list *)
Fixpoint tnodes (t : ty) (n : tnode) : list tnode :=
  match t with
  | TPrim _ | TEnum _ _ _ | TStr _ _ => [n]
  | TArr _ c _ | TSeq c _ => n :: tnodes c (child_tnode n c 0 None)
  | TMap k v _ => let c := child_tnode n (TPair k v) 0 None in n :: c :: tnodes k (child_tnode c k 0 (pair_member c)) ++ tnodes v (child_tnode c v 1 (pair_member c))
  | TPair x y => n :: tnodes x (child_tnode n x 0 (pair_member n)) ++ tnodes y (child_tnode n y 1 (pair_member n))
  | TStruct _ _ ms | TUnion _ _ ms _ _ _ _ =>
      n :: (fix go (l : list (string * N * ty)) (i : N) : list tnode :=
              match l with [] => [] | (mn, _, mt) :: r => tnodes mt (child_tnode n mt i (Some mn)) ++ go r (i + 1) end) ms 0
  | TAlias _ a => tnodes a n
  end.
(** A visitor called with the nodes of a list until it throws a bool. *)
Fixpoint treplay {S} (f : S -> tnode -> S * option bool) (l : list tnode) (s : S) : visit S :=
  match l with [] => VDone s | n :: r => and_then (tcall f n s) (treplay f r) end.
Lemma treplay_app {S} (f : S -> tnode -> S * option bool) l l' s : treplay f (l ++ l') s = and_then (treplay f l s) (treplay f l').
Proof. revert s. induction l as [|n l IH]; intros s; [reflexivity|]. cbn [app treplay]. destruct (tcall f n s); cbn [and_then]; [apply IH|reflexivity|reflexivity]. Qed.
Lemma and_then_done {S} (x : visit S) : and_then x (fun s => VDone s) = x. Proof. destruct x; reflexivity. Qed.
Lemma and_then_ext {S} (x : visit S) f g : (forall s, f s = g s) -> and_then x f = and_then x g. Proof. intros H. destruct x; [apply H|reflexivity|reflexivity]. Qed.
Lemma each_treplay {S} (f : S -> tnode -> S * option bool) t : forall n s, each_type f t n s = treplay f (tnodes t n) s.
Proof.
  induction t as [p|nm sz vals|k b|nm c n0 IH|c b IH|k v b IHk IHv|x y IHx IHy|nm z ms IH|nm z ms labels dv iv d IH|nm a IH] using ty_ind'; intros n s; cbn [each_type tnodes treplay].
  1-3: symmetry; apply and_then_done.
  - apply and_then_ext; intros s1. apply IH.
  - apply and_then_ext; intros s1. apply IH.
  - apply and_then_ext; intros s1. apply and_then_ext; intros s2. rewrite treplay_app, IHk. apply and_then_ext; intros s3. apply IHv.
  - apply and_then_ext; intros s1. rewrite treplay_app, IHx. apply and_then_ext; intros s3. apply IHy.
  - apply and_then_ext; intros s1. clear s. generalize 0%N. revert s1. induction IH as [|[[mn mo] mt] r H _ IHr]; intros s1 i; [reflexivity|]. rewrite treplay_app, H. apply and_then_ext; intros s2. apply IHr.
  - apply and_then_ext; intros s1. clear s. generalize 0%N. revert s1. induction IH as [|[[mn mo] mt] r H _ IHr]; intros s1 i; [reflexivity|]. rewrite treplay_app, H. apply and_then_ext; intros s2. apply IHr.
  - apply IH.
Qed.

(** ** The nodes show the parts *)
(** Some nodes [L] show exactly the parts with the positions [R] below [ns], in preorder. *)
Definition shown (t0 : ty) (ns : list nat) (R : list nat -> Prop) (L : list tnode) : Prop :=
  exists ps, Forall2 (fun q n => exists T, shows t0 (ns ++ q) T n) ps L /\ StronglySorted before ps /\ forall q, In q ps <-> R q.
Lemma shown_none t0 ns : shown t0 ns (fun _ => False) [].
Proof. exists []. split; [constructor|]. split; [constructor|]. cbn. tauto. Qed.
Lemma shown_root t0 ns T n (R : list nat -> Prop) L : shows t0 ns T n -> (forall q, R q -> q <> []) -> shown t0 ns R L -> shown t0 ns (fun q => q = [] \/ R q) (n :: L).
Proof.
  intros H HR (ps & F & So & I). exists ([] :: ps). split; [constructor; [rewrite app_nil_r; eauto|exact F]|]. split.
  - constructor; [exact So|]. apply Forall_forall. intros q Hq. apply I, HR in Hq. destruct q; [congruence|constructor].
  - intros q. cbn [In]. rewrite I. intuition congruence.
Qed.
Lemma shown_kid t0 ns i (R : list nat -> Prop) L : shown t0 (ns ++ [i]) R L -> shown t0 ns (fun q => exists r, q = i :: r /\ R r) L.
Proof.
  intros (ps & F & So & I). exists (map (cons i) ps). split; [|split; [apply sorted_map_cons, So|]].
  - clear So I. induction F as [|q n ps L [T H] _ IH]; [constructor|]. cbn [map]. constructor; [|exact IH]. exists T. rewrite <- app_assoc in H. exact H.
  - intros q. rewrite in_map_iff. split; [intros (r & <- & Hr); exists r; split; [reflexivity|apply I, Hr]|intros (r & -> & Hr); exists r; split; [reflexivity|apply I, Hr]].
Qed.
Lemma shown_both t0 ns (R R' : list nat -> Prop) L L' : shown t0 ns R L -> shown t0 ns R' L' -> (forall p q, R p -> R' q -> before p q) -> shown t0 ns (fun q => R q \/ R' q) (L ++ L').
Proof.
  intros (ps & F & So & I) (ps' & F' & So' & I') H. exists (ps ++ ps'). split; [apply Forall2_app; assumption|]. split.
  - apply sorted_app; [assumption|assumption|]. intros p q Hp Hq. apply H; [apply I, Hp|apply I', Hq].
  - intros q. rewrite in_app_iff, I, I'. reflexivity.
Qed.
Lemma shown_iff t0 ns (R R' : list nat -> Prop) L : (forall q, R q <-> R' q) -> shown t0 ns R L -> shown t0 ns R' L.
Proof. intros H (ps & F & So & I). exists ps. split; [exact F|]. split; [exact So|]. intros q. rewrite I. apply H. Qed.

(** The positions below the children [l], the first of which is the [k]-th. *)
Definition kids (l : list (option string * ty)) (k : nat) (q : list nat) : Prop := exists i nm c r T, q = (k + i)%nat :: r /\ nth_error l i = Some (nm, c) /\ part c r T.
Definition kid_ok (c : ty) : Prop := forall t0 ns T n, shows t0 ns T n -> parts_of T = parts_of c -> shown t0 ns (fun q => exists T', part c q T') (tnodes c n).
Lemma kids_none k q : ~ kids [] k q. Proof. intros (i & nm & c & r & T & _ & H & _). destruct i; discriminate H. Qed.
Lemma kids_cons nm c l k q : kids ((nm, c) :: l) k q <-> (exists r, q = k :: r /\ exists T, part c r T) \/ kids l (S k) q.
Proof.
  split.
  - intros (i & nm' & c' & r & T & -> & H & P). destruct i as [|i].
    + injection H as -> ->. left. rewrite Nat.add_0_r. eauto.
    + right. exists i, nm', c', r, T. split; [f_equal; lia|]. split; [exact H|exact P].
  - intros [(r & -> & T & P) | (i & nm' & c' & r & T & -> & H & P)].
    + exists 0%nat, nm, c, r, T. rewrite Nat.add_0_r. repeat split; assumption.
    + exists (S i), nm', c', r, T. split; [f_equal; lia|]. split; [exact H|exact P].
Qed.
Lemma shown_cons t0 ns T n nm c l k m L : shows t0 ns T n -> nth_error (parts_of T) k = Some (nm, c) -> kid_ok c -> (nm <> None -> m = nm) ->
  shown t0 ns (kids l (S k)) L -> shown t0 ns (kids ((nm, c) :: l) k) (tnodes c (child_tnode n c (N.of_nat k) m) ++ L).
Proof.
  intros H E K M HL. eapply shown_iff; [intros q; symmetry; apply kids_cons|]. apply shown_both; [|exact HL|].
  - apply shown_kid. eapply K; [|reflexivity]. eapply sh_child; [exact H|exact E|..]; try reflexivity; [|exact M]. cbn. f_equal. clear -H. induction H; [assumption|]. rewrite app_length. cbn. lia.
  - intros p q (r & -> & _) (i & nm' & c' & r' & T' & -> & _). constructor. lia.
Qed.
Lemma part_kids t q : (exists T, part t q T) <-> q = [] \/ kids (parts_of t) 0 q.
Proof.
  split.
  - intros (T & P). destruct P as [|t i nm c ns T E P]; [left; reflexivity|right]. exists i, nm, c, ns, T. auto.
  - intros [-> | (i & nm & c & r & T & -> & E & P)]; [eexists; constructor|]. exists T. econstructor; eassumption.
Qed.
Lemma shown_top t0 ns T n c L : shows t0 ns T n -> shown t0 ns (kids (parts_of c) 0) L -> shown t0 ns (fun q => exists T', part c q T') (n :: L).
Proof.
  intros H HL. eapply shown_iff; [intros q; symmetry; apply part_kids|]. eapply shown_root; [exact H| |exact HL]. intros q (i & nm & c' & r & T' & -> & _). discriminate.
Qed.
Lemma shown_empty t0 ns k : shown t0 ns (kids [] k) [].
Proof. eapply shown_iff; [|apply shown_none]. intros q. split; [contradiction|apply kids_none]. Qed.
Lemma members_shown t0 ns T n : shows t0 ns T n -> forall ms pre, parts_of T = pre ++ map (fun m : string * N * ty => (Some (m_name m), m_type m)) ms -> Forall (fun m => kid_ok (m_type m)) ms ->
  shown t0 ns (kids (map (fun m => (Some (m_name m), m_type m)) ms) (List.length pre))
    ((fix go (l : list (string * N * ty)) (i : N) : list tnode := match l with [] => [] | (mn, _, mt) :: r => tnodes mt (child_tnode n mt i (Some mn)) ++ go r (i + 1) end) ms (N.of_nat (List.length pre))).
Proof.
  intros H ms. induction ms as [|[[mn mo] mt] r IH]; intros pre E F; [apply shown_empty|]. inversion F; subst. cbn [map] in *. eapply shown_cons; [exact H| |assumption|reflexivity|].
  - rewrite E, nth_error_app2, Nat.sub_diag by lia. reflexivity.
  - specialize (IH (pre ++ [(Some mn, mt)])). rewrite app_length in IH. cbn [List.length] in IH. replace (List.length pre + 1)%nat with (S (List.length pre)) in IH by lia. replace (N.of_nat (List.length pre) + 1) with (N.of_nat (S (List.length pre))) by lia.
    apply IH; [rewrite <- app_assoc; exact E|assumption].
Qed.
Lemma kid_ok_all c : kid_ok c.
Proof.
  assert (PR : forall x y, kid_ok x -> kid_ok y -> kid_ok (TPair x y)).
  { intros x y IHx IHy t0 ns T n H E. eapply shown_top; [exact H|]. cbn [parts_of] in *. apply (shown_cons t0 ns T n None x [(None, y)] 0); [exact H|rewrite E; reflexivity|exact IHx|congruence|].
    rewrite <- (app_nil_r (tnodes y _)). apply (shown_cons t0 ns T n None y [] 1); [exact H|rewrite E; reflexivity|exact IHy|congruence|apply shown_empty]. }
  assert (ON : forall c t0 ns T n, kid_ok c -> shows t0 ns T n -> parts_of T = [(None, c)] -> shown t0 ns (kids [(None, c)] 0) (tnodes c (child_tnode n c 0 None))).
  { intros c0 t0 ns T n K H E. rewrite <- (app_nil_r (tnodes _ _)). apply (shown_cons t0 ns T n None c0 [] 0); [exact H|rewrite E; reflexivity|exact K|congruence|apply shown_empty]. }
  induction c as [p|nm sz vals|k b|nm c n0 IH|c b IH|k v b IHk IHv|x y IHx IHy|nm z ms IH|nm z ms labels dv iv d IH|nm a IH] using ty_ind'.
  1-3: intros t0 ns T n H E; cbn [tnodes]; eapply shown_top; [exact H|apply shown_empty].
  - intros t0 ns T n H E. eapply shown_top; [exact H|]. eapply ON; eassumption.
  - intros t0 ns T n H E. eapply shown_top; [exact H|]. eapply ON; eassumption.
  - intros t0 ns T n H E. eapply shown_top; [exact H|]. apply (ON (TPair k v) t0 ns T n (PR k v IHk IHv) H E).
  - apply PR; assumption.
  - intros t0 ns T n H E. eapply shown_top; [exact H|]. apply (members_shown t0 ns T n H ms [] E IH).
  - intros t0 ns T n H E. eapply shown_top; [exact H|]. apply (members_shown t0 ns T n H ms [] E IH).
  - intros t0 ns T n H E. cbn [tnodes parts_of] in *. eapply shown_iff; [|eapply IH; eassumption]. intros q. rewrite !part_kids. reflexivity.
Qed.

(** for_each of a type visits every type it is made of, at every depth, once, from the outside to the inside and from the
    first to the last, with its depth, its index, its member and its parent. *)
Theorem C57_visit : forall t, exists L ps, type_for_each trecorder t [] = Ok (L, true) /\
  Forall2 (fun ns n => exists T, shows t ns T n) ps L /\ StronglySorted before ps /\ (forall ns, In ns ps <-> exists T, part t ns T).
Proof.
  intros t. destruct (kid_ok_all t t [] t (root_tnode t)) as (ps & F & So & I); [constructor; reflexivity|reflexivity|]. exists (tnodes t (root_tnode t)), ps. split; [|split; [exact F|split; [exact So|exact I]]].
  unfold type_for_each. rewrite each_treplay. assert (R : forall l s, treplay trecorder l s = VDone (s ++ l)).
  { induction l as [|n l IH]; intros s; cbn [treplay]; [rewrite app_nil_r; reflexivity|]. unfold tcall, trecorder. cbn [and_then]. rewrite IH, <- app_assoc. reflexivity. }
  rewrite R. reflexivity.
Qed.
(** The node shows a part of the type: its type, and the depth is the nesting level. *)
Theorem C57_shows : forall t ns T n, shows t ns T n -> part t ns T /\ tn_type n = T /\ tn_deep n = List.length ns.
Proof.
  assert (S : forall t ns T i nm c, part t ns T -> nth_error (parts_of T) i = Some (nm, c) -> part t (ns ++ [i]) c).
  { intros t ns T i nm c P E. induction P as [t|t j nm' c' ns T E' P IH]; [econstructor; [exact E|constructor]|]. cbn [app]. econstructor; [exact E'|apply IH, E]. }
  intros t ns T n H. induction H as [n|ns T p i nm T' n H IH E P1 P2 P3 P4 P5]; [repeat split; [constructor|assumption|assumption]|].
  split; [eapply S; [apply IH|exact E]|]. split; [assumption|]. rewrite app_length, P3. cbn. lia.
Qed.
(** Any visitor is called with these nodes, in this order, until it throws a bool, which for_each returns. *)
Fixpoint tcalled_with {S} (f : S -> tnode -> S * option bool) (s : S) (l : list tnode) : S * bool :=
  match l with
  | [] => (s, true)
  | n :: r => match f s n with (s', None) => tcalled_with f s' r | (s', Some x) => (s', x) end
  end.
Theorem C57_any_visitor : forall S (f : S -> tnode -> S * option bool) t s, exists L, type_for_each trecorder t [] = Ok (L, true) /\ type_for_each f t s = Ok (tcalled_with f s L).
Proof.
  intros S f t s. exists (tnodes t (root_tnode t)). unfold type_for_each. rewrite !each_treplay. split.
  - assert (R : forall l s, treplay trecorder l s = VDone (s ++ l)).
    { induction l as [|n l IH]; intros s0; cbn [treplay]; [rewrite app_nil_r; reflexivity|]. unfold tcall, trecorder. cbn [and_then]. rewrite IH, <- app_assoc. reflexivity. }
    rewrite R. reflexivity.
  - generalize (tnodes t (root_tnode t)) as l. intros l. revert s. induction l as [|n l IH]; intros s; [reflexivity|]. cbn [treplay tcalled_with]. unfold tcall. destruct (f s n) as [s1 [x|]]; cbn [and_then]; [reflexivity|apply IH].
Qed.
(** A struct with a map to an alias of an array: the nodes. *)
Definition tv_t : ty := TStruct "S" 0 [("m"%string, 0, TMap (TStr SK8 0) (TAlias "A" (TArr "array_2_u" (TPrim PU8) 2)) 0); ("x"%string, 0, TPrim PI32)].
Example C57_nontrivial : exists L, type_for_each trecorder tv_t [] = Ok (L, true) /\
  map (fun n => (tname (tn_type n), tn_deep n, tn_index n, tn_member n)) L =
    [("S", 0%nat, 0, None); (tname (TMap (TStr SK8 0) (TAlias "A" (TArr "array_2_u" (TPrim PU8) 2)) 0), 1%nat, 0, Some "m"); (tname (TPair (TStr SK8 0) (TAlias "A" (TArr "array_2_u" (TPrim PU8) 2))), 2%nat, 0, None);
     ("std::string", 3%nat, 0, Some "m"); ("A", 3%nat, 1, Some "m"); ("uint8_t", 4%nat, 0, None); ("int32_t", 1%nat, 1, Some "x")]%string.
Proof. eexists. split; [vm_compute; reflexivity|]. vm_compute. reflexivity. Qed.

Print Assumptions C57_visit.
Print Assumptions C57_shows.
Print Assumptions C57_any_visitor.
