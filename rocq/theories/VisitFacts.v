(** for_each visits the tree of the value in preorder. *)
From Coq Require Import Sorted.
From Verif Require Import Base Types TypeBuild TypeSpec Mem MemSpec TyInd Layout CompatFacts2 MemEqns MemFacts
  EnumFacts ConstructFacts CopyFacts CompareFacts Ops OpsSpec UnionFacts SeqFacts CollectFacts
  Hash HashSpec MapOps MapSpec MapValue MapFacts PathFacts ValueSpec ValueFacts DataSpec ConvFacts Visit VisitSpec.

(** ** Any visitor sees the nodes the recorder sees *)
Section Replay.
  Context {S : Type}.
  Variable f : S -> node -> S * option bool.
  Fixpoint replay (l : list node) (s : S) : S * option bool :=
    match l with
    | [] => (s, None)
    | n :: r => match f s n with (s', None) => replay r s' | (s', Some x) => (s', Some x) end
    end.
  (** The visit by [f] that corresponds to a recorded visit. *)
  Definition replayed (r : visit (list node)) (acc : list node) (s : S) (x : visit S) : Prop :=
    exists l, (r = VDone (acc ++ l) /\ match replay l s with (s', None) => x = VDone s' | (s', Some b) => x = VStop s' b end) \/
      (exists e, r = VFail (acc ++ l) e /\ match replay l s with (s', None) => x = VFail s' e | (s', Some b) => x = VStop s' b end).
  Lemma replay_app l1 l2 s : replay (l1 ++ l2) s = match replay l1 s with (s', None) => replay l2 s' | r => r end.
  Proof. revert s; induction l1 as [|n l1 IH]; intros s; [reflexivity|]. cbn [app replay]. destruct (f s n) as [s' [x|]]; [reflexivity|apply IH]. Qed.
  Lemma replayed_then r acc s x (g : list node -> visit (list node)) (h : S -> visit S) :
    replayed r acc s x -> (forall acc' s', replayed (g acc') acc' s' (h s')) -> replayed (and_then r g) acc s (and_then x h).
  Proof.
    intros (l & [[-> H]|(e & -> & H)]) Hg.
    - cbn [and_then]. destruct (Hg (acc ++ l) (fst (replay l s))) as (l2 & Hl2). exists (l ++ l2). rewrite app_assoc, replay_app. destruct (replay l s) as [s' [b|]] eqn:E.
      + subst x. cbn [and_then]. destruct Hl2 as [[-> _]|(e & -> & _)]; [left|right; exists e]; split; reflexivity.
      + subst x. cbn [and_then fst] in *. exact Hl2.
    - cbn [and_then]. exists l. right. exists e. split; [reflexivity|]. destruct (replay l s) as [s' [b|]]; subst x; reflexivity.
  Qed.
  Lemma replayed_call n acc s : replayed (call recorder n acc) acc s (call f n s).
  Proof. exists [n]. left. split; [reflexivity|]. cbn [replay]. unfold call. destruct (f s n) as [s' [x|]]; reflexivity. Qed.
  Lemma replayed_done acc s : replayed (VDone acc) acc s (VDone s).
  Proof. exists []. left. rewrite app_nil_r. split; reflexivity. Qed.
  Lemma replayed_fail acc s e : replayed (VFail acc e) acc s (VFail s e).
  Proof. exists []. right. exists e. rewrite app_nil_r. split; reflexivity. Qed.
  Lemma replayed_loop g h : (forall i acc s, replayed (g i acc) acc s (h i s)) -> forall n i acc s, replayed (loop n i g acc) acc s (loop n i h s).
  Proof. intros H. induction n as [|n IH]; intros i acc s; [apply replayed_done|]. cbn [loop]. apply replayed_then; [apply H|apply IH]. Qed.
  Theorem each_replayed t : forall n acc s, replayed (each recorder t n acc) acc s (each f t n s).
  Proof.
    induction t as [p|nm sz vals|k bd|nm c n IHc|c bd IHc|k w bd IHk IHw|x y IHx IHy|nm s ms IHms|nm s ms labels dv iv d IHms|nm a IHa]
      using ty_ind'; intros nd acc st; cbn [each]; try apply replayed_call.
    - apply replayed_then; [apply replayed_call|]. intros. apply replayed_loop. intros. apply IHc.
    - destruct (at_ _ _); try apply replayed_fail. destruct (intact _ _ _); [|apply replayed_fail]. apply replayed_then; [apply replayed_call|]. intros. apply replayed_loop. intros. apply IHc.
    - destruct (at_ _ _); try apply replayed_fail. destruct (intact _ _ _); [|apply replayed_fail]. apply replayed_then; [apply replayed_call|]. intros. apply (replayed_loop (fun i s => _) (fun i s => _)).
      intros. apply replayed_then; [apply replayed_call|]. intros. apply replayed_then; [apply IHk|apply IHw].
    - apply replayed_then; [apply replayed_call|]. intros. apply replayed_then; [apply IHx|apply IHy].
    - apply replayed_then; [apply replayed_call|]. generalize 0. induction ms as [|[[mn mo] mt] r IH]; intros i acc' s'; [apply replayed_done|].
      inversion IHms as [|? ? H1 H2]; subst. apply replayed_then; [apply H1|]. apply IH, H2.
    - destruct ms as [|[[dn do_] disc] cs]; [apply replayed_fail|]. destruct (get_label _ _ _) as [l|e]; [|apply replayed_fail]. destruct (lookup_label l labels) as [a|]; [|apply replayed_fail].
      inversion IHms as [|? ? H1 H2]; subst. clear IHms. destruct (String.eqb a dn); [apply replayed_then; [apply replayed_call|apply H1]|].
      induction cs as [|[[mn mo] mt] r IH]; [apply replayed_fail|]. inversion H2 as [|? ? H3 H4]; subst.
      destruct (String.eqb a mn); [|apply IH, H4]. apply replayed_then; [apply replayed_call|apply H3].
    - destruct (n_parent nd); [apply IHa|apply replayed_fail].
  Qed.
End Replay.

Lemma nth_error_lt {A} (l : list A) n x : nth_error l n = Some x -> (n < List.length l)%nat.
Proof. intros H. apply nth_error_Some. congruence. Qed.

(** ** Order *)
Lemma before_cons i l l' : before (i :: l) (i :: l') <-> before l l'.
Proof. split; intros H; [inversion H; subst; [lia|assumption]|apply be_down, H]. Qed.
Lemma sorted_map_cons i ps : StronglySorted before ps -> StronglySorted before (map (cons i) ps).
Proof.
  induction 1 as [|a l H IH HF]; cbn; constructor; [exact IH|]. apply Forall_map. eapply Forall_impl; [|exact HF]. intros x. apply be_down.
Qed.
Lemma sorted_app (P : list (list nat)) Q : StronglySorted before P -> StronglySorted before Q -> (forall p q, In p P -> In q Q -> before p q) -> StronglySorted before (P ++ Q).
Proof.
  induction 1 as [|a l H IH HF]; intros HQ Hb; [exact HQ|]. cbn. constructor.
  - apply IH; [exact HQ|]. intros p q Hp. apply Hb. right. exact Hp.
  - apply Forall_app. split; [exact HF|]. apply Forall_forall. intros q Hq. apply Hb; [left; reflexivity|exact Hq].
Qed.

(** One visit of the elements below a position: which ones, in which order. *)
Definition visits (r : list node -> visit (list node)) (Q : list nat -> node -> Prop) (R : list nat -> Prop) : Prop :=
  exists ps L, (forall acc, r acc = VDone (acc ++ L)) /\ Forall2 Q ps L /\ StronglySorted before ps /\ forall ns, In ns ps <-> R ns.
(** The children from the [i]-th on. *)
Definition below (i : nat) (Q : nat -> list nat -> node -> Prop) (ns : list nat) (nd : node) : Prop :=
  match ns with j :: r => (i <= j)%nat /\ Q j r nd | [] => False end.
Definition rbelow (i : nat) (R : nat -> list nat -> Prop) (ns : list nat) : Prop :=
  match ns with j :: r => (i <= j)%nat /\ R j r | [] => False end.
Lemma visits_nil i Q R : (forall j ns, (i <= j)%nat -> ~ R j ns) -> visits VDone (below i Q) (rbelow i R).
Proof.
  intros H. exists [], []. split; [intros; rewrite app_nil_r; reflexivity|]. split; [constructor|]. split; [constructor|].
  intros [|j ns]; cbn; [tauto|]. split; [tauto|]. intros [H1 H2]. eapply H; eassumption.
Qed.
Lemma visits_cons i Q R g h : visits g (Q i) (R i) -> visits h (below (S i) Q) (rbelow (S i) R) ->
  visits (fun acc => and_then (g acc) h) (below i Q) (rbelow i R).
Proof.
  intros (ps & L & E & F & Hs & Hi) (ps' & L' & E' & F' & Hs' & Hi'). exists (map (cons i) ps ++ ps'), (L ++ L'). split; [intros acc; rewrite E; cbn [and_then]; rewrite E', app_assoc; reflexivity|].
  split; [|split].
  - apply Forall2_app.
    + clear - F. induction F; cbn; constructor; [split; [lia|assumption]|assumption].
    + clear - F'. induction F' as [|a b l l' H _ IH]; constructor; [|exact IH]. destruct a as [|j r]; [contradiction H|]. cbn in *. split; [lia|apply H].
  - apply sorted_app; [apply sorted_map_cons, Hs|exact Hs'|]. intros p q Hp Hq. apply in_map_iff in Hp as (p' & <- & Hp). apply Hi' in Hq. destruct q as [|j q]; [contradiction Hq|].
    cbn in Hq. apply be_left. lia.
  - intros ns. rewrite in_app_iff, in_map_iff, Hi'. split.
    + intros [(r & <- & Hr)|H]; [cbn; split; [lia|apply Hi, Hr]|]. destruct ns as [|j r]; [contradiction H|]. cbn in *. split; [lia|apply H].
    + destruct ns as [|j r]; [intros []|]. cbn. intros [H1 H2]. destruct (Nat.eq_dec i j) as [<-|Hn].
      * left. exists r. split; [reflexivity|]. apply Hi, H2.
      * right. split; [lia|exact H2].
Qed.
Lemma visits_root (n : node) (Q : list nat -> node -> Prop) (R : list nat -> Prop) g (Q' : nat -> list nat -> node -> Prop) R' :
  visits g (below 0 Q') (rbelow 0 R') -> Q [] n -> R [] -> (forall i ns nd, Q' i ns nd -> Q (i :: ns) nd) -> (forall i ns, R' i ns <-> R (i :: ns)) ->
  visits (fun acc => and_then (call recorder n acc) g) Q R.
Proof.
  intros (ps & L & E & F & Hs & Hi) HQ HR HQ' HR'. exists ([] :: ps), (n :: L). split; [intros acc; cbn; rewrite E, <- app_assoc; reflexivity|]. split; [|split].
  - constructor; [exact HQ|]. eapply Forall2_impl; [|exact F]. intros [|i ns] nd H; [contradiction H|]. apply HQ', H.
  - constructor; [exact Hs|]. apply Forall_forall. intros [|i ns] H; [apply Hi in H; contradiction H|apply be_root].
  - intros [|i ns]; cbn [In]; [intuition|]. rewrite Hi. cbn. rewrite <- HR'. split; [intros [H|[_ H]]; [discriminate H|exact H]|intros H; right; split; [lia|exact H]].
Qed.
Lemma visits_loop Q R g n : forall i, (forall j, (i <= j)%nat -> (j < i + n)%nat -> visits (g (N.of_nat j)) (Q j) (R j)) -> (forall j ns, (i + n <= j)%nat -> ~ R j ns) ->
  visits (loop n (N.of_nat i) g) (below i Q) (rbelow i R).
Proof.
  induction n as [|n IH]; intros i Hg HR; [apply visits_nil; intros j ns Hj; apply HR; lia|]. cbn [loop].
  apply (visits_cons i Q R (g (N.of_nat i))); [apply Hg; lia|]. replace (N.of_nat i + 1) with (N.of_nat (S i)) by lia.
  apply IH; [intros j H1 H2; apply Hg; lia|intros j ns Hj; apply HR; lia].
Qed.
Lemma visits_ext r r' Q R : (forall acc, r acc = r' acc) -> visits r Q R -> visits r' Q R.
Proof. intros He (ps & L & E & H). exists ps, L. split; [intros acc; rewrite <- He; apply E|exact H]. Qed.
Lemma visits_iff r Q R R' : (forall ns, R ns <-> R' ns) -> visits r Q R -> visits r Q R'.
Proof. intros Hi (ps & L & E & F & Hs & H). exists ps, L. repeat (split; [assumption|]). intros ns. rewrite H. apply Hi. Qed.

(** ** The tree of a value *)
Lemma child_det T v i x nm T1 w1 x' nm' T2 w2 : child T v i x nm T1 w1 -> child T v i x' nm' T2 w2 -> T1 = T2 /\ w1 = w2.
Proof. intros H1 H2. destruct H1; inversion H2; subst; try (split; congruence). Qed.
Lemma reach_cons t v i ns T w : reach t v (i :: ns) T w <-> exists x nm T1 w1, child t v i x nm T1 w1 /\ reach T1 w1 ns T w.
Proof.
  split.
  - intros H. remember (i :: ns) as l eqn:El. revert i ns El. induction H as [|l T w j x nm T' w' H IH Hc]; intros i ns El; [discriminate El|].
    destruct l as [|i' l].
    + inversion H; subst; [|destruct ns0; discriminate]. cbn in El. injection El as <- <-. exists x, nm, T', w'. split; [exact Hc|constructor].
    + cbn in El. injection El as <- <-. destruct (IH i' l eq_refl) as (x0 & nm0 & T1 & w1 & H1 & H2). exists x0, nm0, T1, w1. split; [exact H1|]. econstructor; eassumption.
  - intros (x & nm & T1 & w1 & Hc & H). induction H as [|l T w j x' nm' T' w' H IH Hc']; [change [i] with ([] ++ [i]); econstructor; [constructor|exact Hc]|].
    change (i :: l ++ [j]) with ((i :: l) ++ [j]). econstructor; eassumption.
Qed.
Lemma selected_child T v i x nm T1 w1 : all_selected T v -> child T v i x nm T1 w1 -> all_selected T1 w1.
Proof. intros H Hc ns T' dv Hr. apply (H (i :: ns) T' dv). apply reach_cons. eauto 6. Qed.

Definition retype (n : node) (t : ty) : node := match n with Node p _ b o d i m => Node p t b o d i m end.
Lemma retype_same n : retype n (n_type n) = n.
Proof. destruct n; reflexivity. Qed.
Lemma sf_deep t v ns T w n : stands_for t v ns T w n -> n_deep n = List.length ns.
Proof. destruct 1; [assumption|]. rewrite app_length. cbn. lia. Qed.
Lemma sf_read t v ns T w n : stands_for t v ns T w n -> n_type n = T /\ read T (n_blk n) (n_off n) = Ok w.
Proof. destruct 1; auto. Qed.
Lemma sf_reach t v ns T w n : stands_for t v ns T w n -> reach t v ns T w.
Proof. induction 1; econstructor; eassumption. Qed.

Section Tree.
  Variables (t0 : ty) (v0 : value).
  (** the nodes seen below the element at [ms], the positions below a value *)
  Definition Qn (ms : list nat) (ns : list nat) (nd : node) : Prop := exists T w, stands_for t0 v0 (ms ++ ns) T w nd.
  Definition Rn (T : ty) (v : value) (ns : list nat) : Prop := exists T' w, reach T v ns T' w.
  Definition Qc (ms : list nat) (i : nat) (ns : list nat) (nd : node) : Prop := Qn (ms ++ [i]) ns nd.
  Definition Rc (T : ty) (v : value) (i : nat) (ns : list nat) : Prop := exists x nm T1 w1, child T v i x nm T1 w1 /\ Rn T1 w1 ns.
  Definition each_ok (t : ty) : Prop := forall n b off v ms, live t b off -> read t b off = Ok v -> all_selected (rget t) v ->
    n_blk n = b -> n_off n = off -> n_type n = t -> stands_for t0 v0 ms (rget t) v (retype n (rget t)) ->
    (rget t <> t -> exists p, n_parent n = Some p) ->
    visits (each recorder t n) (Qn ms) (Rn (rget t) v).

  Lemma node_visits n T v ms g : stands_for t0 v0 ms T v n -> visits g (below 0 (Qc ms)) (rbelow 0 (Rc T v)) ->
    visits (fun acc => and_then (call recorder n acc) g) (Qn ms) (Rn T v).
  Proof.
    intros Hs Hg. eapply visits_root; [exact Hg| | | |].
    - exists T, v. rewrite app_nil_r. exact Hs.
    - exists T, v. constructor.
    - intros i ns nd (T' & w & H). exists T', w. rewrite <- app_assoc in H. exact H.
    - intros i ns. unfold Rc, Rn. split.
      + intros (x & nm & T1 & w1 & Hc & T' & w & Hr). exists T', w. apply reach_cons. eauto 6.
      + intros (T' & w & Hr). apply reach_cons in Hr as (x & nm & T1 & w1 & Hc & Hr). eauto 10.
  Qed.
  Lemma leaf_visits n T v ms : stands_for t0 v0 ms T v n -> (forall i x nm T1 w1, ~ child T v i x nm T1 w1) -> visits (call recorder n) (Qn ms) (Rn T v).
  Proof.
    intros Hs Hc. apply (visits_ext (fun acc => and_then (call recorder n acc) VDone)); [intros acc; reflexivity|].
    apply node_visits; [exact Hs|]. apply visits_nil. intros j ns _ (x & nm & T1 & w1 & H & _). eapply Hc, H.
  Qed.
  Lemma child_visits n T v ms i x nm c w b off fm : stands_for t0 v0 ms T v n -> all_selected T v -> child T v i x nm (rget c) w ->
    live c b off -> read c b off = Ok w -> (nm <> None -> fm = nm) -> each_ok c ->
    visits (each recorder c (child_node n c b off x fm)) (Qc ms i) (Rc T v i).
  Proof.
    intros Hs Ha Hc L R Hf IH. apply (visits_iff _ _ (Rn (rget c) w)).
    - intros ns. split; [intros H; exists x, nm, (rget c), w; auto|]. intros (x' & nm' & T1 & w1 & Hc' & Hr). destruct (child_det _ _ _ _ _ _ _ _ _ _ _ Hc Hc') as [-> ->]. exact Hr.
    - apply (IH _ b off w); try reflexivity; try assumption; [eapply selected_child; eassumption| |intros _; eexists; reflexivity].
      econstructor; [exact Hs|exact Hc|reflexivity|reflexivity|cbn; rewrite <- read_rget; exact R| |reflexivity|exact Hf]. cbn. rewrite (sf_deep _ _ _ _ _ _ Hs). reflexivity.
  Qed.
  Lemma pair_visits n x y a c ms b off fm : stands_for t0 v0 ms (TPair x y) (VNode [a; c]) n -> all_selected (TPair x y) (VNode [a; c]) ->
    live x b off -> read x b off = Ok a -> live y b (off + msize x) -> read y b (off + msize x) = Ok c -> each_ok x -> each_ok y ->
    visits (fun acc => and_then (call recorder n acc) (fun s => and_then (each recorder x (child_node n x b off 0 fm) s) (each recorder y (child_node n y b (off + msize x) 1 fm))))
      (Qn ms) (Rn (TPair x y) (VNode [a; c])).
  Proof.
    intros Hs Ha L1 R1 L2 R2 IHx IHy. apply node_visits; [exact Hs|].
    apply (visits_ext (fun acc => and_then (each recorder x (child_node n x b off 0 fm) acc) (fun acc => and_then (each recorder y (child_node n y b (off + msize x) 1 fm) acc) VDone))).
    { intros acc. destruct (each recorder x _ acc); try reflexivity. cbn [and_then]. destruct (each recorder y _ _); reflexivity. }
    apply visits_cons; [eapply child_visits; try eassumption; [constructor|congruence]|].
    apply visits_cons; [eapply child_visits; try eassumption; [constructor|congruence]|].
    apply visits_nil. intros j ns Hj (x' & nm & T1 & w1 & H & _). inversion H; subst; lia.
  Qed.
  Lemma struct_visits n nm s b off ms0 : forall r l j ms l0, stands_for t0 v0 ms (TStruct nm s ms0) (VNode l0) n -> all_selected (TStruct nm s ms0) (VNode l0) ->
    (forall i, nth_error r i = nth_error ms0 (j + i)) -> (forall i, nth_error l i = nth_error l0 (j + i)) ->
    Forall (fun m => each_ok (m_type m)) r -> Forall (fun m => live (m_type m) b (off + m_off m)) r -> mmap (fun m => read (m_type m) b (off + m_off m)) r = Ok l ->
    visits ((fix go (l : list (string * N * ty)) (i : N) (s : list node) : visit (list node) :=
              match l with
              | [] => VDone s
              | (mn, mo, mt) :: r => and_then (each recorder mt (child_node n mt b (off + mo) i (Some mn)) s) (go r (i + 1))
              end) r (N.of_nat j)) (below j (Qc ms)) (rbelow j (Rc (TStruct nm s ms0) (VNode l0))).
  Proof.
    induction r as [|[[mn mo] mt] r IH]; intros l j ms l0 Hs Ha Hr Hl HI HL HR.
    - apply visits_nil. intros i ns Hi (x & nm' & T1 & w1 & H & _). inversion H; subst.
      specialize (Hr (i - j)%nat). replace (j + (i - j))%nat with i in Hr by lia. match goal with Hx : nth_error ms0 _ = Some _ |- _ => rewrite Hx in Hr end. destruct (i - j)%nat; discriminate Hr.
    - inversion HI as [|? ? H1 H2]; subst. inversion HL as [|? ? L1 L2]; subst. cbn [m_type m_off fst snd mmap] in *.
      destruct (read mt b (off + mo)) as [w|] eqn:Ew; [|discriminate HR]. cbn [bind] in HR. apply bind_ok in HR as (lr & Er & HR). injection HR as <-.
      apply visits_cons.
      + eapply child_visits; try eassumption; [|intros _; reflexivity]. apply ch_struct with (mo := mo); [rewrite <- (Nat.add_0_r j), <- Hr; reflexivity|rewrite <- (Nat.add_0_r j), <- Hl; reflexivity].
      + replace (N.of_nat j + 1) with (N.of_nat (S j)) by lia. apply (IH lr); try assumption.
        * intros i. pose proof (Hr (S i)) as H. cbn in H. rewrite H. f_equal. lia.
        * intros i. pose proof (Hl (S i)) as H. cbn in H. rewrite H. f_equal. lia.
  Qed.

  Lemma each_union_select nd acc nm s dn disc cs labels dv iv d l0 x m :
    get_label disc (n_blk nd) (n_off nd) = Ok l0 -> lookup_label l0 labels = Some x -> find_member x ((dn, 0, disc) :: cs) = Some m ->
    each recorder (TUnion nm s ((dn, 0, disc) :: cs) labels dv iv d) nd acc =
    and_then (call recorder nd acc) (each recorder (m_type m) (child_node nd (m_type m) (n_blk nd) (n_off nd + m_off m) (Z.to_N (l0 mod 2 ^ 64)) (Some (m_name m)))).
  Proof.
    intros Gl Ex Hf. cbn [each]. rewrite Gl, Ex. cbn [find_member m_name fst] in Hf. destruct (String.eqb x dn) eqn:Ed; [injection Hf as <-; reflexivity|].
    induction cs as [|[[mn mo] mt] r IH]; [discriminate Hf|]. cbn [find_member m_name fst] in Hf. destruct (String.eqb x mn) eqn:Exm; [injection Hf as <-; reflexivity|apply IH, Hf].
  Qed.

  Theorem each_spec t : good t -> each_ok t.
  Proof.
    induction t as [p|nm sz vals|k bd|nm c n IHc|c bd IHc|k w bd IHk IHw|x y IHx IHy|nm s ms IHms|nm s ms labels dv iv d IHms|nm a IHa]
      using ty_ind'; intros Hg nd b off v ps L R Ha <- <- Ht Hs Hp; cbn [rget] in *; try (rewrite <- Ht, retype_same, Ht in Hs).
    - apply leaf_visits; [exact Hs|]. intros i x n T1 w1 H. inversion H.
    - apply leaf_visits; [exact Hs|]. intros i x n T1 w1 H. inversion H.
    - apply leaf_visits; [exact Hs|]. intros i x n T1 w1 H. inversion H.
    - cbn [live] in L. cbn [read] in R. apply bind_ok in R as (l & E & R). injection R as <-. destruct (collect_nth _ _ _ _ E) as [Hl Hn].
      cbn [each]. apply node_visits; [exact Hs|]. apply (visits_loop _ _ _ _ 0%nat).
      + intros j _ Hj. cbn in Hj. destruct (Hn j ltac:(lia)) as (x & Ej & Rj). rewrite N.add_0_l in Rj.
        eapply child_visits; try eassumption; [constructor; exact Ej|apply L; lia|congruence|apply IHc; eapply good_arr, Hg].
      + intros j ns Hj (x & nm' & T1 & w1 & H & _). inversion H; subst. match goal with Hx : nth_error _ _ = Some _ |- _ => pose proof (nth_error_lt _ _ _ Hx) as Hlt end. lia.
    - cbn [live] in L. destruct L as (cap & size & m & Ho & Hsz & _ & H32 & _ & L). rewrite (read_seq_obj _ _ _ _ _ _ _ Ho) in R.
      apply bind_ok in R as (l & E & R). injection R as <-. destruct (collect_nth _ _ _ _ E) as [Hl Hn]. destruct Ho as [Ho1 Ho2].
      cbn [each]. rewrite Ho1, Ho2. apply node_visits; [exact Hs|]. apply (visits_loop _ _ _ _ 0%nat).
      + intros j _ Hj. cbn in Hj. destruct (Hn j ltac:(lia)) as (x & Ej & Rj). rewrite N.add_0_l in Rj.
        rewrite (wrap32_small (msize c)) by nia. rewrite wrap32_small by nia.
        eapply child_visits; try eassumption; [constructor; exact Ej|apply L; lia|congruence|apply IHc; eapply good_seq, Hg].
      + intros j ns Hj (x & nm' & T1 & w1 & H & _). inversion H; subst. match goal with Hx : nth_error _ _ = Some _ |- _ => pose proof (nth_error_lt _ _ _ Hx) as Hlt end. lia.
    - destruct (good_map _ _ _ Hg) as [Gk Gw]. cbn [live] in L. destruct L as (cap & size & m & [Ho1 Ho2] & Hsz & _ & H32 & _ & L).
      cbn [read] in R. rewrite Ho1, Ho2 in R. apply bind_ok in R as (l & E & R). injection R as <-. destruct (collect_nth _ _ _ _ E) as [Hl Hn].
      cbn [each]. rewrite Ho1, Ho2. apply node_visits; [exact Hs|]. apply (visits_loop _ _ _ _ 0%nat).
      + intros j _ Hj. cbn in Hj. destruct (Hn j ltac:(lia)) as (e & Ej & Rj). rewrite N.add_0_l in Rj.
        apply bind_ok in Rj as (x1 & R1 & Rj). apply bind_ok in Rj as (x2 & R2 & Rj). injection Rj as <-. destruct (L (N.of_nat j) ltac:(lia)) as [L1 L2].
        unfold map_bs. rewrite (wrap32_small (msize k + msize w)) by nia.
        assert (Hc : child (TMap k w bd) (VNode l) j (N.of_nat j) None (TPair k w) (VNode [x1; x2])) by (constructor; exact Ej).
        apply (visits_iff _ _ (Rn (TPair k w) (VNode [x1; x2]))).
        { intros ns. split; [intros H; exists (N.of_nat j), None, (TPair k w), (VNode [x1; x2]); auto|]. intros (x' & nm' & T1 & w1 & Hc' & Hr). destruct (child_det _ _ _ _ _ _ _ _ _ _ _ Hc Hc') as [-> ->]. exact Hr. }
        apply pair_visits; try assumption; [|eapply selected_child; eassumption|apply IHk, Gk|apply IHw, Gw].
        econstructor; [exact Hs|exact Hc|reflexivity|reflexivity| |cbn; rewrite (sf_deep _ _ _ _ _ _ Hs); reflexivity|reflexivity|congruence].
        cbn [read child_node n_blk n_off]. rewrite R1. cbn [bind]. rewrite R2. reflexivity.
      + intros j ns Hj (x & nm' & T1 & w1 & H & _). inversion H; subst. match goal with Hx : nth_error _ _ = Some _ |- _ => pose proof (nth_error_lt _ _ _ Hx) as Hlt end. lia.
    - destruct (good_pair _ _ Hg) as [G1 G2]. destruct L as [L1 L2]. cbn [read] in R. apply bind_ok in R as (x1 & R1 & R). apply bind_ok in R as (x2 & R2 & R). injection R as <-.
      cbn [each]. apply pair_visits; try assumption; [apply IHx, G1|apply IHy, G2].
    - rewrite live_struct in L. rewrite read_struct in R. apply bind_ok in R as (l & E & R). injection R as <-.
      cbn [each]. apply node_visits; [exact Hs|]. apply (struct_visits nd nm s _ _ ms ms l 0%nat); try assumption; try reflexivity.
      rewrite Forall_forall in *. intros m Hm. apply IHms; [exact Hm|]. eapply good_struct; eassumption.
    - destruct (good_union_inv _ _ _ _ _ _ _ Hg) as (dn & disc & cs & -> & Gd & _).
      destruct (union_state _ _ _ _ _ _ _ _ _ Hg _ _ L) as (_ & Ld & bs & l0 & Rd0 & Gl0 & Lo0 & H0).
      destruct (lookup_label l0 labels) as [x|] eqn:Ex.
      2:{ rewrite R in H0. injection H0 as ->. exfalso. eapply (Ha []). apply re_root. }
      destruct H0 as (m & w & Hf & Hlm & Rm & Ru). rewrite R in Ru. injection Ru as ->.
      destruct (u_member _ _ _ _ _ _ _ _ _ Hg _ _ Hf) as (Hf' & Hin & Hn & _ & _ & Hgm).
      assert (Hc : child (TUnion nm s ((dn, 0, disc) :: cs) labels dv iv d) (VUnion (VBytes bs) (Some w)) 0 (Z.to_N (l0 mod 2 ^ 64)) (Some x) (rget (m_type m)) w) by (econstructor; eassumption).
      apply (visits_ext (fun acc => and_then (call recorder nd acc) (fun acc => and_then (each recorder (m_type m) (child_node nd (m_type m) (n_blk nd) (n_off nd + m_off m) (Z.to_N (l0 mod 2 ^ 64)) (Some x)) acc) VDone))).
      { intros acc. rewrite (each_union_select nd acc nm s dn disc cs labels dv iv d l0 x m Gl0 Ex Hf'). rewrite Hn. unfold call, recorder. cbn [and_then].
        destruct (each _ (m_type m) _ _); reflexivity. }
      apply node_visits; [exact Hs|]. apply visits_cons.
      + eapply child_visits; try eassumption; [intros _; reflexivity|]. rewrite Forall_forall in IHms. apply IHms; [right; exact Hin|exact Hgm].
      + apply visits_nil. intros j ns Hj (x' & nm' & T1 & w1 & H & _). inversion H; subst; lia.
    - cbn [live read] in L, R. destruct (Hp (fun E => rget_not_alias a nm a E)) as (p & Ep). cbn [each]. rewrite Ep.
      apply (IHa (good_alias _ _ Hg) _ (n_blk nd) (n_off nd)); try assumption; try reflexivity; [|intros _; eexists; reflexivity].
      assert (Hd : n_deep nd = S (n_deep p)).
      { destruct nd as [pp tt bb oo dd ii mm]; cbn in *. subst pp. inversion Hs; subst; [discriminate|]. cbn in *. injection H1 as ->. rewrite H4. f_equal. symmetry. eapply sf_deep; eassumption. }
      destruct nd as [pp tt bb oo dd ii mm]; cbn in *. subst pp dd. exact Hs.
  Qed.
End Tree.
