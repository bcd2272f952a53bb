(** C27: visiting an instance. *)
From Coq Require Import Sorted.
From Verif Require Import Base Types TypeBuild TypeSpec Mem MemSpec TyInd Layout CompatFacts2 MemEqns MemFacts
  EnumFacts ConstructFacts CopyFacts CompareFacts Ops OpsSpec UnionFacts SeqFacts CollectFacts
  Hash HashSpec MapOps MapSpec MapValue MapFacts PathFacts Realize Prog ProgFacts ValueSpec ValueFacts DataSpec DataFacts ConvFacts Visit VisitSpec VisitFacts PropTypes PropData.

(** ** for_each shows every element of the value, once, in preorder, with its type, its value, its depth, its index and
    its parent.  Missing for the full property: values with a union that has no active member (refuted below). *)
Theorem C27_visit_partial : forall d v, holds d v -> all_selected (d_type d) v ->
  exists L ps, for_each recorder (d_type d) (d_mem d) 0 [] = Ok (L, true) /\
    Forall2 (fun ns n => exists T w, stands_for (d_type d) v ns T w n) ps L /\
    StronglySorted before ps /\
    (forall ns, In ns ps <-> exists T w, reach (d_type d) v ns T w).
Proof.
  intros d v Hh Ha. pose proof (holds_good _ _ Hh) as Hg. destruct Hh as (_ & _ & Hr & L & R).
  destruct (each_spec (d_type d) v (d_type d) Hg (root_node (d_type d) (d_mem d) 0) (d_mem d) 0 v []) as (ps & Ln & E & F & Hs & Hi); try assumption; try reflexivity.
  - rewrite Hr. exact Ha.
  - rewrite Hr. apply sf_root; try reflexivity. exact R.
  - congruence.
  - rewrite Hr in Hi. exists Ln, ps. unfold for_each. rewrite Hr, E. cbn [app]. split; [reflexivity|]. split; [|split; assumption].
    eapply Forall2_impl; [|exact F]. intros ns n (T & w & H). exists T, w. exact H.
Qed.
(** The order is strict: no element is shown twice. *)
Theorem C27_once : forall ps, StronglySorted before ps -> NoDup ps.
Proof.
  intros ps H. induction H as [|p l Hl IH HF]; constructor; [|exact IH]. intros Hin. rewrite Forall_forall in HF. specialize (HF _ Hin).
  assert (Hirr : forall q, ~ before q q).
  { intros q. induction q as [|i q IHq]; intros Hb; inversion Hb; subst; [lia|]. apply IHq. assumption. }
  exact (Hirr _ HF).
Qed.
(** The depth is the nesting level, and what the node shows is in the value. *)
Theorem C27_depth : forall t v ns T w n, stands_for t v ns T w n -> n_deep n = List.length ns /\ n_type n = T /\ read T (n_blk n) (n_off n) = Ok w /\ reach t v ns T w.
Proof. intros t v ns T w n H. split; [eapply sf_deep, H|]. destruct (sf_read _ _ _ _ _ _ H). split; [assumption|]. split; [assumption|]. eapply sf_reach, H. Qed.

(** ** Any visitor: it is called with these nodes in this order until it throws a bool, which for_each returns. *)
Fixpoint called_with {S} (f : S -> node -> S * option bool) (s : S) (l : list node) : S * bool :=
  match l with
  | [] => (s, true)
  | n :: r => match f s n with (s', None) => called_with f s' r | (s', Some x) => (s', x) end
  end.
Theorem C27_any_visitor : forall S (f : S -> node -> S * option bool) t b off s L x,
  for_each recorder t b off [] = Ok (L, x) -> x = true /\ for_each f t b off s = Ok (called_with f s L).
Proof.
  intros S f t b off s L x H. unfold for_each in *. destruct (each_replayed f (rget t) (root_node (rget t) b off) [] s) as (l & [[E Hx]|(e & E & _)]); rewrite E in H; [|discriminate H].
  cbn [app] in H. injection H as <- <-. split; [reflexivity|].
  assert (Hc : forall l s, called_with f s l = match replay f l s with (s', None) => (s', true) | (s', Some b) => (s', b) end).
  { intros l'. induction l' as [|n r IH]; intros s'; [reflexivity|]. cbn. destruct (f s' n) as [s2 [y|]]; [reflexivity|apply IH]. }
  rewrite Hc. destruct (replay f l s) as [s' [y|]]; rewrite Hx; reflexivity.
Qed.
(** A union without active member: the check in UnionType.hpp:419-435 fails and aborts the visit of everything, even of
    a default-constructed union. *)
Theorem C27_visit_refuted : exists t d v, api_type t /\ ok_ty t /\ new_data t = Ok d /\ holds d v /\ for_each recorder (d_type d) (d_mem d) 0 [] = Fail Assert.
Proof.
  assert (Hu : union_built exd_nodef).
  { unfold exd_nodef. eapply ub_add; [|apply (at_prim PU8)|apply surjective_pairing]. apply (ub_new "U"%string (TPrim PI32)); [apply at_prim|reflexivity]. }
  assert (Ho : ok_ty exd_nodef) by (vm_compute; repeat split; congruence).
  destruct (C06_default_construction_partial exd_nodef (at_union _ Hu) Ho) as (d & v & E & _ & Hh & _).
  exists exd_nodef, d, v. split; [apply at_union, Hu|]. split; [exact Ho|]. split; [exact E|]. split; [exact Hh|].
  assert (E' := E). vm_compute in E'. injection E' as <-. vm_compute. reflexivity.
Qed.
(** from_member() is documented as null when the accessor is not an aggregation type; below a pair that is a member it
    is that member (PairType.hpp:196-214). *)
Theorem C27_from_member_refuted : exists t d L n, api_type t /\ ok_ty t /\ new_data t = Ok d /\ for_each recorder (d_type d) (d_mem d) 0 [] = Ok (L, true) /\
  nth_error L 2 = Some n /\ n_type n = TPrim PU8 /\ (exists p x y, n_parent n = Some p /\ n_type p = TPair x y) /\ n_member n = Some "p"%string.
Proof.
  exists (fst (add_member (TStruct "S" 0 []) "p" (TPair (TPrim PU8) (TPrim PU8)))).
  eexists. eexists. eexists. split; [apply at_struct, built_add; [apply sb_new|apply at_pair; try apply at_prim; reflexivity|vm_compute; reflexivity]|].
  split; [vm_compute; repeat split; congruence|]. split; [vm_compute; reflexivity|]. split; [vm_compute; reflexivity|]. split; [vm_compute; reflexivity|].
  split; [reflexivity|]. split; [eexists; eexists; eexists; split; vm_compute; reflexivity|vm_compute; reflexivity].
Qed.

(** ** Range-based for over arrays, sequences and maps: one reference per element, in the order of the indices. *)
Lemma iterate_ok (f : N -> res (ty * block * N)) (P : nat -> ty * block * N -> Prop) n : forall i,
  (forall j, (i <= j)%nat -> (j < i + n)%nat -> exists x, f (N.of_nat j) = Ok x /\ P j x) ->
  exists l, iterate n (N.of_nat i) f = Ok l /\ List.length l = n /\ forall j x, nth_error l j = Some x -> P (i + j)%nat x.
Proof.
  induction n as [|n IH]; intros i H.
  - exists []. split; [reflexivity|]. split; [reflexivity|]. intros [|j] x E; discriminate E.
  - destruct (H i ltac:(lia) ltac:(lia)) as (x & Ex & Px). destruct (IH (S i)) as (l & El & Hl & Hp). { intros j H1 H2. apply H; lia. }
    exists (x :: l). cbn [iterate]. rewrite Ex. cbn [bind]. replace (N.of_nat i + 1) with (N.of_nat (S i)) by lia. rewrite El. cbn [bind]. split; [reflexivity|]. split; [cbn; lia|].
    intros [|j] y E; [injection E as <-; rewrite Nat.add_0_r; exact Px|]. replace (i + S j)%nat with (S i + j)%nat by lia. apply Hp, E.
Qed.
Definition is_collection (t : ty) : bool := match t with TArr _ _ _ | TSeq _ _ | TMap _ _ _ => true | _ => false end.
Theorem C27_range_for_partial : forall t b off v, good t -> is_collection t = true -> live t b off -> read t b off = Ok v ->
  exists L l, v = VNode l /\ range_for t b off = Ok L /\ List.length L = List.length l /\
    forall i T b' o, nth_error L i = Some (T, b', o) -> exists w, child t v i (N.of_nat i) None T w /\ live T b' o /\ read T b' o = Ok w.
Proof.
  intros t b off v Hg Hc L R. destruct t as [| | |nm c n|c bd|k w bd| | | |]; try discriminate Hc; cbn [range_for get_size].
  - cbn [live] in L. cbn [read] in R. apply bind_ok in R as (l & E & R). injection R as <-. destruct (collect_nth _ _ _ _ E) as [Hl Hn].
    destruct (iterate_ok (instance_at (TArr nm c n) b off) (fun i '(T, b', o) => exists w, child (TArr nm c n) (VNode l) i (N.of_nat i) None T w /\ live T b' o /\ read T b' o = Ok w) (N.to_nat n) 0%nat) as (Lr & EL & HL & HP).
    + intros j _ Hj. cbn in Hj. destruct (Hn j ltac:(lia)) as (x & Ej & Rj). rewrite N.add_0_l in Rj. eexists. split; [reflexivity|]. exists x. split; [constructor; exact Ej|].
      rewrite <- live_rget, <- read_rget. split; [apply L; lia|exact Rj].
    + exists Lr, l. unfold get_size. cbn [rget bind]. split; [reflexivity|]. split; [exact EL|]. split; [lia|]. intros i T b' o Ei. exact (HP i _ Ei).
  - cbn [live] in L. destruct L as (cap & size & m & Ho & Hsz & _ & H32 & _ & L). rewrite (read_seq_obj _ _ _ _ _ _ _ Ho) in R.
    apply bind_ok in R as (l & E & R). injection R as <-. destruct (collect_nth _ _ _ _ E) as [Hl Hn]. destruct Ho as [Ho1 Ho2].
    destruct (iterate_ok (instance_at (TSeq c bd) b off) (fun i '(T, b', o) => exists w, child (TSeq c bd) (VNode l) i (N.of_nat i) None T w /\ live T b' o /\ read T b' o = Ok w) (N.to_nat size) 0%nat) as (Lr & EL & HL & HP).
    + intros j _ Hj. cbn in Hj. destruct (Hn j ltac:(lia)) as (x & Ej & Rj). rewrite N.add_0_l in Rj. unfold instance_at. rewrite Ho1, Ho2, (proj2 (N.ltb_lt _ _)) by lia.
      rewrite (wrap32_small (msize c)) by nia. rewrite wrap32_small by nia. eexists. split; [reflexivity|]. exists x. split; [constructor; exact Ej|]. rewrite <- live_rget, <- read_rget. split; [apply L; lia|exact Rj].
    + exists Lr, l. unfold get_size. cbn [rget]. rewrite Ho1, Ho2. cbn [bind]. split; [reflexivity|]. split; [exact EL|]. split; [lia|]. intros i T b' o Ei. exact (HP i _ Ei).
  - cbn [live] in L. destruct L as (cap & size & m & [Ho1 Ho2] & Hsz & _ & H32 & _ & L).
    cbn [read] in R. rewrite Ho1, Ho2 in R. apply bind_ok in R as (l & E & R). injection R as <-. destruct (collect_nth _ _ _ _ E) as [Hl Hn].
    destruct (iterate_ok (instance_at (TMap k w bd) b off) (fun i '(T, b', o) => exists x, child (TMap k w bd) (VNode l) i (N.of_nat i) None T x /\ live T b' o /\ read T b' o = Ok x) (N.to_nat size) 0%nat) as (Lr & EL & HL & HP).
    + intros j _ Hj. cbn in Hj. destruct (Hn j ltac:(lia)) as (x & Ej & Rj). rewrite N.add_0_l in Rj. unfold instance_at. rewrite Ho1, Ho2. unfold map_bs. rewrite (wrap32_small (msize k + msize w)) by nia.
      eexists. split; [reflexivity|]. exists x. split; [constructor; exact Ej|]. split; [cbn [live]; apply L; lia|]. cbn [read]. exact Rj.
    + exists Lr, l. unfold get_size. cbn [rget]. rewrite Ho1, Ho2. cbn [bind]. split; [reflexivity|]. split; [exact EL|]. split; [lia|]. intros i T b' o Ei. exact (HP i _ Ei).
Qed.

Fixpoint full (v : value) : Prop :=
  match v with
  | VUnion _ None => False
  | VUnion _ (Some w) => full w
  | VNode l => (fix go (l : list value) : Prop := match l with [] => True | x :: r => full x /\ go r end) l
  | _ => True
  end.
Lemma full_nth l i w : full (VNode l) -> nth_error l i = Some w -> full w.
Proof. revert i. induction l as [|x l IH]; intros [|i] H E; try discriminate E; [injection E as <-; apply H|]. apply (IH i); [apply H|exact E]. Qed.
Lemma full_selected t v : full v -> all_selected t v.
Proof.
  intros Hf ns T dv H. assert (Hw : forall w, reach t v ns T w -> full w); [|exact (Hw _ H)]. clear H dv. intros w H.
  induction H as [|ns T w i x nm T' w' H IH Hc]; [exact Hf|]. destruct Hc; try (eapply full_nth; eassumption); cbn in IH; tauto.
Qed.
(** ** A value that meets the hypotheses: struct with a sequence of strings, an array, a union. *)
Example C27_nontrivial : api_type exd_type /\ ok_ty exd_type /\ all_selected exd_type exd_final /\
  exists d L, new_data exd_type = Ok d /\ for_each recorder (d_type d) (d_mem d) 0 [] = Ok (L, true) /\
    map n_deep L = [0; 1; 1; 1; 2; 2; 1; 2]%nat /\ map n_index L = [0; 0; 1; 2; 0; 1; 3; 2147483647] /\
    map n_member L = [None; Some "n"%string; Some "q"%string; Some "a"%string; None; None; Some "u"%string; Some "y"%string].
Proof.
  split; [apply at_struct, exd_built|]. split; [exact exd_ok|]. split.
  - apply full_selected. vm_compute. repeat split.
  - eexists. eexists. split; [vm_compute; reflexivity|]. split; [vm_compute; reflexivity|]. split; [reflexivity|]. split; reflexivity.
Qed.

Print Assumptions C27_visit_partial.
Print Assumptions C27_once.
Print Assumptions C27_depth.
Print Assumptions C27_any_visitor.
Print Assumptions C27_visit_refuted.
Print Assumptions C27_from_member_refuted.
Print Assumptions C27_range_for_partial.
