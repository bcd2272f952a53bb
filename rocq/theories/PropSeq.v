(** Theorems about sequences, bounds, unions and indexed access: C12-C14, C20, C21, C28. *)
From Verif Require Import Base Types TypeBuild TypeSpec Compat Mem MemSpec TyInd Layout MemEqns MemFacts ConstructFacts CopyFacts CompareFacts CompatFacts CompatFacts2
  EnumFacts UnionFacts SeqFacts CollectFacts Ops OpsSpec Hash HashSpec MapOps MapSpec PathFacts Realize Prog ProgSpec ProgFacts ValueSpec ValueFacts DataSpec DataFacts
  HistSpec HistFacts PropTypes PropData.

(** ** C12 *)
(** Any history of push and resize, refused calls included, leaves the list the same calls leave.  Missing for the full
    property: element types outside [copy_ok] and [movable] (see the refutation) and unbounded sequences longer than what
    can be requested from the 32-bit allocator (C14). *)
Theorem C12_history_partial : forall fc strhash c bd d l os ls,
  holds d (VNode l) -> d_type d = TSeq c bd -> copy_ok c -> movable c -> Forall2 (means c) os ls ->
  (bd = 0 -> allocatable c (2 * N.of_nat (List.length (list_run c bd l ls))) = true) ->
  exists d', calls_seq fc strhash d os = Ok d' /\ d_type d' = TSeq c bd /\ holds d' (VNode (list_run c bd l ls)).
Proof. intros fc strhash c bd d l os ls H Ht Hc Hm Hf Ha. apply calls_sim; assumption. Qed.
(** What the client observes of a sequence holding [l]: size(), the element at every index, the refusal of every other
    index, and equality with any other sequence of the type. *)
Theorem C12_observe : forall fc strhash c bd d l, holds d (VNode l) -> d_type d = TSeq c bd ->
  run_on fc strhash d [] (reading get_size) = Ok (ONat (N.of_nat (List.length l)), d) /\
  (forall i w x o, nth_error l (N.to_nat i) = Some w -> read_value (rget c) x w = Some o ->
     exists d', run_on fc strhash d [SIdx i] (reading (get_scalar x)) = Ok (o, d') /\ holds d' (VNode l)) /\
  (forall i A (f : ty -> block -> N -> res (A * block)), N.of_nat (List.length l) <= i -> run_on fc strhash d [SIdx i] f = Fail Assert) /\
  (forall e l', holds e (VNode l') -> d_type e = TSeq c bd -> nofloat c -> exists r, data_eq d e = Ok r /\ (r = true <-> l = l')).
Proof.
  intros fc strhash c bd d l H Ht. destruct (seq_cell d l c bd H Ht) as (cap & m & [Ha Hi] & Hc & Hb). split; [|split; [|split]].
  - destruct d as [t b]. cbn [d_type d_mem] in *. subst t. unfold run_on. cbn [on_path rget]. unfold reading, get_size. cbn [rget d_type d_mem]. rewrite Ha, Hi. reflexivity.
  - intros i w x o Hn Hx. destruct (get_elem fc strhash d (VNode l) [FIdx i] [N.to_nat i] (rget c) w x o H) as (d' & E & _ & H'); try assumption.
    + rewrite Ht. reflexivity.
    + rewrite Ht. reflexivity.
    + cbn [elem]. rewrite Hn. reflexivity.
    + exists d'. auto.
  - intros i A f Hle. unfold run_on. rewrite Ht. cbn [on_path rget]. rewrite Ha, Hi. replace (i <? N.of_nat (List.length l)) with false by (symmetry; apply N.ltb_ge, Hle). reflexivity.
  - intros e l' He Hte Hn. destruct (eq_holds d e _ _ H He) as (r & E & Hr); [congruence|]. exists r. split; [exact E|]. rewrite Ht in Hr. rewrite Hr by exact Hn.
    split; congruence.
Qed.
(** A sequence of unions with a sequence member: reallocation destroys the object at the place of that member in the new
    element, where another member has been constructed (SequenceType::move_instance, SequenceType.hpp:115-127). *)
Definition exs_union : ty :=
  fst (add_case_member (fst (add_case_member exd_u0 [1%Z] "x" (TSeq (TPrim PU8) 0) false)) [] "y" (TPrim PU8) true).
Example exs_union_built : union_built exs_union.
Proof.
  unfold exs_union. eapply ub_add; [|apply (at_prim PU8)|apply surjective_pairing].
  eapply ub_add; [|apply (at_seq (TPrim PU8) 0); [apply at_prim|reflexivity]|apply surjective_pairing].
  apply (ub_new "U"%string (TPrim PI32)); [apply at_prim|reflexivity].
Qed.
Theorem C12_movable_refuted : forall fc strhash, exists t, api_type t /\ ok_ty t /\
  run fc strhash no_vars [New t; Do 0 [] (OpResize 1); Do 0 [PF (FIdx 0); PF (FName "x")] (OpResize 1); Do 0 [] (OpResize 2)] = Fail UB.
Proof.
  intros fc strhash. exists (TSeq exs_union 0). split; [apply at_seq; [apply at_union, exs_union_built|reflexivity]|].
  split; [vm_compute; repeat split; congruence|]. vm_compute. reflexivity.
Qed.
Example C12_nontrivial : exists d e, new_data (TSeq (TStr SK8 4) 3) = Ok d /\ holds d (VNode []) /\ new_data (TStr SK8 4) = Ok e /\
  Forall2 (means (TStr SK8 4)) [CPushVal (ScStr SK8 [1; 2]); CResize 9; CPush e; CResize 3; CPushVal (ScStr SK8 [5])]
    [LPush (VStr [1; 2]); LResize 9; LPush (VStr []); LResize 3; LPush (VStr [5])] /\
  list_run (TStr SK8 4) 3 [] [LPush (VStr [1; 2]); LResize 9; LPush (VStr []); LResize 3; LPush (VStr [5])] = [VStr [1; 2]; VStr []; VStr []].
Proof.
  destruct (new_holds (TSeq (TStr SK8 4) 3)) as (d & E & _ & H & _); [apply at_seq; [apply at_str|]; reflexivity|vm_compute; repeat split; congruence|].
  destruct (new_holds (TStr SK8 4)) as (e & E' & Te & H' & _); [apply at_str; reflexivity|exact I|].
  exists d, e. split; [exact E|]. split; [exact H|]. split; [exact E'|]. split; [|vm_compute; reflexivity].
  constructor; [split; reflexivity|]. constructor; [reflexivity|]. constructor; [split; [exact H'|split; [exact Te|exact I]]|].
  constructor; [reflexivity|]. constructor; [split; reflexivity|constructor].
Qed.

(** ** C13 *)
(** After any program with a meaning on values (ProgSpec), for every sequence at any depth in any variable the size
    is at most the bound. *)
Theorem C13_bound : forall fc strhash prog out vs x t v c bd l, execs fc strhash [] prog out vs -> nth_error vs x = Some (VLive t v) ->
  inside t v (TSeq c bd) (VNode l) -> bd = 0 \/ N.of_nat (List.length l) <= bd.
Proof.
  intros fc strhash prog out vs x t v c bd l H Hx Hi. pose proof (execs_wf fc strhash _ _ _ _ _ _ H Hx) as Hw.
  apply (inside_wf _ _ _ _ Hi) in Hw. apply Hw.
Qed.
(** For every sequence reached by a chain of accesses on a live instance, the object in memory has at least as much
    capacity as elements, at most its bound, and owns that many elements' worth of bytes. *)
Theorem C13_capacity : forall fc strhash d v fs ns c bd l, holds d v -> position (map fstep_vstep fs) (d_type d) = Some ns ->
  path_ty (map fstep_vstep fs) (d_type d) = Some (TSeq c bd) -> elem ns v = Some (VNode l) ->
  exists d' m off cap buf, run_on fc strhash d (map fstep_step fs) here = Ok ((TSeq c bd, m, off), d') /\
    obj_at m off SZ_SEQ (CSeq c cap (N.of_nat (List.length l)) buf) /\
    N.of_nat (List.length l) <= cap /\ (bd = 0 \/ cap <= bd) /\ alloc buf 0 (cap * msize c).
Proof.
  intros fc strhash d v fs ns c bd l H Hp HT He. destruct (locate fc strhash d v fs ns _ _ H Hp HT He) as (d' & m & off & E & L & R).
  destruct (path_good _ _ _ (holds_good _ _ H) HT) as [Hg _]. pose proof (good_seq _ _ Hg) as [Hw _].
  cbn [live] in L. destruct L as (cap & size & buf & Ho & Hs & Hb & H32 & _ & Hm). rewrite (read_seq_obj _ _ _ _ _ _ _ Ho) in R.
  apply bind_ok in R as (l' & El & R). injection R as ->. destruct (collect_nth _ _ _ _ El) as [Hlen _]. replace (N.of_nat (List.length l)) with size by lia.
  exists d', m, off, cap, buf. split; [exact E|]. split; [exact Ho|]. split; [exact Hs|]. split; [lia|].
  intros j Hj. assert (Hm0 : 0 < msize c) by nia. pose proof (N.div_mod j (msize c) ltac:(lia)) as Hd. pose proof (N.mod_lt j (msize c) ltac:(lia)) as Hr.
  rewrite Hd, N.add_assoc, N.add_0_l, N.mul_comm. apply (live_alloc c Hw buf _ (Hm (j / msize c) ltac:(apply N.div_lt_upper_bound; lia)) _ Hr).
Qed.
(** A push on a full bounded sequence and a resize above the bound are refused; the data is not changed (C12: the
    refused calls of a history leave the list as it was). *)
Theorem C13_full_refused : forall fc strhash d l c bd, holds d (VNode l) -> d_type d = TSeq c bd -> bd <> 0 ->
  (N.of_nat (List.length l) = bd -> (forall e, run_on fc strhash d [] (writing (push fc (d_mem e) 0)) = Fail Assert) /\
     (forall x, run_on fc strhash d [] (writing (push_scalar fc x)) = Fail Assert) /\
     (forall o, match o with CResize _ => False | _ => True end -> call_seq fc strhash d o = Ok d)) /\
  (forall n, bd < n -> run_on fc strhash d [] (writing (resize fc n)) = Fail Assert /\ call_seq fc strhash d (CResize n) = Ok d).
Proof.
  intros fc strhash d l c bd H Ht Hb.
  assert (Hr : forall n, bd < n -> run_on fc strhash d [] (writing (resize fc n)) = Fail Assert).
  { intros n Hn. rewrite run_nil by apply H. unfold writing. rewrite (resize_over fc d l c bd n H Ht Hb Hn). reflexivity. }
  split; [|intros n Hn; split; [apply Hr, Hn|]; unfold call_seq; rewrite (Hr n Hn); reflexivity].
  intros Hl.
  assert (Hp : forall e, run_on fc strhash d [] (writing (push fc (d_mem e) 0)) = Fail Assert).
  { intros e. rewrite run_nil by apply H. unfold writing. rewrite (push_full fc d l c bd _ _ H Ht Hb) by lia. reflexivity. }
  assert (Hs : forall x, run_on fc strhash d [] (writing (push_scalar fc x)) = Fail Assert).
  { intros x. rewrite run_nil by apply H. unfold writing, push_scalar. pose proof (push_full fc d l c bd (scalar_block x) 0 H Ht Hb ltac:(lia)) as Hf.
    rewrite Ht in *. cbn [rget]. destruct (match c with TPrim _ | TStr _ _ => type_check c (scalar_type x) | _ => false end); [rewrite Hf|]; reflexivity. }
  split; [exact Hp|]. split; [exact Hs|]. intros [e|x|n] Ho; [| |contradiction Ho]; unfold call_seq; rewrite ?Hp, ?Hs; reflexivity.
Qed.
Example C13_nontrivial : exists d, new_data (TSeq (TPrim PU8) 0) = Ok d /\ holds d (VNode []) /\
  (exists vs l, execs fc0 sh0 [] exd_prog l vs /\ nth_error vs 0 = Some (VLive exd_type exd_final) /\
     inside exd_type exd_final (TSeq (TStr SK8 4) 3) (VNode [VStr [104; 105]])).
Proof.
  destruct (new_holds (TSeq (TPrim PU8) 0)) as (d & E & _ & H & _); [apply at_seq; [apply at_prim|reflexivity]|vm_compute; repeat split; congruence|].
  exists d. split; [exact E|]. split; [exact H|]. destruct exd_runs as (vs & l & He & Hx & _). exists vs, l. split; [exact He|]. split; [exact Hx|].
  eapply (in_struct _ _ _ _ 1); [reflexivity|reflexivity|apply in_here].
Qed.

(** ** C14 *)
(** The buffer allocated for [n] elements has exactly [n] times the element size bytes as long as that product fits
    into 32 bits.  Missing for the full property: larger products. *)
Theorem C14_allocation_partial : forall c n, good c -> msize c < 4294967296 -> n * msize c < 4294967296 ->
  exists m, init_memory (construct c) (wrap32 (msize c)) n = Ok m /\ allocated m (n * msize c).
Proof. exact init_memory_alloc. Qed.
(** resize(2^29) of a sequence of 64-bit integers allocates 2^29 * 8 mod 2^32 = 0 bytes and writes outside them; so does
    every resize(n) of a sequence of primitives with n * size a positive multiple of 2^32. *)
Theorem C14_wrap_refuted : forall fc strhash p d l n k, holds d (VNode l) -> d_type d = TSeq (TPrim p) 0 -> N.of_nat (List.length l) < n ->
  n < 4294967296 -> 0 < k -> n * prim_size p = k * 4294967296 -> run_on fc strhash d [] (writing (resize fc n)) = Fail UB.
Proof.
  intros fc strhash p d l n k H Ht Hl H32 Hk Hn.
  assert (Hp : 0 < prim_size p <= 16) by (destruct p; cbn; lia).
  assert (Hinit : init_memory (construct (TPrim p)) (wrap32 (prim_size p)) n = Fail UB).
  { unfold init_memory. assert (Hn0 : 0 < n) by lia. replace (n =? 0) with false by (symmetry; apply N.eqb_neq; lia).
    rewrite (wrap32_small (prim_size p)) by lia. apply for_up_stop; [exact Hn0|].
    assert (Hw : wrap32 (n * prim_size p) = 0).
    { rewrite Hn. unfold wrap32. replace (k * 4294967296) with (k * 2 ^ 32) by reflexivity. apply N.mod_mul. discriminate. }
    rewrite Hw. cbn [construct]. destruct p; vm_compute; reflexivity. }
  rewrite run_nil by apply H. destruct (seq_cell d l _ _ H Ht) as (cap & m & [Ha Hi] & _). unfold writing, resize. rewrite Ht. cbn [rget]. rewrite Ha, Hi.
  cbn [N.eqb orb]. unfold seq_resize. replace (n <=? N.of_nat (List.length l)) with false by (symmetry; apply N.leb_gt, Hl).
  unfold seq_realloc. cbn [N.eqb msize]. rewrite (wrap32_small n) by exact H32. rewrite Hinit. reflexivity.
Qed.
Example C14_nontrivial : exists d, new_data (TSeq (TPrim PU64) 0) = Ok d /\ holds d (VNode []) /\ 536870912 * prim_size PU64 = 1 * 4294967296 /\
  good (TStr SK8 4) /\ 3 * msize (TStr SK8 4) < 4294967296.
Proof.
  destruct (new_holds (TSeq (TPrim PU64) 0)) as (d & E & _ & H & _); [apply at_seq; [apply at_prim|reflexivity]|vm_compute; repeat split; congruence|].
  exists d. split; [exact E|]. split; [exact H|]. split; [reflexivity|]. split; [split; vm_compute; trivial|reflexivity].
Qed.

(** ** C20 *)
(** After any program with a meaning on values, every bounded string at any depth in any variable is within its bound;
    value(s) keeps the first [bd] characters.  Missing for the full property: conversions between types. *)
Theorem C20_bounded_strings_partial : forall fc strhash prog out vs x t v k bd s, execs fc strhash [] prog out vs -> nth_error vs x = Some (VLive t v) ->
  inside t v (TStr k bd) (VStr s) -> bd = 0 \/ N.of_nat (List.length s) <= bd.
Proof.
  intros fc strhash prog out vs x t v k bd s H Hx Hi. pose proof (execs_wf fc strhash _ _ _ _ _ _ H Hx) as Hw.
  exact (inside_wf _ _ _ _ Hi Hw).
Qed.
Theorem C20_write_truncates : forall fc strhash d v fs ns k bd w s, holds d v -> position (map fstep_vstep fs) (d_type d) = Some ns ->
  path_ty (map fstep_vstep fs) (d_type d) = Some (TStr k bd) -> elem ns v = Some w ->
  exists d' v', run_on fc strhash d (map fstep_step fs) (writing (set_value fc (ScStr k s))) = Ok (ONone, d') /\ holds d' v' /\
    elem ns v' = Some (VStr (if bd =? 0 then s else firstn (N.to_nat bd) s)).
Proof.
  intros fc strhash d v fs ns k bd w s H Hp HT He. destruct (set_elem fc strhash d v fs ns (TStr k bd) w (ScStr k s) H Hp HT He) as (d' & v' & E & _ & H' & He' & _).
  - reflexivity.
  - exists d', v'. split; [exact E|]. split; [exact H'|exact He'].
Qed.
Example C20_nontrivial : exists vs l, execs fc0 sh0 [] exd_prog l vs /\ nth_error vs 0 = Some (VLive exd_type exd_final) /\
  inside exd_type exd_final (TStr SK8 4) (VStr [97; 98; 99; 100]).
Proof.
  destruct exd_runs as (vs & l & He & Hx & _). exists vs, l. split; [exact He|]. split; [exact Hx|].
  eapply (in_struct _ _ _ _ 3); [reflexivity|reflexivity|]. unfold exd_union. cbn.
  eapply in_case; [vm_compute; reflexivity|vm_compute; reflexivity|vm_compute; reflexivity|apply in_here].
Qed.

(** ** C21 *)
(** After any program with a meaning on values, in every union at any depth there is an active member exactly when the
    discriminator is one of the labels, and it is a value of the type of the member with that label. *)
Theorem C21_discriminator_agrees : forall fc strhash prog out vs x t v nm s dn o disc cs labels dv iv d w, execs fc strhash [] prog out vs ->
  nth_error vs x = Some (VLive t v) -> inside t v (TUnion nm s ((dn, o, disc) :: cs) labels dv iv d) w ->
  exists b mv l, w = VUnion b mv /\ label_of disc b = Some l /\
    match lookup_label l labels with
    | None => mv = None
    | Some a => exists y, mv = Some y /\ forall m, find_member a ((dn, o, disc) :: cs) = Some m -> wf_value (m_type m) y
    end.
Proof.
  intros fc strhash prog out vs x t v nm s dn o disc cs labels dv iv d w H Hx Hi. pose proof (execs_wf fc strhash _ _ _ _ _ _ H Hx) as Hw.
  apply (inside_wf _ _ _ _ Hi) in Hw. cbn [wf_value] in Hw. destruct w as [| | |b mv]; try contradiction Hw. destruct Hw as (_ & l & Hl & Hm).
  exists b, mv, l. split; [reflexivity|]. split; [exact Hl|]. destruct (lookup_label l labels) as [a|]; [|exact Hm]. destruct mv as [y|]; [|contradiction Hm].
  exists y. split; [reflexivity|]. intros m Hf. exact (unpick_member (fun t => wf_value t y) _ _ _ Hf Hm).
Qed.
(** The member current_case() names is alive: reading through it is defined and yields the active value; naming any
    other member through a readable reference is refused. *)
Theorem C21_active_member_readable : forall fc strhash d b y nm s dn disc cs labels dv iv de, holds d (VUnion b (Some y)) ->
  d_type d = TUnion nm s ((dn, 0, disc) :: cs) labels dv iv de ->
  exists l a m, label_of disc b = Some l /\ lookup_label l labels = Some a /\ find_member a cs = Some m /\
    run_on fc strhash d [] (reading get_case) = Ok (OName a, d) /\
    (exists d' mem off, run_on fc strhash d [SGet a] here = Ok ((rget (m_type m), mem, off), d') /\ live (m_type m) mem off /\ read (m_type m) mem off = Ok y) /\
    (forall c A (f : ty -> block -> N -> res (A * block)), c <> a -> run_on fc strhash d [SGet c] f = Fail Assert).
Proof.
  intros fc strhash d b y nm s dn disc cs labels dv iv de H Ht. pose proof (holds_good _ _ H) as Hg. destruct d as [t mem]. cbn [d_type d_mem] in *. subst t.
  destruct H as (_ & _ & _ & L & R). cbn [d_type d_mem] in *.
  destruct (union_state _ _ _ _ _ _ _ _ _ Hg mem 0 L) as (_ & _ & bs & l & Rd & Gl & Lo & Hs). rewrite R in Hs.
  destruct (lookup_label l labels) as [a|] eqn:Ea; [|discriminate Hs]. destruct Hs as (m & w & Hf & Lm & Rm & [= -> <-]).
  destruct (u_member _ _ _ _ _ _ _ _ _ Hg _ _ Hf) as (Hf' & Hin & Hn & _ & _ & Hgm).
  assert (Hcc : current_case (TUnion nm s ((dn, 0, disc) :: cs) labels dv iv de) mem 0 = Ok a).
  { cbn [current_case]. rewrite Gl. cbn [bind]. rewrite Ea. unfold member_at. rewrite Hf'. cbn [bind]. rewrite Hn. reflexivity. }
  exists l, a, m. split; [exact Lo|]. split; [exact Ea|]. split; [exact Hf|]. split; [|split].
  - unfold run_on. cbn [on_path rget d_type d_mem]. unfold reading, get_case. cbn [rget]. rewrite Hcc. reflexivity.
  - destruct (first_label a labels) as [l1|] eqn:E1.
    2:{ exfalso. clear - Ea E1. induction labels as [|[l0 x] ls IH]; cbn in *; [discriminate Ea|]. destruct (String.eqb a x) eqn:Ex; [discriminate E1|].
        destruct (Z.eqb l l0) eqn:El; [injection Ea as ->; rewrite String.eqb_refl in Ex; discriminate Ex|]. apply IH; assumption. }
    destruct (path_spec_rel fc strhash (fun (x : ty * block * N) (a0 : value) => fst (fst x) = rget (m_type m) /\ live (m_type m) (snd (fst x)) (snd x) /\ read (m_type m) (snd (fst x)) (snd x) = Ok a0)
      [SGet a] here (fun x => Some (x, x)) [VGet a] (TUnion nm s ((dn, 0, disc) :: cs) labels dv iv de) (rget (m_type m)) Hg) with (b := mem) (off := 0) (v := VUnion (VBytes bs) (Some y))
      (a := y) (v' := VUnion (label_bytes disc l1) (Some y)) as (((t & m') & off) & b' & E & (H1 & H2 & H3) & _); try assumption.
    + cbn [path_rel]. split; [reflexivity|]. cbn [rget]. rewrite Hf'. exact I.
    + cbn [path_ty rget]. rewrite Hf'. reflexivity.
    + intros b0 off0 x a0 x' Lx Rx [= <- <-]. exists (rget (m_type m), b0, off0), b0. cbn [fst snd]. rewrite live_rget, read_rget. repeat split; try assumption; try reflexivity.
    + cbn [vmod rget]. rewrite Hf, E1, Lo, Ea, String.eqb_refl. reflexivity.
    + cbn [fst snd] in *. subst t. exists (mkData (TUnion nm s ((dn, 0, disc) :: cs) labels dv iv de) b'), m', off. unfold run_on. cbn [d_type d_mem]. rewrite E. auto.
  - intros c A f Hc. unfold run_on. cbn [on_path rget d_type d_mem]. unfold member_at. destruct (find_member c ((dn, 0, disc) :: cs)); [|reflexivity]. cbn [bind].
    unfold select_for_read. destruct (String.eqb c UNION_DISCRIMINATOR); [reflexivity|]. rewrite Hcc. cbn [bind].
    replace (String.eqb c a) with false by (symmetry; apply String.eqb_neq, Hc). reflexivity.
Qed.
(** Setting the discriminator of a union without active member reports a member active that is not constructed;
    reading the active member through a readable reference changes the discriminator; setting a value that is no label
    in a union with a default member throws. *)
Definition exs_nodef : ty := fst (add_case_member exd_u0 [1%Z] "x" (TStr SK8 0) false).
Theorem C21_refuted : forall fc strhash,
  (exists t, union_built t /\ run fc strhash no_vars [New t; Do 0 [] (OpDisc 1); Do 0 [PF (FGet "x")] (OpGet (StStr SK8))] = Fail UB) /\
  (exists t l st, union_built t /\ run fc strhash no_vars [New t; Do 0 [PF (FName "x")] (OpSet (ScStr SK8 [97])); Do 0 [] (OpDisc 3); Copy 0;
      Do 0 [PF (FGet "x")] (OpGet (StStr SK8)); Do 0 [] (OpEq (1%nat, []))] = Ok (l ++ [OBool false], st)) /\
  (exists t, union_built t /\ run fc strhash no_vars [New t; Do 0 [] (OpDisc 7)] = Fail Throw).
Proof.
  intros fc strhash. split; [|split].
  - exists exs_nodef. split; [|vm_compute; reflexivity]. unfold exs_nodef. eapply ub_add; [|apply (at_str SK8 0); reflexivity|apply surjective_pairing].
    apply (ub_new "U"%string (TPrim PI32)); [apply at_prim|reflexivity].
  - exists exd_union, [ONone; ONone; ONone; ONone; OVal (ScStr SK8 [97])]. eexists. split; [apply exd_union_built|]. vm_compute. reflexivity.
  - exists exd_union. split; [apply exd_union_built|]. vm_compute. reflexivity.
Qed.
Example C21_nontrivial : exists d, new_data exd_union = Ok d /\ holds d (VUnion (VBytes [255; 255; 255; 127]) (Some (VNode []))) /\
  exists vs l nm s dn o disc cs labels dv iv de w, execs fc0 sh0 [] exd_prog l vs /\ nth_error vs 0 = Some (VLive exd_type exd_final) /\
    inside exd_type exd_final (TUnion nm s ((dn, o, disc) :: cs) labels dv iv de) w.
Proof.
  destruct (new_holds exd_union (at_union _ exd_union_built)) as (d & E & _ & H & _); [vm_compute; repeat split; congruence|].
  exists d. split; [exact E|]. split; [exact H|]. destruct exd_runs as (vs & l & He & Hx & _). exists vs, l.
  do 11 eexists. split; [exact He|]. split; [exact Hx|]. eapply (in_struct _ _ _ _ 3); [reflexivity|reflexivity|apply in_here].
Qed.

(** ** C28 *)
Lemma forall2_len {A B} (R : A -> B -> Prop) l m : Forall2 R l m -> List.length l = List.length m.
Proof. induction 1; cbn; congruence. Qed.
Definition indexable (t : ty) : Prop := match t with TArr _ _ _ | TSeq _ _ | TPair _ _ | TStruct _ _ _ => True | _ => False end.
(** The type of the element at an index. *)
Definition elem_ty (t : ty) (i : nat) : option ty :=
  match t with
  | TArr _ c _ | TSeq c _ => Some c
  | TPair x y => Some (match i with O => x | _ => y end)
  | TStruct _ _ ms => option_map (fun m => m_type m) (nth_error ms i)
  | _ => None
  end.
(** size() is the number of elements; below it every index leads to a live element of the right type and value; every
    other index is refused.  Maps and unions refuse every index. *)
Theorem C28_index : forall fc strhash d l, holds d (VNode l) -> indexable (d_type d) ->
  run_on fc strhash d [] (reading get_size) = Ok (ONat (N.of_nat (List.length l)), d) /\
  (forall i, i < N.of_nat (List.length l) -> exists c w d' m off, elem_ty (d_type d) (N.to_nat i) = Some c /\ nth_error l (N.to_nat i) = Some w /\
     run_on fc strhash d [SIdx i] here = Ok ((rget c, m, off), d') /\ live c m off /\ read c m off = Ok w) /\
  (forall i A (f : ty -> block -> N -> res (A * block)), N.of_nat (List.length l) <= i -> run_on fc strhash d [SIdx i] f = Fail Assert).
Proof.
  intros fc strhash d l H Hix. pose proof (holds_good _ _ H) as Hg. pose proof H as (_ & _ & Hr & L & R). pose proof (live_wf_value _ Hg _ _ _ L R) as Hw.
  assert (Hsz : size_value (d_type d) (VNode l) = Some (ONat (N.of_nat (List.length l)))) by (destruct (d_type d); try contradiction Hix; reflexivity).
  assert (Hstr : forall nm s ms, d_type d = TStruct nm s ms -> List.length l = List.length ms).
  { intros nm s ms E. rewrite E in Hw. apply wf_struct_iff' in Hw as (l' & [= <-] & F). symmetry. eapply forall2_len, F. }
  split; [|split].
  - destruct d as [t b]. cbn [d_type d_mem] in *. unfold run_on. cbn [on_path d_type d_mem]. rewrite Hr. unfold reading.
    destruct t as [| | |anm c n|c bd| |x y|snm s ms| |]; try contradiction Hix; unfold get_size; cbn [rget].
    + destruct Hw as [<- _]. reflexivity.
    + destruct (seq_cell _ l c bd H eq_refl) as (cap & m & [Ha Hi] & _). cbn [d_mem] in *. rewrite Ha, Hi. reflexivity.
    + destruct l as [|? [|? [|? ?]]]; try contradiction Hw. reflexivity.
    + rewrite <- (Hstr _ _ _ eq_refl). reflexivity.
  - intros i Hi. destruct (nth_error l (N.to_nat i)) as [w|] eqn:Ew; [|apply nth_error_None in Ew; lia].
    assert (Hc : exists c, elem_ty (d_type d) (N.to_nat i) = Some c /\ position [VIdx i] (d_type d) = Some [N.to_nat i] /\ path_ty [VIdx i] (d_type d) = Some (rget c)).
    { destruct (d_type d) as [| | |anm c n|c bd| |x y|snm s ms| |]; try contradiction Hix; cbn [elem_ty position path_ty rget option_map]; try (eexists; repeat split; reflexivity).
      - destruct l as [|? [|? [|? ?]]]; try contradiction Hw. cbn [List.length] in Hi. assert (i = 0 \/ i = 1) as [-> | ->] by lia; cbn; eexists; repeat split; reflexivity.
      - rewrite (Hstr _ _ _ eq_refl) in Hi. destruct (nth_error ms (N.to_nat i)) as [m|] eqn:Em; [|apply nth_error_None in Em; lia]. cbn. eexists; repeat split; reflexivity. }
    destruct Hc as (c & E1 & E2 & E3). destruct (locate fc strhash d (VNode l) [FIdx i] [N.to_nat i] (rget c) w H E2 E3) as (d' & m & off & E & L' & R').
    { cbn [elem]. rewrite Ew. reflexivity. }
    exists c, w, d', m, off. split; [exact E1|]. split; [reflexivity|]. split; [exact E|]. rewrite live_rget, read_rget. auto.
  - intros i A f Hle. unfold run_on. cbn [on_path]. rewrite Hr. destruct (d_type d) as [| | |anm c n|c bd| |x y|snm s ms| |] eqn:Et; try contradiction Hix.
    + destruct Hw as [<- _]. replace (i <? N.of_nat (List.length l)) with false by (symmetry; apply N.ltb_ge, Hle). reflexivity.
    + destruct (seq_cell _ l c bd H Et) as (cap & m & [Ha Hi] & _). rewrite Ha, Hi. replace (i <? N.of_nat (List.length l)) with false by (symmetry; apply N.ltb_ge, Hle). reflexivity.
    + destruct l as [|? [|? [|? ?]]]; try contradiction Hw. cbn [List.length] in Hle. replace (i =? 0) with false by (symmetry; apply N.eqb_neq; lia).
      replace (i =? 1) with false by (symmetry; apply N.eqb_neq; lia). reflexivity.
    + rewrite (Hstr _ _ _ eq_refl) in Hle. destruct (nth_error ms (N.to_nat i)) eqn:Em; [|reflexivity]. apply nth_error_lt in Em. lia.
Qed.
Theorem C28_not_indexable : forall fc strhash d i A (f : ty -> block -> N -> res (A * block)), rget (d_type d) = d_type d -> ~ indexable (d_type d) ->
  run_on fc strhash d [SIdx i] f = Fail Assert.
Proof. intros fc strhash d i A f Hr Hn. unfold run_on. cbn [on_path]. rewrite Hr. destruct (d_type d); try (exfalso; apply Hn; exact I); reflexivity. Qed.

(** [t] is an array of arrays ... of [c] with the given dimensions, outermost first (whatever the names). *)
Fixpoint array_of (c : ty) (dims : list N) (t : ty) : Prop :=
  match dims, t with
  | [], _ => t = c
  | n :: r, TArr _ c' n' => n' = n /\ array_of c r c'
  | _, _ => False
  end.
Definition product (l : list N) : N := fold_right N.mul 1 l.
(** Row-major position of the element with the given indices. *)
Fixpoint flat (dims is : list N) : N := match dims, is with n :: r, i :: js => i * product r + flat r js | _, _ => 0 end.
Lemma dims_array c dims : forall t, mk_array_dims c dims = Ok t -> dims <> [] /\ array_of c dims t.
Proof.
  induction dims as [|n dims IH]; intros t H; [discriminate H|]. split; [discriminate|]. destruct dims as [|n2 r].
  - injection H as <-. cbn. auto.
  - apply bind_ok in H as (t' & E & H). injection H as <-. cbn [array_of]. split; [reflexivity|]. apply IH, E.
Qed.
Lemma array_size c dims : forall t, array_of c dims t -> msize t = product dims * msize c.
Proof.
  induction dims as [|n dims IH]; intros t H; cbn [array_of product fold_right] in *; [subst t; lia|]. destruct t; try contradiction H. destruct H as [-> H].
  cbn [msize]. rewrite (IH _ H). unfold product. lia.
Qed.
Lemma array_elem c dims : forall t v is_, array_of c dims t -> wf_value t v -> Forall2 N.lt is_ dims -> exists w, elem (map N.to_nat is_) v = Some w /\ wf_value c w.
Proof.
  induction dims as [|n dims IH]; intros t v is_ H Hw Hi; inversion Hi as [|i ? js ? Hlt Hj]; subst; cbn [array_of] in H.
  - subst t. exists v. split; [destruct v; reflexivity|exact Hw].
  - destruct t as [| | |anm t' n'| | | | | |]; try contradiction H. destruct H as [-> H]. cbn [wf_value] in Hw. destruct v as [| |l|]; try contradiction Hw. destruct Hw as [Hl Hf].
    destruct (nth_error l (N.to_nat i)) as [x|] eqn:Ex; [|apply nth_error_None in Ex; lia]. rewrite Forall_forall in Hf.
    destruct (IH t' x js H (Hf _ (nth_error_In _ _ Ex)) Hj) as (w & Ew & Hww). exists w. split; [|exact Hww]. cbn [map elem]. rewrite Ex. exact Ew.
Qed.
Lemma array_path fc strhash c dims : forall t is_ b off, array_of c dims t -> Forall2 N.lt is_ dims ->
  on_path fc strhash (map SIdx is_) here t b off = Ok ((rget c, b, off + flat dims is_ * msize c), b).
Proof.
  induction dims as [|n dims IH]; intros t is_ b off H Hi; inversion Hi as [|i ? js ? Hlt Hj]; subst; cbn [array_of] in H.
  - subst t. cbn [map on_path flat]. unfold here. rewrite N.mul_0_l, N.add_0_r. reflexivity.
  - destruct t as [| | |anm t' n'| | | | | |]; try contradiction H. destruct H as [-> H]. cbn [map on_path rget]. replace (i <? n) with true by (symmetry; apply N.ltb_lt, Hlt).
    rewrite (IH t' js b _ H Hj). do 3 f_equal. cbn [flat]. rewrite (array_size c dims t' H). lia.
Qed.
Lemma array_out {A} fc strhash (f : ty -> block -> N -> res (A * block)) c n r dims1 : forall t is1 i is2 b off, array_of c (dims1 ++ n :: r) t -> Forall2 N.lt is1 dims1 -> n <= i ->
  on_path fc strhash (map SIdx (is1 ++ i :: is2)) f t b off = Fail Assert.
Proof.
  induction dims1 as [|n1 dims1 IH]; intros t is1 i is2 b off H Hi Hle; inversion Hi as [|i1 ? js ? Hlt Hj]; subst; cbn [array_of app] in H;
    (destruct t as [| | |anm t' n'| | | | | |]; try contradiction H); destruct H as [-> H]; cbn [map app on_path rget].
  - replace (i <? n) with false by (symmetry; apply N.ltb_ge, Hle). reflexivity.
  - replace (i1 <? n1) with true by (symmetry; apply N.ltb_lt, Hlt). apply IH; assumption.
Qed.
(** ArrayType(content, dims) is the nested array; every list of indices below the dimensions leads to the element at
    its row-major place, an index out of range in any dimension is refused. *)
Theorem C28_multidimensional : forall fc strhash c dims t, mk_array_dims c dims = Ok t ->
  array_of c dims t /\ msize t = product dims * msize c /\
  (forall d v is_, holds d v -> d_type d = t -> Forall2 N.lt is_ dims ->
     exists w, elem (map N.to_nat is_) v = Some w /\ wf_value c w /\
       run_on fc strhash d (map SIdx is_) here = Ok ((rget c, d_mem d, flat dims is_ * msize c), d)) /\
  (forall d is1 i is2 n r dims1 A (f : ty -> block -> N -> res (A * block)), d_type d = t -> dims = dims1 ++ n :: r -> Forall2 N.lt is1 dims1 -> n <= i ->
     run_on fc strhash d (map SIdx (is1 ++ i :: is2)) f = Fail Assert).
Proof.
  intros fc strhash c dims t Hm. destruct (dims_array c dims t Hm) as [_ Ha]. split; [exact Ha|]. split; [apply array_size, Ha|]. split.
  - intros d v is_ H Ht Hi. pose proof (holds_good _ _ H) as Hg. pose proof H as (_ & _ & _ & L & R). pose proof (live_wf_value _ Hg _ _ _ L R) as Hw. rewrite Ht in Hw.
    destruct (array_elem c dims t v is_ Ha Hw Hi) as (w & E & Hww). exists w. split; [exact E|]. split; [exact Hww|]. unfold run_on. rewrite Ht, (array_path fc strhash c dims t is_ _ _ Ha Hi).
    cbn [bind fst snd]. rewrite N.add_0_l. destruct d as [t0 b]. cbn in *. subst t0. reflexivity.
  - intros d is1 i is2 n r dims1 A f Ht -> Hi Hle. unfold run_on. rewrite Ht, (array_out fc strhash f c n r dims1 t is1 i is2 _ _ Ha Hi Hle). reflexivity.
Qed.
(** The name of a multidimensional array mentions its first dimension only: it is not the name of the nested array,
    and arrays of different sizes pass for the same type in operator== (DynamicData.hpp:82-92), which then reads outside
    the smaller one. *)
Theorem C67_name_refuted : exists a b c x y, mk_array_dims (TPrim PU8) [2; 5] = Ok a /\ mk_array_dims (TPrim PU8) [2; 3] = Ok b /\
  c = mk_array (mk_array (TPrim PU8) 5) 2 /\ api_type a /\ api_type b /\ a <> b /\ tname a = tname b /\ tname a <> tname c /\
  new_data a = Ok x /\ new_data b = Ok y /\ data_eq x y = Fail UB.
Proof.
  assert (Ha : exists a, mk_array_dims (TPrim PU8) [2; 5] = Ok a) by (eexists; reflexivity).
  assert (Hb : exists b, mk_array_dims (TPrim PU8) [2; 3] = Ok b) by (eexists; reflexivity).
  destruct Ha as (a & Ea). destruct Hb as (b & Eb).
  assert (H1 : api_type a) by (eapply at_arr_dims; [apply at_prim| |exact Ea]; repeat constructor).
  assert (H2 : api_type b) by (eapply at_arr_dims; [apply at_prim| |exact Eb]; repeat constructor).
  injection Ea as <-. injection Eb as <-. do 5 eexists. split; [reflexivity|]. split; [reflexivity|]. split; [reflexivity|]. split; [exact H1|]. split; [exact H2|].
  split; [discriminate|]. split; [vm_compute; reflexivity|]. split; [vm_compute; discriminate|]. split; [vm_compute; reflexivity|]. split; [vm_compute; reflexivity|]. vm_compute. reflexivity.
Qed.
Example C28_nontrivial : exists t d, mk_array_dims (TStr SK8 4) [2; 3; 2] = Ok t /\ new_data t = Ok d /\ (exists v, holds d v) /\ Forall2 N.lt [1; 2; 0] [2; 3; 2] /\ flat [2; 3; 2] [1; 2; 0] = 10.
Proof.
  assert (Ha : exists a, mk_array_dims (TStr SK8 4) [2; 3; 2] = Ok a) by (eexists; reflexivity). destruct Ha as (a & Ea). exists a.
  destruct (new_holds a) as (d & E & _ & H & _).
  { eapply at_arr_dims; [apply at_str| |exact Ea]; repeat constructor. }
  { injection Ea as <-. vm_compute. repeat split; congruence. }
  exists d. split; [exact Ea|]. split; [exact E|]. split; [eauto|]. split; [repeat constructor|reflexivity].
Qed.

Print Assumptions C12_history_partial.
Print Assumptions C12_observe.
Print Assumptions C12_movable_refuted.
Print Assumptions C13_bound.
Print Assumptions C13_capacity.
Print Assumptions C13_full_refused.
Print Assumptions C14_allocation_partial.
Print Assumptions C14_wrap_refuted.
Print Assumptions C20_bounded_strings_partial.
Print Assumptions C20_write_truncates.
Print Assumptions C21_discriminator_agrees.
Print Assumptions C21_active_member_readable.
Print Assumptions C21_refuted.
Print Assumptions C28_index.
Print Assumptions C28_not_indexable.
Print Assumptions C28_multidimensional.
Print Assumptions C67_name_refuted.
