(** Histories of calls on a sequence behave as on lists; following accesses. *)
From Verif Require Import Base Types TypeBuild TypeSpec Compat Mem MemSpec TyInd Layout MemEqns MemFacts ConstructFacts CopyFacts CompareFacts CompatFacts CompatFacts2
  EnumFacts UnionFacts SeqFacts CollectFacts Ops OpsSpec Hash HashSpec MapOps MapSpec PathFacts Realize Prog ProgSpec ProgFacts ValueSpec ValueFacts DataSpec DataFacts
  HistSpec.

Lemma allocatable_mono c m n : m <= n -> allocatable c n = true -> allocatable c m = true.
Proof.
  unfold allocatable. intros H Ha. apply andb_true_iff in Ha as [H1 H2]. apply N.ltb_lt in H1. apply N.leb_le in H2.
  apply andb_true_iff. split; [apply N.ltb_lt; nia|apply N.leb_le; lia].
Qed.
Lemma list_step_grows c bd l o : (List.length l <= List.length (list_step c bd l o))%nat.
Proof. destruct o; cbn [list_step]; destruct (_ || _); rewrite ?app_length; lia. Qed.
Lemma list_run_grows c bd os : forall l, (List.length l <= List.length (list_run c bd l os))%nat.
Proof.
  induction os as [|o os IH]; intros l; [reflexivity|]. cbn [list_run fold_left]. etransitivity; [apply (list_step_grows c bd l o)|]. apply IH.
Qed.

Section Seq.
  Variable fc : prim -> prim -> list N -> list N.
  Variable strhash : skind -> list N -> N.

  Lemma run_nil {A} d (f : ty -> block -> N -> res (A * block)) : rget (d_type d) = d_type d ->
    run_on fc strhash d [] f = do r <- f (d_type d) (d_mem d) 0; Ok (fst r, mkData (d_type d) (snd r)).
  Proof. intros H. unfold run_on. cbn [on_path]. rewrite H. reflexivity. Qed.
  Lemma run_realizes d v f g v' : holds d v -> realizes (d_type d) f g -> g v = Some v' ->
    exists d', run_on fc strhash d [] (writing f) = Ok (ONone, d') /\ d_type d' = d_type d /\ holds d' v'.
  Proof.
    intros H Hr Hv. eapply (run_on_holds fc strhash d v [] [] (d_type d)); [exact H|exact I|cbn; f_equal; apply H|apply realizes_does, Hr|].
    cbn [vmod]. rewrite Hv. reflexivity.
  Qed.
  Lemma seq_cell d l c bd : holds d (VNode l) -> d_type d = TSeq c bd ->
    exists cap m, obj_at (d_mem d) 0 SZ_SEQ (CSeq c cap (N.of_nat (List.length l)) m) /\ N.of_nat (List.length l) <= cap /\ (bd = 0 \/ cap <= bd).
  Proof.
    intros (_ & _ & _ & L & R) Ht. rewrite Ht in L, R. cbn [live] in L. destruct L as (cap & size & m & Ho & Hs & Hb & _).
    rewrite (read_seq_obj _ _ _ _ _ _ _ Ho) in R. apply bind_ok in R as (l' & El & R). injection R as ->.
    destruct (collect_nth _ _ _ _ El) as [Hlen _]. exists cap, m. replace (N.of_nat (List.length l)) with size by lia. repeat split; try assumption; try apply Ho. lia.
  Qed.
  Lemma push_full d l c bd src soff : holds d (VNode l) -> d_type d = TSeq c bd -> bd <> 0 -> bd <= N.of_nat (List.length l) ->
    push fc src soff (d_type d) (d_mem d) 0 = Fail Assert.
  Proof.
    intros H Ht Hb Hl. destruct (seq_cell d l c bd H Ht) as (cap & m & [Ha Hi] & _). unfold push. rewrite Ht. cbn [rget]. rewrite Ha, Hi.
    replace (N.of_nat (List.length l) <? bd) with false by (symmetry; apply N.ltb_ge, Hl). apply N.eqb_neq in Hb. rewrite Hb. reflexivity.
  Qed.
  Lemma resize_over d l c bd n : holds d (VNode l) -> d_type d = TSeq c bd -> bd <> 0 -> bd < n ->
    resize fc n (d_type d) (d_mem d) 0 = Fail Assert.
  Proof.
    intros H Ht Hb Hn. unfold resize. rewrite Ht. cbn [rget]. apply N.eqb_neq in Hb. rewrite Hb. replace (n <=? bd) with false by (symmetry; apply N.leb_gt, Hn). reflexivity.
  Qed.

  Lemma call_sim c bd d l o a : holds d (VNode l) -> d_type d = TSeq c bd -> copy_ok c -> movable c -> means c o a ->
    (bd = 0 -> allocatable c (2 * N.of_nat (List.length (list_step c bd l a))) = true) ->
    exists d', call_seq fc strhash d o = Ok d' /\ d_type d' = TSeq c bd /\ holds d' (VNode (list_step c bd l a)).
  Proof.
    intros H Ht Hc Hm Ho Hal. pose proof (holds_good _ _ H) as Hg. rewrite Ht in Hg.
    assert (Hacc : forall w, (bd =? 0) || (N.of_nat (List.length l) <? bd) = true -> list_step c bd l (LPush w) = l ++ [w] ->
      (bd = 0 -> allocatable c (2 * N.of_nat (List.length (l ++ [w]))) = true) -> push_value c bd w (VNode l) = Some (VNode (l ++ [w]))).
    { intros w Hor _ Ha. unfold push_value. cbv zeta. unfold accepts. destruct (bd =? 0) eqn:E0.
      - apply N.eqb_eq in E0. rewrite app_length in Ha. cbn [List.length] in Ha. replace (2 * (N.of_nat (List.length l) + 1)) with (2 * N.of_nat (List.length l + 1)) by lia. rewrite Ha by exact E0. reflexivity.
      - cbn [orb] in Hor. apply N.ltb_lt in Hor. replace (N.of_nat (List.length l) + 1 <=? bd) with true by (symmetry; apply N.leb_le; lia). reflexivity. }
    assert (Hpush : forall f w, (realizes (TSeq c bd) f (push_value c bd w)) -> a = LPush w ->
      ((bd =? 0) || (N.of_nat (List.length l) <? bd) = false -> f (d_type d) (d_mem d) 0 = Fail Assert) ->
      exists d', match run_on fc strhash d [] (writing f) with Ok x => Ok (snd x) | Fail Assert => Ok d | Fail e => Fail e end = Ok d' /\
        d_type d' = TSeq c bd /\ holds d' (VNode (list_step c bd l a))).
    { intros f w Hf -> Hno. cbn [list_step] in *. destruct ((bd =? 0) || (N.of_nat (List.length l) <? bd)) eqn:Eor.
      - rewrite <- Ht in Hf. destruct (run_realizes d (VNode l) f _ _ H Hf (Hacc w eq_refl eq_refl Hal)) as (d' & E & Ht' & H').
        exists d'. rewrite E. cbn [snd]. split; [reflexivity|]. split; [congruence|exact H'].
      - rewrite run_nil by apply H. unfold writing. rewrite Hno by reflexivity. cbn [bind]. eauto. }
    assert (Hfull : (bd =? 0) || (N.of_nat (List.length l) <? bd) = false -> bd <> 0 /\ bd <= N.of_nat (List.length l)).
    { intros E. apply orb_false_iff in E as [E1 E2]. apply N.eqb_neq in E1. apply N.ltb_ge in E2. auto. }
    unfold call_seq. destruct o as [e|x|n]; destruct a as [w|m]; try contradiction Ho; cbn [means] in Ho.
    - destruct Ho as (He & Hte & Hs). apply (Hpush (push fc (d_mem e) 0) w); [|reflexivity|].
      + destruct He as (_ & _ & _ & Le & Re). rewrite Hte, <- live_rget in Le. rewrite Hte, <- read_rget in Re. apply push_realizes; assumption.
      + intros E. destruct (Hfull E). eapply push_full; eassumption.
    - destruct Ho as (Hx & ->). apply (Hpush (push_scalar fc x) (scalar_value c x)); [|reflexivity|].
      + apply push_scalar_realizes; assumption.
      + intros E. destruct (Hfull E). unfold push_scalar. rewrite Ht. cbn [rget].
        destruct (match c with TPrim _ | TStr _ _ => type_check c (scalar_type x) | _ => false end); [|reflexivity]. rewrite <- Ht. eapply push_full; eassumption.
    - subst m. cbn [list_step] in *. destruct ((bd =? 0) || (n <=? bd)) eqn:Eor.
      + assert (Hv : resize_value c bd n (VNode l) = Some (VNode (l ++ repeat (default_value c) (N.to_nat n - List.length l)))).
        { unfold resize_value, accepts. destruct (bd =? 0) eqn:E0.
          - apply N.eqb_eq in E0. rewrite app_length, repeat_length in Hal. rewrite (allocatable_mono c n (2 * N.of_nat (List.length l + (N.to_nat n - List.length l)))); [reflexivity|lia|apply Hal, E0].
          - cbn [orb] in Eor. rewrite Eor. reflexivity. }
        pose proof (resize_realizes fc c bd n Hg Hc Hm) as Hf. rewrite <- Ht in Hf.
        destruct (run_realizes d (VNode l) _ _ _ H Hf Hv) as (d' & E & Ht' & H'). exists d'. rewrite E. cbn [snd]. split; [reflexivity|]. split; [congruence|exact H'].
      + apply orb_false_iff in Eor as [E1 E2]. apply N.eqb_neq in E1. apply N.leb_gt in E2. rewrite run_nil by apply H. unfold writing.
        rewrite (resize_over d l c bd n H Ht E1 E2). cbn [bind]. eauto.
  Qed.
  Lemma calls_sim c bd os ls : copy_ok c -> movable c -> Forall2 (means c) os ls -> forall d l, holds d (VNode l) -> d_type d = TSeq c bd ->
    (bd = 0 -> allocatable c (2 * N.of_nat (List.length (list_run c bd l ls))) = true) ->
    exists d', calls_seq fc strhash d os = Ok d' /\ d_type d' = TSeq c bd /\ holds d' (VNode (list_run c bd l ls)).
  Proof.
    intros Hc Hm H. induction H as [|o a os ls Ho _ IH]; intros d l Hh Ht Ha; [exists d; auto|]. cbn [calls_seq list_run fold_left] in *.
    destruct (call_sim c bd d l o a Hh Ht Hc Hm Ho) as (d1 & E1 & T1 & H1).
    { intros Hb. eapply allocatable_mono; [|apply Ha, Hb]. pose proof (list_run_grows c bd ls (list_step c bd l a)). unfold list_run in *. lia. }
    rewrite E1. cbn [bind]. apply IH; assumption.
  Qed.
  (** Following accesses to a live element. *)
  Definition here (t : ty) (b : block) (off : N) : res ((ty * block * N) * block) := Ok ((t, b, off), b).
  Lemma locate d v fs ns T w : holds d v -> position (map fstep_vstep fs) (d_type d) = Some ns ->
    path_ty (map fstep_vstep fs) (d_type d) = Some T -> elem ns v = Some w ->
    exists d' m off, run_on fc strhash d (map fstep_step fs) here = Ok ((T, m, off), d') /\ live T m off /\ read T m off = Ok w.
  Proof.
    intros Hh Hp HT He. destruct (at_pos_def ns (fun x => Some (x, x)) v w w w He eq_refl) as (v' & Hv). rewrite <- (vmod_pos strhash _ _ _ _ Hp) in Hv.
    pose proof (holds_good _ _ Hh) as Hg. destruct Hh as (_ & _ & _ & L & R).
    destruct (path_spec_rel fc strhash (fun (x : ty * block * N) (a : value) => fst (fst x) = T /\ live T (snd (fst x)) (snd x) /\ read T (snd (fst x)) (snd x) = Ok a)
      (map fstep_step fs) here (fun x => Some (x, x)) (map fstep_vstep fs) (d_type d) T Hg (plain_rel _ _ _ HT) HT) with (b := d_mem d) (off := 0) (v := v) (a := w) (v' := v')
      as (((t & m) & off) & b' & E & (H1 & H2 & H3) & _); try assumption.
    - intros b off x a x' Lx Rx [= <- <-]. exists (T, b, off), b. repeat split; try assumption; try reflexivity.
    - cbn [fst snd] in *. subst t. exists (mkData (d_type d) b'), m, off. unfold run_on. rewrite E. auto.
  Qed.
End Seq.

(** ** Components are well formed *)
Lemma unpick_member (P : ty -> Prop) x m ms : find_member x ms = Some m ->
  (fix go (l : list (string * N * ty)) : Prop :=
     match l with [] => False | (mn, _, mt) :: r => if String.eqb x mn then P mt else go r end) ms -> P (m_type m).
Proof.
  intros Hf H. induction ms as [|[[mn mo] mt] ms IH]; cbn [find_member] in Hf; [discriminate Hf|].
  change (m_name (mn, mo, mt)) with mn in Hf. destruct (String.eqb x mn); [injection Hf as <-; exact H|apply IH; assumption].
Qed.
Lemma inside_wf t v T w : inside t v T w -> wf_value t v -> wf_value T w.
Proof.
  induction 1 as [t v|nm c n l x T w Hin _ IH|c bd l x T w Hin _ IH|k v bd l x y T w Hin _ IH|k v bd l x y T w Hin _ IH|a c x y T w _ IH|a c x y T w _ IH
    |nm s ms l i m x T w Hm Hx _ IH|nm s dn o disc cs labels dv iv d dv0 mv T w _ IH|nm s dn o disc cs labels dv iv d dv0 x l a m T w Hl Hlo Hf _ IH|nm a v T w _ IH]; intros H.
  - exact H.
  - cbn [wf_value] in H. destruct H as [_ H]. rewrite Forall_forall in H. apply IH, H, Hin.
  - cbn [wf_value] in H. destruct H as [_ H]. rewrite Forall_forall in H. apply IH, H, Hin.
  - cbn [wf_value] in H. destruct H as [_ H]. rewrite Forall_forall in H. apply IH. apply H in Hin. apply Hin.
  - cbn [wf_value] in H. destruct H as [_ H]. rewrite Forall_forall in H. apply IH. apply H in Hin. apply Hin.
  - apply IH, H.
  - apply IH, H.
  - apply wf_struct_iff' in H as (l' & [= <-] & H). apply IH.
    clear IH. revert i l Hm Hx H; induction ms as [|m0 ms IHm]; intros [|i] l Hm Hx H; try discriminate Hm; inversion H; subst; cbn in *.
    + injection Hm as ->. injection Hx as ->. assumption.
    + eapply IHm; eassumption.
  - cbn [wf_value] in H. apply IH, H.
  - cbn [wf_value] in H. destruct H as (_ & l' & Hl' & H). rewrite Hl in Hl'. injection Hl' as <-. rewrite Hlo in H. apply IH. exact (unpick_member (fun t => wf_value t x) _ _ _ Hf H).
  - apply IH, H.
Qed.
Lemma execs_wf fc strhash prog l vs x t v : execs fc strhash [] prog l vs -> nth_error vs x = Some (VLive t v) -> wf_value t v.
Proof.
  intros H Hx. destruct (prog_sim fc strhash _ _ _ _ H no_vars rep_empty) as (st & E & Hr).
  destruct (rep_holds _ _ _ _ _ Hr Hx) as (u & b & _ & _ & _ & _ & Hh). pose proof (holds_good _ _ Hh) as Hg. destruct Hh as (_ & _ & _ & L & R).
  cbn [d_type d_mem] in *. eapply live_wf_value; eassumption.
Qed.

(** ** Allocation *)
Lemma init_memory_alloc c n : good c -> msize c < 4294967296 -> n * msize c < 4294967296 ->
  exists m, init_memory (construct c) (wrap32 (msize c)) n = Ok m /\ allocated m (n * msize c).
Proof.
  intros Hg H1 H2. rewrite (wrap32_small _ H1).
  destruct (init_memory_spec (msize c) n (fun b o => live c b o) (construct c) (msize c)) as (m & M1 & M2 & M3); try assumption; try reflexivity.
  - intros b off Ha. destruct (construct_spec c Hg b off Ha) as (b' & A & B & C & D). exists b'. auto.
  - intros b off b' S L. eapply live_local; eassumption.
  - exists m. split; [exact M1|]. intros j. split.
    + intros Hj. destruct (N.lt_ge_cases j (n * msize c)) as [H|H]; [exact H|]. exfalso. apply Hj, M3, H.
    + intros Hj. assert (Hm : 0 < msize c) by nia. pose proof (N.div_mod j (msize c) ltac:(lia)) as Hd. pose proof (N.mod_lt j (msize c) ltac:(lia)) as Hr.
      rewrite Hd, N.mul_comm. eapply (live_alloc c (proj1 Hg) m _ (M2 (j / msize c) _) _ Hr).
      Unshelve. apply N.div_lt_upper_bound; lia.
Qed.
Lemma for_up_stop {A} n f (b : A) e : 0 < n -> f 0 b = Fail e -> for_up n f b = Fail e.
Proof. intros Hn H. unfold for_up. destruct (N.to_nat n) eqn:E; [lia|]. cbn [for_from]. rewrite H. reflexivity. Qed.
