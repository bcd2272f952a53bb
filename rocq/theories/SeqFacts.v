(** Sequence operations: push and resize act on the sequence as on a list. *)
From Verif Require Import Base Types TypeBuild TypeSpec Mem MemSpec TyInd Layout CompatFacts2 MemEqns MemFacts
  ConstructFacts CopyFacts DestroyFacts CompareFacts MoveFacts Ops OpsSpec.

(** [n] live slots *)
Definition live_slots (T : ty) (n : N) (m : block) : Prop := forall i, i < n -> live T m (i * msize T).
Definition fits (T : ty) (n : N) : Prop := n * msize T < 4294967296 /\ n <= 2147483648.

Lemma init_memory_default T n : good T -> msize T < 4294967296 -> n * msize T < 4294967296 ->
  exists m, init_memory (construct T) (wrap32 (msize T)) n = Ok m /\ live_slots T n m /\
    (forall i, i < n -> read T m (i * msize T) = Ok (default_value T)).
Proof.
  intros Hg H1 H2. rewrite (wrap32_small _ H1).
  destruct (init_memory_spec (msize T) n (fun b o => live T b o /\ read T b o = Ok (default_value T)) (construct T) (msize T)) as (m & M1 & M2 & M3).
  - intros b off Ha. destruct (construct_spec T Hg b off Ha) as (b' & A & B & C & D). exists b'. auto.
  - intros b off b' S [L R]. split; [eapply live_local; eassumption|]. rewrite (read_local T _ _ _ _ Hg S). exact R.
  - reflexivity.
  - exact H1.
  - exact H2.
  - exists m. split; [exact M1|]. split; intros i Hi; apply M2, Hi.
Qed.

Section Seq.
  Variable fc : prim -> prim -> list N -> list N.

  Lemma seq_free_ok c cap m : good c -> msize c < 4294967296 -> fits c cap -> live_slots c cap m ->
    exists m', seq_free c cap m = Ok m'.
  Proof.
    intros Hg H32 [Hf1 Hf2] Hl. unfold seq_free. destruct ((cap =? 0) || negb (is_constructed_type c)); [eauto|].
    destruct (buffer_dlist c cap m Hg (dlist_spec c Hg) Hf2 H32 Hf1 Hl) as (l & E & O & _).
    rewrite E. cbn [bind]. destruct (kill_all_spec _ _ _ _ O) as (b' & E' & _). eauto.
  Qed.

  Lemma move_content_spec c cap size n m target :
    good c -> copy_ok c -> movable c -> msize c < 4294967296 -> fits c cap -> size <= cap -> size <= n ->
    live_slots c cap m -> live_slots c n target ->
    exists m', seq_move_content fc c cap size m target = Ok m' /\ live_slots c n m' /\
      (forall i, i < size -> read c m' (i * msize c) = read c m (i * msize c)) /\
      (forall i, size <= i -> i < n -> read c m' (i * msize c) = read c target (i * msize c)).
  Proof.
    intros Hg Hc Hmv H32 [Hf1 Hf2] Hs Hn Hm Ht. unfold seq_move_content. rewrite (wrap32_small _ H32).
    destruct (cap =? 0) eqn:E0.
    { apply N.eqb_eq in E0. subst cap. exists target. split; [reflexivity|]. split; [exact Ht|]. split; [intros i Hi; lia|reflexivity]. }
    assert (Hout : forall m', agree_out target m' 0 (size * msize c) ->
       (forall i, i < size -> live c m' (i * msize c) /\ read c m' (i * msize c) = read c m (i * msize c)) ->
       live_slots c n m' /\ (forall i, i < size -> read c m' (i * msize c) = read c m (i * msize c)) /\
       (forall i, size <= i -> i < n -> read c m' (i * msize c) = read c target (i * msize c))).
    { intros m' A H. assert (S : forall i, size <= i -> same target (i * msize c) m' (i * msize c) (msize c)).
      { intros i Hi. eapply agree_out_same; [exact A|]. right. nia. }
      split; [|split].
      - intros i Hi. destruct (N.lt_ge_cases i size) as [Hl|Hl]; [apply H, Hl|].
        eapply live_local; [exact Hg|apply S, Hl|apply Ht, Hi].
      - intros i Hi. apply H, Hi.
      - intros i H1 H2. apply read_local; [exact Hg|apply S, H1]. }
    destruct (is_constructed_type c) eqn:Ec.
    - destruct (for_up_slots 0 (msize c)
        (fun i d => move fc c m (wrap32 (i * msize c)) d (wrap32 (i * msize c)) true)
        (fun i d => live c d (i * msize c))
        (fun i d => live c d (i * msize c) /\ read c d (i * msize c) = read c m (i * msize c)) size target)
        as (m' & H1 & H2 & H3).
      + intros i d Hi Hl. rewrite wrap32_small by nia.
        destruct (move_spec fc c Hg Hc m (i * msize c) d (i * msize c) true) as (d' & E & A & L & R); [auto|apply Hm; lia| |].
        { split; [apply live_alloc; [apply Hg|exact Hl]|]. intros _. left. exact Hl. }
        exists d'. split; [exact E|]. split; [exact A|]. auto.
      + intros i d d' Hi S. apply live_local; assumption.
      + intros i d d' Hi S [L R]. change (0 + i * msize c) with (i * msize c) in S. split; [eapply live_local; eassumption|].
        rewrite (read_local c _ _ _ _ Hg S). exact R.
      + intros i Hi. apply Ht. lia.
      + exists m'. split; [exact H1|]. apply Hout; assumption.
    - destruct (constructed_prim _ Ec) as [p ->]. rewrite (wrap32_small (size * _)) by nia.
      destruct (memcpy_spec target 0 m 0 (size * msize (TPrim p))) as (m' & H1 & H2 & H3).
      + apply (slots_bytes m 0 (prim_size p) size). intros i Hi. apply Hm. lia.
      + intros i Hi. change (0 + i) with i. cbn [msize] in *.
        assert (Hk : 0 < prim_size p) by (destruct p; reflexivity).
        pose proof (N.div_mod i (prim_size p) ltac:(lia)) as E1. pose proof (N.mod_lt i (prim_size p) ltac:(lia)) as E2.
        assert (Hq : i / prim_size p < size) by (apply N.div_lt_upper_bound; lia).
        set (q := i / prim_size p) in *. set (r := i mod prim_size p) in *. clearbody q r.
        destruct (Ht q ltac:(lia) r E2) as (x & Hx & _). cbn [msize] in Hx.
        replace (q * prim_size p + r) with i in Hx by lia. congruence.
      + exists m'. split; [exact H1|]. apply Hout; [exact H2|]. intros i Hi.
        assert (S : same m (i * msize (TPrim p)) m' (i * msize (TPrim p)) (msize (TPrim p))).
        { intros j Hj. specialize (H3 (i * msize (TPrim p) + j) ltac:(nia)). exact H3. }
        split; [eapply live_local; [exact Hg|exact S|apply Hm; lia]|apply read_local; assumption].
  Qed.

  Lemma realloc_spec c cap size m desired bounds :
    let nc := if bounds =? 0 then desired else N.min desired bounds in
    good c -> copy_ok c -> movable c -> msize c < 4294967296 -> fits c cap -> fits c nc ->
    size <= cap -> size <= nc -> live_slots c cap m ->
    exists m', seq_realloc fc c cap size m desired bounds = Ok (nc, m') /\ live_slots c nc m' /\
      (forall i, i < size -> read c m' (i * msize c) = read c m (i * msize c)) /\
      (forall i, size <= i -> i < nc -> read c m' (i * msize c) = Ok (default_value c)).
  Proof.
    intros nc Hg Hc Hmv H32 Hf Hfn Hs Hsn Hm. unfold seq_realloc. fold nc.
    rewrite (wrap32_small nc) by (destruct Hfn; lia).
    destruct (init_memory_default c nc Hg H32 (proj1 Hfn)) as (m0 & E0 & L0 & D0). rewrite E0. cbn [bind].
    destruct (move_content_spec c cap size nc m m0 Hg Hc Hmv H32 Hf Hs Hsn Hm L0) as (m1 & E1 & L1 & R1 & D1).
    rewrite E1. cbn [bind]. destruct (seq_free_ok c cap m Hg H32 Hf Hm) as (m2 & E2). rewrite E2. cbn [bind].
    exists m1. split; [reflexivity|]. split; [exact L1|]. split; [exact R1|].
    intros i H1 H2. rewrite D1 by assumption. apply D0, H2.
  Qed.

  Lemma push_spec c cap size m src soff bounds w :
    good c -> copy_ok c -> movable c -> msize c < 4294967296 -> fits c cap ->
    fits c (if bounds =? 0 then 2 * (size + 1) else bounds) ->
    (bounds = 0 \/ cap <= bounds) -> (bounds = 0 \/ size < bounds) -> size <= cap -> live_slots c cap m ->
    live c src soff -> selected c src soff -> read c src soff = Ok w ->
    exists cap' m', seq_push fc c cap size m src soff bounds = Ok (cap', size + 1, m') /\
      live_slots c cap' m' /\ size + 1 <= cap' /\ fits c cap' /\ (bounds = 0 \/ cap' <= bounds) /\
      (cap' = cap \/ cap' <= 2 * (size + 1)) /\
      (forall i, i < size -> read c m' (i * msize c) = read c m (i * msize c)) /\
      read c m' (size * msize c) = Ok w.
  Proof.
    intros Hg Hc Hmv H32 Hf Hf2 Hb Hb' Hs Hm Hl Hsel Hr. unfold seq_push.
    rewrite (wrap32_small _ H32). rewrite (wrap32_small (size + 1)) by (destruct Hf; lia).
    assert (Hre : exists cap' m', (if (cap =? 0) || (size =? cap)
             then seq_realloc fc c cap size m (if 0 <? cap then wrap32 (cap * 2) else 1) bounds
             else Ok (cap, m)) = Ok (cap', m') /\ live_slots c cap' m' /\ size < cap' /\ fits c cap' /\
             (bounds = 0 \/ cap' <= bounds) /\ (cap' = cap \/ cap' <= 2 * (size + 1)) /\
             (forall i, i < size -> read c m' (i * msize c) = read c m (i * msize c))).
    { destruct ((cap =? 0) || (size =? cap)) eqn:Ef.
      - set (desired := if 0 <? cap then wrap32 (cap * 2) else 1).
        assert (Hsc : size = cap).
        { apply orb_true_iff in Ef as [Ef|Ef]; [apply N.eqb_eq in Ef; lia|apply N.eqb_eq in Ef; exact Ef]. }
        assert (Hd : desired = if 0 <? cap then cap * 2 else 1).
        { unfold desired. destruct (0 <? cap); [|reflexivity]. apply wrap32_small. destruct Hf2 as [_ Hf2].
          destruct (bounds =? 0) eqn:E; [lia|]. apply N.eqb_neq in E. lia. }
        set (nc := if bounds =? 0 then desired else N.min desired bounds).
        assert (Hnc : size < nc).
        { assert (size < desired) by (rewrite Hd; destruct (0 <? cap) eqn:E; [apply N.ltb_lt in E|apply N.ltb_ge in E]; lia).
          unfold nc. destruct (bounds =? 0) eqn:E; [assumption|]. apply N.eqb_neq in E. lia. }
        assert (Hncd : nc <= desired) by (unfold nc; destruct (bounds =? 0); lia).
        assert (Hdle : desired <= 2 * (size + 1)) by (rewrite Hd; destruct (0 <? cap); lia).
        assert (Hfn : fits c nc).
        { assert (nc <= if bounds =? 0 then 2 * (size + 1) else bounds) by (unfold nc; destruct (bounds =? 0); lia).
          destruct Hf2 as [F1 F2]. split; [|lia]. revert F1 H. generalize (if bounds =? 0 then 2 * (size + 1) else bounds). nia. }
        destruct (realloc_spec c cap size m desired bounds Hg Hc Hmv H32 Hf) as (m' & E & L & R & _); fold nc; try assumption; try lia.
        exists nc, m'. fold nc in E. split; [exact E|]. split; [exact L|]. split; [exact Hnc|].
        split; [exact Hfn|].
        split; [unfold nc; destruct (bounds =? 0) eqn:E'; [left; apply N.eqb_eq, E'|right; lia]|].
        split; [right; lia|exact R].
      - apply orb_false_iff in Ef as [Ef1 Ef2]. apply N.eqb_neq in Ef1, Ef2.
        exists cap, m. split; [reflexivity|]. split; [exact Hm|]. split; [lia|]. split; [exact Hf|]. split; [exact Hb|]. split; [left; reflexivity|reflexivity]. }
    destruct Hre as (cap' & m' & E & L & Hlt & Hf' & Hbd & Hcap & R). rewrite E. cbn [bind].
    rewrite (wrap32_small (size * _)) by (destruct Hf'; nia).
    destruct (copy_spec fc c Hg Hc src soff m' (size * msize c) Hl Hsel) as (m1 & E1 & A1 & L1 & R1).
    { apply live_alloc; [apply Hg|apply L; lia]. }
    rewrite E1. cbn [bind]. exists cap', m1. split; [reflexivity|].
    assert (S : forall i, i <> size -> same m' (i * msize c) m1 (i * msize c) (msize c)).
    { intros i Hi. eapply agree_out_same; [exact A1|]. nia. }
    split.
    { intros i Hi. destruct (N.eq_dec i size) as [->|Hn]; [exact L1|]. eapply live_local; [exact Hg|apply S, Hn|apply L, Hi]. }
    split; [lia|]. split; [exact Hf'|]. split; [exact Hbd|]. split; [exact Hcap|]. split.
    - intros i Hi. rewrite (read_local c _ _ _ _ Hg (S i ltac:(lia))). apply R, Hi.
    - congruence.
  Qed.

  Lemma resize_spec c cap size m n bounds :
    good c -> copy_ok c -> movable c -> msize c < 4294967296 -> fits c cap -> fits c n ->
    (bounds = 0 \/ cap <= bounds) -> (bounds = 0 \/ n <= bounds) -> size <= cap -> live_slots c cap m ->
    exists cap' m', seq_resize fc c cap size m n bounds = Ok (cap', N.max size n, m') /\
      live_slots c cap' m' /\ N.max size n <= cap' /\ fits c cap' /\ (bounds = 0 \/ cap' <= bounds) /\
      (cap' = cap \/ cap' = N.max size n) /\
      (forall i, i < size -> read c m' (i * msize c) = read c m (i * msize c)) /\
      (forall i, size <= i -> i < n -> read c m' (i * msize c) = Ok (default_value c)).
  Proof.
    intros Hg Hc Hmv H32 Hf Hfn Hb Hbn Hs Hm. unfold seq_resize.
    destruct (n <=? size) eqn:En.
    { apply N.leb_le in En. exists cap, m. rewrite (N.max_l size n) by exact En. split; [reflexivity|]. split; [exact Hm|].
      split; [exact Hs|]. split; [exact Hf|]. split; [exact Hb|]. split; [left; reflexivity|]. split; [reflexivity|]. intros i H1 H2. lia. }
    apply N.leb_gt in En. rewrite (N.max_r size n) by lia.
    assert (Enc : (if bounds =? 0 then n else N.min n bounds) = n).
    { destruct (bounds =? 0) eqn:E; [reflexivity|]. apply N.eqb_neq in E. lia. }
    pose proof (realloc_spec c cap size m n bounds Hg Hc Hmv H32 Hf) as Hre. cbv zeta in Hre. rewrite Enc in Hre.
    destruct Hre as (m' & E & L & R & D); try assumption; try lia.
    rewrite E. cbn [bind]. rewrite (wrap32_small _ H32), (wrap32_small n) by (destruct Hfn; lia).
    rewrite for_from_mfold.
    assert (HI : forall x, In x (nums (N.to_nat (n - size)) size) <-> size <= x < n) by (intros x; rewrite nums_in; lia).
    destruct (fold_slots' (fun j => 0 + j * msize c) (fun _ => msize c) (fun i d => construct c d (i * msize c))
       (fun i d => alloc d (i * msize c) (msize c))
       (fun i d => live c d (i * msize c) /\ read c d (i * msize c) = Ok (default_value c))
       (nums (N.to_nat (n - size)) size) m') as (m1 & H1 & H2 & H3).
    - apply nums_slots.
    - intros i d Hi Ha. destruct (construct_spec c Hg d (i * msize c) Ha) as (d' & A & B & C & D'). exists d'. auto.
    - intros i d d' Hi S. apply alloc_same, S.
    - intros i d d' Hi S [L' R']. change (0 + i * msize c) with (i * msize c) in S. split; [eapply live_local; eassumption|].
      rewrite (read_local c _ _ _ _ Hg S). exact R'.
    - intros i Hi. apply HI in Hi. apply live_alloc; [apply Hg|apply L; lia].
    - rewrite H1. cbn [bind]. exists n, m1. split; [reflexivity|].
      assert (S : forall i, i < size -> same m' (i * msize c) m1 (i * msize c) (msize c)).
      { intros i Hi j Hj. apply H2. intros x Hx. apply HI in Hx. cbn. nia. }
      split.
      { intros i Hi. destruct (N.lt_ge_cases i size) as [Hl|Hl]; [eapply live_local; [exact Hg|apply S, Hl|apply L, Hi]|].
        apply H3, HI. lia. }
      split; [lia|]. split; [exact Hfn|]. split; [exact Hbn|]. split; [right; reflexivity|]. split.
      + intros i Hi. rewrite (read_local c _ _ _ _ Hg (S i Hi)). apply R, Hi.
      + intros i Hi1 Hi2. apply H3, HI. lia.
  Qed.
End Seq.
