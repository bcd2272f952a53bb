(** Map instances refine finite maps. *)
From Verif Require Import Base Types TypeBuild TypeSpec Mem MemSpec TyInd Layout CompatFacts2 MemEqns MemFacts
  ConstructFacts CopyFacts DestroyFacts CompareFacts MoveFacts Hash HashSpec HashFacts MapOps MapSpec OpsSpec Ops SeqFacts CollectFacts.

Section Map.
  Variable fc : prim -> prim -> list N -> list N.
  Variable strhash : skind -> list N -> N.

  (** ** Binary search *)
  Lemma find_loop_spec k bs m h hs size : 0 < bs ->
    (forall i, i < size -> hash strhash k m (i * bs) = Ok (hs i)) ->
    (forall i j, i < j -> j < size -> hs i < hs j) ->
    forall fuel s e, s < e -> e <= size -> (N.to_nat (e - s) < fuel)%nat -> (s = 0 \/ hs s < h) -> (e = size \/ h < hs e) ->
    exists p found, find_loop strhash fuel k bs m h s e = Ok (p, found) /\
      p <= size /\ (forall i, i < p -> hs i < h) /\
      (found = true -> p < size /\ hs p = h) /\ (found = false -> forall i, p <= i -> i < size -> h < hs i).
  Proof.
    intros Hbs Hh Hinc. induction fuel as [|fuel IH]; intros s e Hse He Hf Hs Hlo; [lia|]. cbn [find_loop]. cbv zeta.
    set (c := (s + e) / 2). assert (Hc : s <= c /\ c < e).
    { unfold c. split; [apply N.div_le_lower_bound; lia|apply N.div_lt_upper_bound; lia]. }
    assert (Hc2 : c = s -> e = s + 1). { intros Ec. unfold c in Ec. pose proof (N.div_mod (s + e) 2 ltac:(lia)). pose proof (N.mod_lt (s + e) 2 ltac:(lia)). lia. }
    clearbody c. rewrite (Hh c) by lia. cbn [bind].
    assert (Hbelow : forall x, x < size -> hs x < h -> forall i, i < x -> hs i < h).
    { intros x Hx Hlt i Hi. pose proof (Hinc i x Hi Hx). lia. }
    destruct (c =? s) eqn:Ecs.
    - apply N.eqb_eq in Ecs. subst c. specialize (Hc2 eq_refl).
      assert (Hb : forall i, i < s -> hs i < h).
      { intros i Hi. destruct Hs as [->|Hs]; [lia|]. apply (Hbelow s); [lia|exact Hs|exact Hi]. }
      destruct (h =? hs s) eqn:E1; [apply N.eqb_eq in E1|apply N.eqb_neq in E1; destruct (h <? hs s) eqn:E2; [apply N.ltb_lt in E2|apply N.ltb_ge in E2]].
      + exists s, true. split; [reflexivity|]. split; [lia|]. split; [exact Hb|]. split; [intros _; split; [lia|congruence]|discriminate].
      + exists s, false. split; [reflexivity|]. split; [lia|]. split; [exact Hb|]. split; [discriminate|].
        intros _ i Hi1 Hi2. destruct (N.eq_dec i s) as [->|Hn]; [exact E2|]. pose proof (Hinc s i ltac:(lia) Hi2). lia.
      + exists e, false. split; [reflexivity|]. split; [lia|].
        split. { intros i Hi. destruct (N.eq_dec i s) as [->|Hn]; [lia|]. apply Hb. lia. }
        split; [discriminate|]. intros _ i Hi1 Hi2. destruct Hlo as [->|Hlo]; [lia|].
        destruct (N.eq_dec i e) as [->|Hn]; [exact Hlo|]. pose proof (Hinc e i ltac:(lia) Hi2). lia.
    - apply N.eqb_neq in Ecs. destruct (h =? hs c) eqn:E1.
      + apply N.eqb_eq in E1. exists c, true. split; [reflexivity|]. split; [lia|].
        split; [intros i Hi; pose proof (Hinc i c Hi ltac:(lia)); lia|]. split; [intros _; split; [lia|congruence]|discriminate].
      + apply N.eqb_neq in E1. destruct (hs c <? h) eqn:E2; [apply N.ltb_lt in E2|apply N.ltb_ge in E2].
        * replace (c * bs =? s * bs) with false by (symmetry; apply N.eqb_neq; nia).
          apply IH; lia.
        * apply IH; lia.
  Qed.
  Lemma find_place_spec k bs m h hs size src soff : 0 < bs ->
    (forall i, i < size -> hash strhash k m (i * bs) = Ok (hs i)) ->
    (forall i j, i < j -> j < size -> hs i < hs j) -> hash strhash k src soff = Ok h ->
    exists p found, find_place strhash k bs size m src soff = Ok (p, found) /\
      p <= size /\ (forall i, i < p -> hs i < h) /\
      (found = true -> p < size /\ hs p = h) /\ (found = false -> forall i, p <= i -> i < size -> h < hs i).
  Proof.
    intros Hbs Hh Hinc Hs. unfold find_place. destruct (size =? 0) eqn:E.
    - apply N.eqb_eq in E. subst size. exists 0, false. split; [reflexivity|]. split; [lia|]. split; [intros i Hi; lia|]. split; [discriminate|]. intros _ i H1 H2. lia.
    - apply N.eqb_neq in E. rewrite Hs. cbn [bind]. apply (find_loop_spec k bs m h hs size Hbs Hh Hinc); lia.
  Qed.
  Lemma key_index_self k bs m hs cap size i : 0 < bs -> cap <> 0 ->
    (forall i, i < size -> hash strhash k m (i * bs) = Ok (hs i)) ->
    (forall i j, i < j -> j < size -> hs i < hs j) -> i < size -> key_index strhash k bs cap size m m (i * bs) = Ok i.
  Proof.
    intros Hbs Hcap Hh Hinc Hi. unfold key_index. replace (cap =? 0) with false by (symmetry; apply N.eqb_neq; exact Hcap).
    destruct (find_place_spec k bs m (hs i) hs size m (i * bs) Hbs Hh Hinc (Hh i Hi)) as (p & f & E & Hp & Hlt & Ht & Hf).
    rewrite E. cbn [bind fst snd].
    assert (H1 : p <= i). { destruct (N.le_gt_cases p i) as [H|H]; [exact H|]. specialize (Hlt i H). lia. }
    destruct f.
    - destruct (Ht eq_refl) as [H2 H3]. destruct (N.eq_dec p i) as [->|Hn]; [reflexivity|]. pose proof (Hinc p i ltac:(lia) Hi). lia.
    - specialize (Hf eq_refl i H1 Hi). lia.
  Qed.

  (** ** Ordered lists of entries *)
  Section Ordered.
    Variable k : ty.
    Notation kh := (khash strhash k).
    Notation dflt := (VNode []).
    Definition hs_of (l : list value) (i : N) : N := kh (nth (N.to_nat i) l dflt).
    Lemma ordered_inc l : ordered strhash k l = true -> forall i j, i < j -> j < N.of_nat (List.length l) -> hs_of l i < hs_of l j.
    Proof.
      intros Ho. assert (H : forall i j, (i < j)%nat -> (j < List.length l)%nat -> kh (nth i l dflt) < kh (nth j l dflt)).
      { induction l as [|e r IH]; intros i j Hij Hj; [cbn in Hj; lia|]. cbn [ordered] in Ho.
        destruct r as [|e' r]; [cbn in Hj; lia|]. apply andb_true_iff in Ho as [H1 H2]. apply N.ltb_lt in H1. specialize (IH H2).
        destruct j as [|j]; [lia|]. destruct i as [|i].
        - destruct j as [|j]; [exact H1|]. cbn in Hj. specialize (IH 0%nat (S j) ltac:(lia) ltac:(cbn; lia)). cbn [nth] in *. lia.
        - cbn [nth]. apply IH; [lia|cbn in *; lia]. }
      intros i j Hij Hj. apply H; lia.
    Qed.
    Lemma lower_bound_unique l h p : (p <= List.length l)%nat ->
      (forall i, i < N.of_nat p -> hs_of l i < h) -> (forall i, N.of_nat p <= i -> i < N.of_nat (List.length l) -> h <= hs_of l i) ->
      lower_bound strhash k h l = p.
    Proof.
      revert p. induction l as [|e r IH]; intros p Hp H1 H2; [cbn in *; lia|]. cbn [lower_bound]. destruct p as [|p].
      - specialize (H2 0 ltac:(lia) ltac:(cbn; lia)). unfold hs_of in H2. cbn in H2. apply N.ltb_ge in H2. rewrite H2. reflexivity.
      - pose proof (H1 0 ltac:(lia)) as Q. unfold hs_of in Q. cbn in Q. apply N.ltb_lt in Q. rewrite Q. f_equal. apply IH; [cbn in Hp; lia| |].
        + intros i Hi. specialize (H1 (i + 1) ltac:(lia)). unfold hs_of in *. rewrite N2Nat.inj_add in H1. change (N.to_nat 1) with 1%nat in H1.
          rewrite Nat.add_1_r in H1. exact H1.
        + intros i Hi1 Hi2. specialize (H2 (i + 1) ltac:(lia) ltac:(cbn [List.length]; lia)). unfold hs_of in *. rewrite N2Nat.inj_add in H2.
          change (N.to_nat 1) with 1%nat in H2. rewrite Nat.add_1_r in H2. exact H2.
    Qed.
    Lemma collides_false kv l : collides strhash k kv l = false -> forall i, i < N.of_nat (List.length l) -> hs_of l i <> vhash strhash k kv.
    Proof.
      intros H i Hi E. rewrite <- not_true_iff_false in H. apply H. apply existsb_exists. exists (nth (N.to_nat i) l dflt).
      split; [apply nth_In; lia|]. apply N.eqb_eq, E.
    Qed.
  End Ordered.

  Lemma collect_intro n f : forall i l, List.length l = n -> (forall k x, nth_error l k = Some x -> f (i + N.of_nat k) = Ok x) -> collect n i f = Ok l.
  Proof.
    induction n as [|n IH]; intros i l Hl H; destruct l as [|x r]; try discriminate Hl; [reflexivity|]. cbn [collect].
    pose proof (H 0%nat x eq_refl) as H0. rewrite N.add_0_r in H0. rewrite H0. cbn [bind].
    rewrite (IH (i + 1) r); [reflexivity|cbn in Hl; congruence|]. intros k y Hy. specialize (H (S k) y Hy).
    replace (i + 1 + N.of_nat k) with (i + N.of_nat (S k)) by lia. exact H.
  Qed.
  Lemma nth_insert_at {A} p (x : A) l i : (p <= List.length l)%nat -> nth_error (insert_at p x l) i =
    if (i <? p)%nat then nth_error l i else if (i =? p)%nat then Some x else nth_error l (i - 1).
  Proof.
    intros Hp. unfold insert_at. assert (Hf : List.length (firstn p l) = p) by (rewrite firstn_length; lia).
    destruct (i <? p)%nat eqn:E1; [apply Nat.ltb_lt in E1|apply Nat.ltb_ge in E1].
    - rewrite nth_error_app1 by lia. clear - E1. revert i l E1. induction p as [|p IH]; intros i l E1; [lia|]. destruct l, i; try reflexivity. cbn [firstn nth_error]. apply IH. lia.
    - rewrite nth_error_app2 by lia. rewrite Hf. destruct (i =? p)%nat eqn:E2.
      + apply Nat.eqb_eq in E2. subst i. rewrite Nat.sub_diag. reflexivity.
      + apply Nat.eqb_neq in E2. replace (i - p)%nat with (S (i - p - 1)) by lia. cbn [nth_error].
        replace (i - 1)%nat with (p + (i - p - 1))%nat by lia. generalize (i - p - 1)%nat. clear. intros j. revert l.
        induction p as [|p IH]; intros l; [reflexivity|]. destruct l as [|y r]; [cbn; destruct j; destruct (p + _)%nat; reflexivity|]. cbn [skipn Nat.add nth_error]. apply IH.
  Qed.
  Lemma insert_at_length {A} p (x : A) l : (p <= List.length l)%nat -> List.length (insert_at p x l) = S (List.length l).
  Proof. intros Hp. unfold insert_at. rewrite app_length. cbn [List.length]. rewrite firstn_length, skipn_length. lia. Qed.

  (** ** Memory *)
  Section Buffer.
    Variables k v : ty.
    Let T := TPair k v.
    Hypothesis Hgk : good k.
    Hypothesis Hgv : good v.
    Hypothesis Hck : copy_ok k.
    Hypothesis Hcv : copy_ok v.
    Hypothesis Hmk : movable k.
    Hypothesis Hmv : movable v.
    Hypothesis Hhk : hashable k.
    Hypothesis H32 : msize T < 4294967296.
    Hypothesis Hpos : 0 < msize T.

    Lemma good_T : good T.
    Proof. destruct Hgk, Hgv. split; [split; assumption|split; assumption]. Qed.
    Lemma copy_T : copy_ok T.
    Proof. split; assumption. Qed.
    Lemma mov_T : movable T.
    Proof. split; assumption. Qed.
    Lemma bs_T : map_bs k v = msize T.
    Proof. apply wrap32_small, H32. Qed.
    Lemma flat_T : is_constructed_type k || is_constructed_type v = false -> forall b off, live T b off -> bytes_at b off (msize T).
    Proof.
      intros E b off L. apply orb_false_iff in E as [E1 E2]. destruct (constructed_prim _ E1) as [p Ep], (constructed_prim _ E2) as [q Eq].
      unfold T in *. rewrite Ep, Eq in *. apply pair_bytes, L.
    Qed.

    Lemma read_entry b off e : read T b off = Ok e -> exists a c, e = VNode [a; c] /\ read k b off = Ok a /\ read v b (off + msize k) = Ok c.
    Proof. unfold T. cbn [read]. intros E. apply bind_ok in E as (a & Ra & E). apply bind_ok in E as (c & Rc & E). injection E as <-. eauto. Qed.
    Lemma buffer_hash cap size m l : size <= cap -> live_slots T cap m -> collect (N.to_nat size) 0 (fun i => read T m (i * msize T)) = Ok l ->
      forall i, i < size -> hash strhash k m (i * msize T) = Ok (hs_of k l i).
    Proof.
      intros Hs Hm El i Hi. destruct (collect_nth _ _ _ _ El) as [Hlen Hnth]. destruct (Hnth (N.to_nat i) ltac:(lia)) as (e & He & Re).
      rewrite N2Nat.id in Re. destruct (read_entry _ _ _ Re) as (a & c & -> & Ra & _).
      destruct (Hm i ltac:(lia)) as [Lk _]. rewrite (hash_spec strhash k Hgk Hhk _ _ _ Lk Ra).
      unfold hs_of. rewrite (nth_error_nth _ _ (VNode []) He). reflexivity.
    Qed.

    Lemma buffer_alloc cap m : live_slots T cap m -> alloc m 0 (cap * msize T).
    Proof.
      intros Hm i Hi. pose proof (N.div_mod i (msize T) ltac:(lia)) as E1. pose proof (N.mod_lt i (msize T) ltac:(lia)) as E2.
      assert (Hq : i / msize T < cap) by (apply N.div_lt_upper_bound; lia).
      set (q := i / msize T) in *. set (r := i mod msize T) in *. clearbody q r.
      pose proof (live_alloc T (proj1 good_T) _ _ (Hm q Hq) r E2) as Q. replace (q * msize T + r) with (0 + i) in Q by lia. exact Q.
    Qed.

    (** std::memcpy of [n] elements, possibly within the same buffer *)
    Lemma memcpy_slots cap cap2 m target n so to : is_constructed_type k || is_constructed_type v = false ->
      live_slots T cap m -> live_slots T cap2 target -> so + n <= cap -> to + n <= cap2 ->
      exists m', memcpy target (to * msize T) m (so * msize T) (n * msize T) = Ok m' /\ live_slots T cap2 m' /\
        (forall i, i < n -> read T m' ((to + i) * msize T) = read T m ((so + i) * msize T)) /\
        (forall i, ~ (to <= i < to + n) -> read T m' (i * msize T) = read T target (i * msize T)).
    Proof.
      intros Ec Hm Ht Hn Hn2. destruct (memcpy_spec target (to * msize T) m (so * msize T) (n * msize T)) as (m' & H1 & H2 & H3).
      { apply slots_bytes. intros i Hi. replace (so * msize T + i * msize T) with ((so + i) * msize T) by lia. apply flat_T; [exact Ec|]. apply Hm. lia. }
      { intros i Hi. pose proof (buffer_alloc _ _ Ht (to * msize T + i) ltac:(nia)) as Q. exact Q. }
      assert (Sin : forall i, i < n -> same m ((so + i) * msize T) m' ((to + i) * msize T) (msize T)).
      { intros i Hi j Hj. specialize (H3 (i * msize T + j) ltac:(nia)). 
        replace ((to + i) * msize T + j) with (to * msize T + (i * msize T + j)) by lia.
        replace ((so + i) * msize T + j) with (so * msize T + (i * msize T + j)) by lia. exact H3. }
      assert (Sout : forall i, ~ (to <= i < to + n) -> same target (i * msize T) m' (i * msize T) (msize T)).
      { intros i Hi. eapply agree_out_same; [exact H2|]. nia. }
      exists m'. split; [exact H1|]. split; [|split].
      - intros i Hi. destruct (N.lt_ge_cases i to) as [Hl|Hl]; [eapply live_local; [exact good_T|apply Sout; lia|apply Ht, Hi]|].
        destruct (N.lt_ge_cases i (to + n)) as [Hl2|Hl2]; [|eapply live_local; [exact good_T|apply Sout; lia|apply Ht, Hi]].
        replace i with (to + (i - to)) by lia. eapply live_local; [exact good_T|apply Sin; lia|apply Hm; lia].
      - intros i Hi. apply read_local; [exact good_T|apply Sin, Hi].
      - intros i Hi. apply read_local; [exact good_T|apply Sout, Hi].
    Qed.

    Lemma move_all_spec cap size n m target l :
      fits T cap -> size <= cap -> size <= n -> live_slots T cap m -> live_slots T n target ->
      collect (N.to_nat size) 0 (fun i => read T m (i * msize T)) = Ok l -> ordered strhash k l = true -> (cap <> 0 -> 0 < size) ->
      exists m', map_move_all fc strhash k v cap size m target = Ok m' /\ live_slots T n m' /\
        (forall i, i < size -> read T m' (i * msize T) = read T m (i * msize T)).
    Proof.
      intros Hf Hs Hn Hm Ht El Ho Hne. unfold map_move_all. rewrite bs_T. cbv zeta.
      destruct (cap =? 0) eqn:E0.
      { apply N.eqb_eq in E0. subst cap. exists target. split; [reflexivity|]. split; [exact Ht|]. intros i Hi; lia. }
      destruct (is_constructed_type k || is_constructed_type v) eqn:Ec.
      - destruct (move_content_spec fc T cap size n m target good_T copy_T mov_T H32 Hf Hs Hn Hm Ht) as (m' & E & L & R & _).
        unfold seq_move_content in E. rewrite E0 in E. replace (is_constructed_type T) with true in E by reflexivity.
        rewrite (wrap32_small _ H32) in E. exists m'. auto.
      - apply N.eqb_neq in E0. specialize (Hne E0). destruct (collect_nth _ _ _ _ El) as [Hlen _].
        pose proof (key_index_self k (msize T) m (hs_of k l) cap size 0 Hpos E0 (buffer_hash cap size m l Hs Hm El)) as Hk.
        rewrite N.mul_0_l in Hk. rewrite Hk; [|intros i j Hij Hj; apply ordered_inc; [exact Ho|exact Hij|lia]|lia]. cbn [bind]. rewrite N.sub_0_r.
        destruct (memcpy_slots cap n m target size 0 0 Ec Hm Ht ltac:(lia) ltac:(lia)) as (m' & E & L & R & _).
        rewrite !N.mul_0_l in E. exists m'. split; [exact E|]. split; [exact L|]. exact R.
    Qed.
    Lemma map_free_ok cap m : fits T cap -> live_slots T cap m -> exists m', map_free k v cap m = Ok m'.
    Proof.
      intros Hf Hm. destruct (seq_free_ok T cap m good_T H32 Hf Hm) as (m' & E). exists m'. unfold map_free. rewrite bs_T.
      unfold seq_free in E. replace (is_constructed_type T) with true in E by reflexivity. cbn [negb] in E. rewrite orb_false_r in E.
      rewrite (wrap32_small _ H32) in E. exact E.
    Qed.
    Lemma map_realloc_spec cap size m desired bounds l :
      let nc := if bounds =? 0 then desired else N.min desired bounds in
      fits T cap -> fits T nc -> size <= cap -> size <= nc -> live_slots T cap m ->
      collect (N.to_nat size) 0 (fun i => read T m (i * msize T)) = Ok l -> ordered strhash k l = true -> (cap <> 0 -> 0 < size) ->
      exists m', map_realloc fc strhash k v cap size m desired bounds = Ok (nc, m') /\ live_slots T nc m' /\
        (forall i, i < size -> read T m' (i * msize T) = read T m (i * msize T)).
    Proof.
      intros nc Hf Hfn Hs Hsn Hm El Ho Hne. unfold map_realloc. fold nc.
      rewrite (wrap32_small nc) by (destruct Hfn; lia). fold T.
      destruct (init_memory_default T nc good_T H32 (proj1 Hfn)) as (m0 & E0 & L0 & D0).
      rewrite (wrap32_small _ H32) in E0. rewrite bs_T, E0. cbn [bind].
      destruct (move_all_spec cap size nc m m0 l Hf Hs Hsn Hm L0 El Ho Hne) as (m1 & E1 & L1 & R1). rewrite E1. cbn [bind].
      destruct (map_free_ok cap m Hf Hm) as (m2 & E2). rewrite E2. cbn [bind]. exists m1. auto.
    Qed.

    Lemma shift_loop cap p n : forall m, live_slots T cap m -> p + N.of_nat n < cap -> cap * msize T < 4294967296 ->
      exists m', for_down_nat n
           (fun j b => move fc T b (p * msize T + wrap32 (j * msize T)) b (p * msize T + msize T + wrap32 (j * msize T)) true) m = Ok m' /\
        live_slots T cap m' /\
        (forall i, p <= i -> i < p + N.of_nat n -> read T m' ((i + 1) * msize T) = read T m (i * msize T)) /\
        (forall i, (i <= p \/ p + N.of_nat n < i) -> read T m' (i * msize T) = read T m (i * msize T)).
    Proof.
      induction n as [|n IH]; intros m Hm Hp Hc; cbn [for_down_nat].
      - exists m. split; [reflexivity|]. split; [exact Hm|]. split; [intros i H1 H2; lia|reflexivity].
      - rewrite wrap32_small by nia. set (j := N.of_nat n) in *.
        destruct (move_spec fc T good_T copy_T m (p * msize T + j * msize T) m (p * msize T + msize T + j * msize T) true) as (m1 & E & A & L & R).
        { intros _. exact mov_T. }
        { replace (p * msize T + j * msize T) with ((p + j) * msize T) by lia. apply Hm. unfold j. lia. }
        { replace (p * msize T + msize T + j * msize T) with ((p + j + 1) * msize T) by lia.
          assert (Lm : live T m ((p + j + 1) * msize T)) by (apply Hm; unfold j; lia).
          split; [apply live_alloc; [apply good_T|exact Lm]|]. intros _. left. exact Lm. }
        replace (p * msize T + msize T + j * msize T) with ((p + j + 1) * msize T) in * by lia.
        replace (p * msize T + j * msize T) with ((p + j) * msize T) in * by lia.
        rewrite E. cbn [bind].
        assert (S : forall i, i <> p + j + 1 -> same m (i * msize T) m1 (i * msize T) (msize T)).
        { intros i Hi. eapply agree_out_same; [exact A|]. nia. }
        destruct (IH m1) as (m2 & E2 & L2 & R2 & R3).
        { intros i Hi. destruct (N.eq_dec i (p + j + 1)) as [->|Hn]; [exact L|]. eapply live_local; [exact good_T|apply S, Hn|apply Hm, Hi]. }
        { lia. } { exact Hc. }
        exists m2. split; [exact E2|]. split; [exact L2|]. fold j in R2, R3. split.
        + intros i H1 H2. destruct (N.eq_dec i (p + j)) as [->|Hn].
          * rewrite R3 by lia. exact R.
          * rewrite R2 by lia. apply read_local; [exact good_T|apply S; lia].
        + intros i Hi. rewrite R3 by lia. apply read_local; [exact good_T|apply S; lia].
    Qed.
    Lemma shift_spec cap size p m l : fits T cap -> size < cap -> p < size -> live_slots T cap m ->
      collect (N.to_nat size) 0 (fun i => read T m (i * msize T)) = Ok l -> ordered strhash k l = true ->
      exists m', map_shift fc strhash k v cap size p m = Ok m' /\ live_slots T cap m' /\
        (forall i, p <= i -> i < size -> read T m' ((i + 1) * msize T) = read T m (i * msize T)) /\
        (forall i, i < p -> read T m' (i * msize T) = read T m (i * msize T)).
    Proof.
      intros Hf Hs Hp Hm El Ho. unfold map_shift. rewrite bs_T. cbv zeta. destruct (collect_nth _ _ _ _ El) as [Hlen _].
      rewrite (key_index_self k (msize T) m (hs_of k l) cap size p Hpos ltac:(lia) (buffer_hash cap size m l ltac:(lia) Hm El));
        [|intros i j Hij Hj; apply ordered_inc; [exact Ho|exact Hij|lia]|exact Hp]. cbn [bind].
      destruct Hf as [F1 F2]. destruct (is_constructed_type k || is_constructed_type v) eqn:Ec.
      - rewrite wrap32_small by lia. unfold for_down.
        destruct (shift_loop cap p (N.to_nat (size - p)) m Hm ltac:(lia) F1) as (m' & E & L & R1 & R2).
        exists m'. split; [exact E|]. split; [exact L|]. split; [intros i H1 H2; apply R1; lia|intros i Hi; apply R2; lia].
      - destruct (memcpy_slots cap cap m m (size - p) p (p + 1) Ec Hm Hm ltac:(lia) ltac:(lia)) as (m' & E & L & R1 & R2).
        exists m'. replace (p * msize T + msize T) with ((p + 1) * msize T) by lia. split; [exact E|]. split; [exact L|]. split.
        + intros i H1 H2. specialize (R1 (i - p) ltac:(lia)). replace (p + 1 + (i - p)) with (i + 1) in R1 by lia. replace (p + (i - p)) with i in R1 by lia. exact R1.
        + intros i Hi. apply R2. lia.
    Qed.

    Lemma insert_spec cap size m l src soff bounds kv :
      fits T cap -> fits T (if bounds =? 0 then 2 * (size + 1) else bounds) ->
      (bounds = 0 \/ cap <= bounds) -> (bounds = 0 \/ size < bounds) -> size <= cap -> live_slots T cap m ->
      collect (N.to_nat size) 0 (fun i => read T m (i * msize T)) = Ok l -> ordered strhash k l = true ->
      live k src soff -> selected k src soff -> read k src soff = Ok kv -> collides strhash k kv l = false ->
      exists cap' m' p, map_insert fc strhash k v cap size m src soff bounds = Ok (cap', size + 1, m', p) /\
        N.to_nat p = lower_bound strhash k (vhash strhash k kv) l /\ p <= size /\
        live_slots T cap' m' /\ size + 1 <= cap' /\ fits T cap' /\ (bounds = 0 \/ cap' <= bounds) /\
        (cap' = cap \/ cap' <= 2 * (size + 1)) /\
        collect (N.to_nat (size + 1)) 0 (fun i => read T m' (i * msize T)) = Ok (add_entry strhash k kv (default_value v) l).
    Proof.
      intros Hf Hf2 Hb Hb' Hs Hm El Ho Lk Sk Rk Hcol. unfold map_insert. cbv zeta. rewrite bs_T.
      assert (Hre : exists cap' m', (if (cap =? 0) || (size =? cap)
               then map_realloc fc strhash k v cap size m (if 0 <? cap then wrap32 (cap * 2) else 1) bounds
               else Ok (cap, m)) = Ok (cap', m') /\ live_slots T cap' m' /\ size < cap' /\ fits T cap' /\
               (bounds = 0 \/ cap' <= bounds) /\ (cap' = cap \/ cap' <= 2 * (size + 1)) /\
               (forall i, i < size -> read T m' (i * msize T) = read T m (i * msize T))).
      { destruct ((cap =? 0) || (size =? cap)) eqn:Ef.
        - set (desired := if 0 <? cap then wrap32 (cap * 2) else 1).
          assert (Hsc : size = cap).
          { apply orb_true_iff in Ef as [Ef|Ef]; [apply N.eqb_eq in Ef; lia|apply N.eqb_eq in Ef; exact Ef]. }
          assert (Hd : desired = if 0 <? cap then cap * 2 else 1).
          { unfold desired. destruct (0 <? cap); [|reflexivity]. apply wrap32_small. destruct Hf2 as [_ Hf2].
            destruct (bounds =? 0) eqn:E; [lia|]. apply N.eqb_neq in E. lia. }
          set (nc := if bounds =? 0 then desired else N.min desired bounds).
          assert (Hnc : size < nc).
          { assert (size < desired) by (rewrite Hd; destruct (0 <? cap) eqn:E; [apply N.ltb_lt in E|apply N.ltb_ge in E]; lia).
            unfold nc. destruct (bounds =? 0) eqn:E; [assumption|]. apply N.eqb_neq in E. lia. }
          assert (Hncd : nc <= desired) by (unfold nc; destruct (bounds =? 0); lia).
          assert (Hdle : desired <= 2 * (size + 1)) by (rewrite Hd; destruct (0 <? cap); lia).
          assert (Hfn : fits T nc).
          { assert (nc <= if bounds =? 0 then 2 * (size + 1) else bounds) by (unfold nc; destruct (bounds =? 0); lia).
            destruct Hf2 as [F1 F2]. split; [|lia]. revert F1 H. generalize (if bounds =? 0 then 2 * (size + 1) else bounds). nia. }
          destruct (map_realloc_spec cap size m desired bounds l Hf) as (m' & E & L & R); fold nc; try assumption; try lia.
          exists nc, m'. fold nc in E. split; [exact E|]. split; [exact L|]. split; [exact Hnc|].
          split; [exact Hfn|].
          split; [unfold nc; destruct (bounds =? 0) eqn:E'; [left; apply N.eqb_eq, E'|right; lia]|].
          split; [right; lia|exact R].
        - apply orb_false_iff in Ef as [Ef1 Ef2]. apply N.eqb_neq in Ef1, Ef2.
          exists cap, m. split; [reflexivity|]. split; [exact Hm|]. split; [lia|]. split; [exact Hf|]. split; [exact Hb|]. split; [left; reflexivity|reflexivity]. }
      destruct Hre as (cap' & m0 & E & L & Hlt & Hf' & Hbd & Hcap & R). rewrite E. cbn [bind].
      assert (El0 : collect (N.to_nat size) 0 (fun i => read T m0 (i * msize T)) = Ok l).
      { rewrite <- El. apply collect_ext. intros j _ Hj. apply R. lia. }
      destruct (collect_nth _ _ _ _ El) as [Hlen _].
      assert (Hinc : forall i j, i < j -> j < size -> hs_of k l i < hs_of k l j) by (intros i j Hij Hj; apply ordered_inc; [exact Ho|exact Hij|lia]).
      pose proof (hash_spec strhash k Hgk Hhk _ _ _ Lk Rk) as Hkey. set (h := vhash strhash k kv) in *.
      pose proof (buffer_hash cap' size m0 l ltac:(lia) L El0) as Hh0.
      destruct (find_place_spec k (msize T) m0 h (hs_of k l) size src soff Hpos Hh0 Hinc Hkey) as (p & found & Ep & Hp & Hlow & Ht & Hfl).
      rewrite Ep. cbn [bind fst]. assert (Hnf : found = false).
      { destruct found; [|reflexivity]. destruct (Ht eq_refl) as [H1 H2]. exfalso. apply (collides_false k kv l Hcol p); [lia|exact H2]. }
      specialize (Hfl Hnf).
      assert (Hlb : lower_bound strhash k h l = N.to_nat p).
      { apply lower_bound_unique; [lia|intros i Hi; apply Hlow; lia|]. intros i H1 H2. specialize (Hfl i ltac:(lia) ltac:(lia)). lia. }
      assert (Has : (if (size =? 0) || (p =? size) then Ok tt
             else do h1 <- hash strhash k src soff; do h2 <- hash strhash k m0 (p * msize T); assert_ (negb (h1 =? h2))) = Ok tt).
      { destruct ((size =? 0) || (p =? size)) eqn:Eb; [reflexivity|]. apply orb_false_iff in Eb as [Eb1 Eb2]. apply N.eqb_neq in Eb1, Eb2.
        rewrite Hkey, (Hh0 p ltac:(lia)). cbn [bind]. specialize (Hfl p ltac:(lia) ltac:(lia)).
        replace (h =? hs_of k l p) with false by (symmetry; apply N.eqb_neq; lia). reflexivity. }
      rewrite Has. cbn [bind].
      assert (Hsh : exists m1, (if p =? size then Ok m0 else map_shift fc strhash k v cap' size p m0) = Ok m1 /\ live_slots T cap' m1 /\
         (forall i, p <= i -> i < size -> read T m1 ((i + 1) * msize T) = read T m0 (i * msize T)) /\
         (forall i, i < p -> read T m1 (i * msize T) = read T m0 (i * msize T))).
      { destruct (p =? size) eqn:Eps.
        - apply N.eqb_eq in Eps. exists m0. split; [reflexivity|]. split; [exact L|]. split; [intros i H1 H2; lia|reflexivity].
        - apply N.eqb_neq in Eps. apply (shift_spec cap' size p m0 l); try assumption. lia. }
      destruct Hsh as (m1 & E1 & L1 & R1 & R1'). rewrite E1. cbn [bind].
      destruct (L1 p ltac:(lia)) as [Lpk Lpv].
      destruct (copy_spec fc k Hgk Hck src soff m1 (p * msize T) Lk Sk) as (m2 & E2 & A2 & L2 & R2).
      { apply live_alloc; [apply Hgk|exact Lpk]. }
      rewrite E2. cbn [bind].
      destruct (construct_spec v Hgv m2 (p * msize T + msize k)) as (m3 & E3 & A3 & L3 & R3).
      { assert (Lv2 : live v m2 (p * msize T + msize k)).
        { eapply live_local; [exact Hgv| |exact Lpv]. eapply agree_out_same; [exact A2|]. lia. }
        apply live_alloc; [apply Hgv|exact Lv2]. }
      rewrite E3. cbn [bind]. rewrite wrap32_small by (destruct Hf'; lia).
      assert (HT : msize T = msize k + msize v) by reflexivity.
      assert (Sout : forall i, i <> p -> same m1 (i * msize T) m3 (i * msize T) (msize T)).
      { intros i Hi j Hj. rewrite A3 by nia. apply A2. nia. }
      assert (Spk : same m2 (p * msize T) m3 (p * msize T) (msize k)) by (eapply agree_out_same; [exact A3|lia]).
      assert (Lp3 : live T m3 (p * msize T)).
      { split; [eapply live_local; [exact Hgk|exact Spk|exact L2]|exact L3]. }
      exists cap', m3, p. split; [reflexivity|]. split; [symmetry; exact Hlb|]. split; [exact Hp|].
      split. { intros i Hi. destruct (N.eq_dec i p) as [->|Hn]; [exact Lp3|]. eapply live_local; [exact good_T|apply Sout, Hn|apply L1, Hi]. }
      split; [lia|]. split; [exact Hf'|]. split; [exact Hbd|]. split; [exact Hcap|].
      destruct (collect_nth _ _ _ _ El0) as [_ Hnth0].
      apply collect_intro; unfold add_entry; fold h; rewrite Hlb.
      - rewrite insert_at_length by lia. lia.
      - intros i x Hx. rewrite nth_insert_at in Hx by lia. change (0 + N.of_nat i) with (N.of_nat i).
        destruct (i <? N.to_nat p)%nat eqn:X1; [apply Nat.ltb_lt in X1|apply Nat.ltb_ge in X1; destruct (i =? N.to_nat p)%nat eqn:X2; [apply Nat.eqb_eq in X2|apply Nat.eqb_neq in X2]].
        + rewrite (read_local T m1 _ _ _ good_T (Sout (N.of_nat i) ltac:(lia))). rewrite R1' by lia.
          destruct (Hnth0 i ltac:(lia)) as (x' & Hx' & Rx). rewrite Hx in Hx'. injection Hx' as <-. exact Rx.
        + injection Hx as <-. subst i. rewrite N2Nat.id. unfold T. cbn [read]. fold T.
          rewrite (read_local k m2 _ _ _ Hgk Spk), R2, Rk. cbn [bind]. rewrite R3. reflexivity.
        + rewrite (read_local T m1 _ _ _ good_T (Sout (N.of_nat i) ltac:(lia))).
          assert (Hi : (i - 1 < N.to_nat size)%nat) by (rewrite <- Hlen; apply nth_error_Some; congruence).
          destruct (Hnth0 (i - 1)%nat Hi) as (x' & Hx' & Rx). rewrite Hx in Hx'. injection Hx' as <-.
          specialize (R1 (N.of_nat (i - 1)) ltac:(lia) ltac:(lia)). replace (N.of_nat (i - 1) + 1) with (N.of_nat i) in R1 by lia.
          rewrite R1. exact Rx.
    Qed.

    (** lookup of a key that is present *)
    Lemma find_present cap size m l src soff kv i : size <= cap -> live_slots T cap m ->
      collect (N.to_nat size) 0 (fun i => read T m (i * msize T)) = Ok l -> ordered strhash k l = true ->
      live k src soff -> read k src soff = Ok kv -> (exists w, nth_error l i = Some (entry kv w)) ->
      find_place strhash k (msize T) size m src soff = Ok (N.of_nat i, true).
    Proof.
      intros Hs Hm El Ho Lk Rk (w & Hi). destruct (collect_nth _ _ _ _ El) as [Hlen _].
      assert (Hil : (i < N.to_nat size)%nat) by (rewrite <- Hlen; apply nth_error_Some; congruence).
      assert (Hinc : forall i j, i < j -> j < size -> hs_of k l i < hs_of k l j) by (intros a j Hij Hj; apply ordered_inc; [exact Ho|exact Hij|lia]).
      pose proof (hash_spec strhash k Hgk Hhk _ _ _ Lk Rk) as Hkey.
      assert (Hhi : hs_of k l (N.of_nat i) = vhash strhash k kv).
      { unfold hs_of. rewrite Nat2N.id, (nth_error_nth _ _ _ Hi). reflexivity. }
      destruct (find_place_spec k (msize T) m _ (hs_of k l) size src soff Hpos (buffer_hash cap size m l Hs Hm El) Hinc Hkey) as (p & found & Ep & Hp & Hlow & Ht & Hfl).
      rewrite Ep. assert (H1 : p <= N.of_nat i). { destruct (N.le_gt_cases p (N.of_nat i)) as [H|H]; [exact H|]. specialize (Hlow _ H). lia. }
      destruct found.
      - destruct (Ht eq_refl) as [H2 H3]. destruct (N.eq_dec p (N.of_nat i)) as [->|Hn]; [reflexivity|]. pose proof (Hinc p (N.of_nat i) ltac:(lia) ltac:(lia)). lia.
      - specialize (Hfl eq_refl (N.of_nat i) H1 ltac:(lia)). lia.
    Qed.
    Lemma find_absent cap size m l src soff kv : size <= cap -> live_slots T cap m ->
      collect (N.to_nat size) 0 (fun i => read T m (i * msize T)) = Ok l -> ordered strhash k l = true ->
      live k src soff -> read k src soff = Ok kv -> collides strhash k kv l = false ->
      exists p, find_place strhash k (msize T) size m src soff = Ok (p, false).
    Proof.
      intros Hs Hm El Ho Lk Rk Hc. destruct (collect_nth _ _ _ _ El) as [Hlen _].
      assert (Hinc : forall i j, i < j -> j < size -> hs_of k l i < hs_of k l j) by (intros a j Hij Hj; apply ordered_inc; [exact Ho|exact Hij|lia]).
      pose proof (hash_spec strhash k Hgk Hhk _ _ _ Lk Rk) as Hkey.
      destruct (find_place_spec k (msize T) m _ (hs_of k l) size src soff Hpos (buffer_hash cap size m l Hs Hm El) Hinc Hkey) as (p & found & Ep & Hp & Hlow & Ht & Hfl).
      exists p. rewrite Ep. destruct found; [|reflexivity]. destruct (Ht eq_refl) as [H2 H3]. exfalso. apply (collides_false k kv l Hc p); [lia|exact H3].
    Qed.
  End Buffer.
End Map.
