(** The hash functions: a function of the value; injective on primitives. *)
From Verif Require Import Base Types TypeBuild TypeSpec Mem MemSpec TyInd Layout CompatFacts2 MemEqns MemFacts
  ConstructFacts CopyFacts CompareFacts Hash HashSpec.
From Verif Require Import Ops OpsSpec UnionFacts DestroyFacts MoveFacts SeqFacts CollectFacts.

Lemma hashable_struct nm s ms : hashable (TStruct nm s ms) <-> all_members hashable ms.
Proof. cbn [hashable]. apply all_members_iff. Qed.

Section HashValue.
  Variable strhash : skind -> list N -> N.
  Notation hash := (hash strhash).
  Notation vhash := (vhash strhash).

  Lemma fold_loop n : forall i (f : N -> res N) (g : N -> N) h,
    (forall j, i <= j -> j < i + N.of_nat n -> f j = Ok (g j)) ->
    for_from n i (fun i h => do x <- f i; Ok (hash_combine h x)) h =
    Ok (fold_left hash_combine (map (fun k => g (i + N.of_nat k)) (seq 0 n)) h).
  Proof.
    induction n as [|n IH]; intros i f g h H; [reflexivity|]. cbn [for_from]. rewrite H by lia. cbn [bind].
    rewrite (IH (i + 1) f g). 2:{ intros j H1 H2. apply H; lia. }
    cbn [seq map fold_left]. rewrite N.add_0_r. rewrite <- seq_shift, map_map. f_equal. f_equal. apply map_ext. intros k. f_equal. lia.
  Qed.
  (** a loop over all the elements *)
  Lemma fold_loop_all n (f : N -> res N) (l : list value) (G : value -> N) : List.length l = n -> (0 < n)%nat ->
    (forall k x, nth_error l k = Some x -> f (N.of_nat k) = Ok (G x)) ->
    (do h <- f 0; for_from1 (N.of_nat n) (fun i h => do x <- f i; Ok (hash_combine h x)) h) = Ok (fold_hash (map G l)).
  Proof.
    intros Hn H0 H. destruct l as [|x r]; [cbn in Hn; lia|]. rewrite (H 0%nat x eq_refl : f 0 = _). cbn [bind].
    set (g := fun j => match nth_error (x :: r) (N.to_nat j) with Some y => G y | None => 0 end).
    unfold for_from1. rewrite (fold_loop _ _ f g).
    - cbn [map fold_hash]. f_equal. f_equal. replace (N.to_nat (N.of_nat n - 1)) with (List.length r) by (cbn in Hn; lia).
      clear. unfold g. induction r as [|y r IH] using rev_ind; [reflexivity|].
      rewrite app_length, map_app. cbn [List.length map]. rewrite Nat.add_1_r, seq_S, map_app. cbn [map]. rewrite Nat.add_0_l. f_equal.
      + rewrite <- IH. apply map_ext_in. intros k Hk. apply in_seq in Hk. replace (N.to_nat (1 + N.of_nat k)) with (S k) by lia.
        cbn [nth_error]. rewrite nth_error_app1 by lia. reflexivity.
      + replace (N.to_nat (1 + N.of_nat (List.length r))) with (S (List.length r)) by lia. cbn [nth_error].
        rewrite nth_error_app2, Nat.sub_diag by lia. reflexivity.
    - intros j H1 H2. assert (Hj : (N.to_nat j < List.length (x :: r))%nat) by lia.
      unfold g. destruct (nth_error (x :: r) (N.to_nat j)) as [y|] eqn:E; [|apply nth_error_None in E; lia].
      rewrite <- (H _ _ E). f_equal. lia.
  Qed.

  Lemma read_bytes_app b off n m : read_bytes b off (n + m) =
    do x <- read_bytes b off n; do y <- read_bytes b (off + n) m; Ok (x ++ y).
  Proof.
    unfold read_bytes. rewrite N2Nat.inj_add. replace (off + n) with (off + N.of_nat (N.to_nat n)) by lia.
    generalize (N.to_nat n) (N.to_nat m). clear. intros n m. revert off.
    induction n as [|n IH]; intros off; cbn [read_bytes_n Nat.add bind].
    - rewrite N.add_0_r. destruct (read_bytes_n b off m); reflexivity.
    - destruct (at_ b off); try reflexivity. rewrite IH. replace (off + 1 + N.of_nat n) with (off + N.of_nat (S n)) by lia.
      destruct (read_bytes_n b (off + 1) n); cbn [bind]; [|reflexivity]. destruct (read_bytes_n b _ m); reflexivity.
  Qed.
  Lemma collect_bytes p b n : forall i off l, collect n i (fun i => read (TPrim p) b (off + i * prim_size p)) = Ok l ->
    read_bytes b (off + i * prim_size p) (N.of_nat n * prim_size p) = Ok (flat_map value_bytes l).
  Proof.
    induction n as [|n IH]; intros i off l; cbn [collect].
    - intros [= <-]. reflexivity.
    - intros E. apply bind_ok in E as (x & Ex & E). apply bind_ok in E as (r & Er & E). injection E as <-.
      replace (N.of_nat (S n) * prim_size p) with (prim_size p + N.of_nat n * prim_size p) by lia. rewrite read_bytes_app.
      cbn [read] in Ex. apply bind_ok in Ex as (bs & Eb & Ex). injection Ex as <-. rewrite Eb. cbn [bind].
      specialize (IH _ _ _ Er). replace (off + (i + 1) * prim_size p) with (off + i * prim_size p + prim_size p) in IH by lia.
      rewrite IH. reflexivity.
  Qed.

  Lemma hash_spec t : good t -> hashable t -> forall b off v, live t b off -> read t b off = Ok v -> hash t b off = Ok (vhash t v).
  Proof.
    induction t as [p|nm sz vals|k bd|nm c n IHc|c bd IHc|k v bd IHk IHv|x y IHx IHy|nm s ms IHms|nm s ms labels dv iv d IHms|nm a IHa]
      using ty_ind'; intros Hg Hh b off w Hl Hr.
    - cbn [read Hash.hash] in *. apply bind_ok in Hr as (bs & E & Hr). injection Hr as <-. rewrite E. reflexivity.
    - cbn [read Hash.hash] in *. apply bind_ok in Hr as (bs & E & Hr). injection Hr as <-. rewrite E. reflexivity.
    - cbn [read Hash.hash] in *. destruct (at_ b off); try discriminate Hr. destruct (skind_eqb k k0 && intact b off SZ_STRING); [|discriminate Hr].
      injection Hr as <-. reflexivity.
    - pose proof (good_arr _ _ _ Hg) as Hgc. cbn [hashable live read Hash.hash HashSpec.vhash] in *. apply bind_ok in Hr as (l & El & Hr). injection Hr as <-.
      destruct (n =? 0) eqn:E0; [reflexivity|]. apply N.eqb_neq in E0.
      destruct (collect_nth _ _ _ _ El) as [Hlen Hnth]. destruct (is_constructed_type c) eqn:Ec.
      + assert (Hf : forall k x, nth_error l k = Some x -> hash c b (off + N.of_nat k * msize c) = Ok (vhash c x)).
        { intros k x Hx. assert (Hk : (k < N.to_nat n)%nat) by (rewrite <- Hlen; apply nth_error_Some; congruence).
          destruct (Hnth k Hk) as (x' & Hx' & Rx). rewrite Hx in Hx'. injection Hx' as <-.
          apply IHc; try assumption. apply Hl. lia. }
        pose proof (fold_loop_all (N.to_nat n) (fun i => hash c b (off + i * msize c)) l (vhash c) Hlen ltac:(lia) Hf) as Q.
        rewrite N2Nat.id in Q. rewrite N.mul_0_l, N.add_0_r in Q. exact Q.
      + destruct (constructed_prim _ Ec) as [p ->]. pose proof (collect_bytes p b _ _ _ _ El) as Q.
        rewrite N2Nat.id, N.mul_0_l, N.add_0_r in Q. cbn [msize]. rewrite Q. reflexivity.
    - cbn [hashable Hash.hash HashSpec.vhash] in *. subst bd. reflexivity.
    - cbn [live] in Hl. destruct Hl as (cap & size & m & Ho & Hsz & _ & _ & _ & Hm).
      rewrite (read_map_obj _ _ _ _ _ _ _ _ Ho) in Hr. pose proof (good_map _ _ _ Hg) as [Hgk Hgv].
      apply bind_ok in Hr as (l & El & Hr). injection Hr as <-. destruct (collect_nth _ _ _ _ El) as [Hlen Hnth].
      cbn [hashable Hash.hash HashSpec.vhash] in *. destruct Ho as [-> ->]. destruct (size =? 0) eqn:E0.
      + apply N.eqb_eq in E0. subst size. destruct l; [reflexivity|discriminate Hlen].
      + apply N.eqb_neq in E0. destruct Hh as [Hhk Hhv]. cbv zeta.
        rewrite <- (fold_loop_all (N.to_nat size) (fun i => do x <- hash k m (i * (msize k + msize v));
                              do y <- hash v m (i * (msize k + msize v) + msize k); Ok (hash_combine x y)) l _ Hlen); [rewrite N2Nat.id; reflexivity|lia|].
        intros j x Hx. assert (Hk : (j < N.to_nat size)%nat) by (rewrite <- Hlen; apply nth_error_Some; congruence).
        destruct (Hnth j Hk) as (x' & Hx' & Rx). rewrite Hx in Hx'. injection Hx' as <-. cbn [read msize N.add] in Rx.
        apply bind_ok in Rx as (a & Ra & Rx). apply bind_ok in Rx as (c & Rc & Rx). injection Rx as <-.
        destruct (Hm (N.of_nat j) ltac:(lia)) as [Lk Lv]. rewrite (IHk Hgk Hhk _ _ _ Lk Ra), (IHv Hgv Hhv _ _ _ Lv Rc). reflexivity.
    - pose proof (good_pair _ _ Hg) as [Hgx Hgy]. destruct Hl as [L1 L2], Hh as [H1 H2]. cbn [read Hash.hash] in *.
      apply bind_ok in Hr as (a & Ra & Hr). apply bind_ok in Hr as (c & Rc & Hr). injection Hr as <-.
      rewrite (IHx Hgx H1 _ _ _ L1 Ra), (IHy Hgy H2 _ _ _ L2 Rc). reflexivity.
    - rewrite read_struct in Hr. apply bind_ok in Hr as (l & El & Hr). injection Hr as <-.
      rewrite hashable_struct in Hh. unfold all_members in Hh. rewrite Forall_forall in Hh, IHms. rewrite live_struct, Forall_forall in Hl.
      assert (Hf : forall m, In m ms -> forall v, read (m_type m) b (off + m_off m) = Ok v -> hash (m_type m) b (off + m_off m) = Ok (vhash (m_type m) v)).
      { intros m Hm v Rv. apply IHms; auto. eapply good_struct; eassumption. }
      clear Hg Hh Hl IHms. cbn [Hash.hash HashSpec.vhash]. destruct ms as [|[[mn mo] mt] r]; [reflexivity|].
      cbn [mmap] in El. apply bind_ok in El as (x & Ex & El). apply bind_ok in El as (l' & El & E). injection E as <-.
      cbn [m_type m_off fst snd] in Ex. rewrite (Hf (mn, mo, mt) (or_introl eq_refl) x Ex : hash mt b (off + mo) = _). cbn [bind fold_hash].
      assert (Hf' : forall m, In m r -> forall v, read (m_type m) b (off + m_off m) = Ok v -> hash (m_type m) b (off + m_off m) = Ok (vhash (m_type m) v)).
      { intros m Hm. apply Hf. right. exact Hm. }
      cbn [m_type snd]. clear Hf Ex. revert l' El. generalize (vhash mt x). induction r as [|[[mn' mo'] mt'] r IH]; intros h l' El; [reflexivity|].
      cbn [mmap] in El. apply bind_ok in El as (y & Ey & El). apply bind_ok in El as (l'' & El & E). injection E as <-.
      cbn [m_type m_off fst snd] in Ey. rewrite (Hf' (mn', mo', mt') (or_introl eq_refl) y Ey : hash mt' b (off + mo') = _). cbn [bind].
      apply IH; [|exact El]. intros m Hm. apply Hf'. right. exact Hm.
    - contradiction Hh.
    - cbn [live read Hash.hash HashSpec.vhash hashable] in *. apply IHa; try assumption.
  Qed.
End HashValue.
