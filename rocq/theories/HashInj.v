(** hash64 is injective on inputs of at most eight bytes. *)
From Verif Require Import Base Types TypeBuild Mem MemSpec ConstructFacts Hash HashSpec.

Definition W64 : N := 18446744073709551616.

Lemma xorshift_inj s x y : 0 < s -> N.lxor x (N.shiftr x s) = N.lxor y (N.shiftr y s) -> x = y.
Proof.
  intros Hs E. set (B := N.max (N.size x) (N.size y)).
  assert (Hhi : forall z i, N.size z <= i -> N.testbit z i = false).
  { intros z i Hi. destruct z as [|p]; [reflexivity|]. apply N.bits_above_log2. pose proof (N.size_log2 (N.pos p) ltac:(discriminate)). lia. }
  assert (H : forall n i, B <= i + N.of_nat n -> N.testbit x i = N.testbit y i).
  { induction n as [|n IH]; intros i Hi.
    - rewrite !Hhi by (unfold B in Hi; lia). reflexivity.
    - pose proof (f_equal (fun z => N.testbit z i) E) as Eb. cbv beta in Eb. rewrite !N.lxor_spec, !N.shiftr_spec' in Eb.
      rewrite (IH (i + s)) in Eb by lia. destruct (N.testbit x i), (N.testbit y i), (N.testbit y (i + s)); cbn in Eb; congruence. }
  apply N.bits_inj. intros i. apply (H (N.to_nat B)). lia.
Qed.
Lemma mul_inj c ci x y : (c * ci) mod W64 = 1 -> x < W64 -> y < W64 -> u64 (x * c) = u64 (y * c) -> x = y.
Proof.
  intros Hc Hx Hy E. unfold u64 in E. fold W64 in E.
  assert (Hi : forall z, z < W64 -> ((z * c) mod W64 * ci) mod W64 = z).
  { intros z Hz. rewrite N.mul_mod_idemp_l by discriminate. rewrite <- N.mul_assoc, <- N.mul_mod_idemp_r by discriminate.
    rewrite Hc, N.mul_1_r. apply N.mod_small, Hz. }
  rewrite <- (Hi x Hx), <- (Hi y Hy), E. reflexivity.
Qed.
Lemma lt_bits x n : x < 2 ^ n <-> forall i, n <= i -> N.testbit x i = false.
Proof.
  split.
  - intros H i Hi. destruct (N.eq_dec x 0) as [->|H0]; [apply N.bits_0|]. apply N.bits_above_log2.
    apply N.log2_lt_pow2 in H; lia.
  - intros H. destruct (N.eq_dec x 0) as [->|H0]; [apply N.neq_0_lt_0, N.pow_nonzero; discriminate|].
    apply N.log2_lt_pow2; [lia|]. destruct (N.lt_ge_cases (N.log2 x) n) as [Hl|Hl]; [exact Hl|].
    pose proof (N.bit_log2 x H0) as Hb. rewrite H in Hb by exact Hl. discriminate.
Qed.
Lemma lxor_lt x y : x < W64 -> y < W64 -> N.lxor x y < W64.
Proof. change W64 with (2 ^ 64). rewrite !lt_bits. intros H1 H2 i Hi. rewrite N.lxor_spec, H1, H2 by exact Hi. reflexivity. Qed.
Lemma shiftr_lt x s : x < W64 -> N.shiftr x s < W64.
Proof. change W64 with (2 ^ 64). rewrite !lt_bits. intros H i Hi. rewrite N.shiftr_spec'. apply H. lia. Qed.
Lemma u64_lt x : u64 x < W64.
Proof. apply N.mod_lt. discriminate. Qed.

Lemma mix_lt x : mix x < W64.
Proof. unfold mix. cbv zeta. apply lxor_lt; [|apply shiftr_lt]; apply u64_lt. Qed.
Lemma mix_inj x y : x < W64 -> y < W64 -> mix x = mix y -> x = y.
Proof.
  intros Hx Hy E. unfold mix in E. cbv zeta in E. apply xorshift_inj in E; [|reflexivity].
  apply (mul_inj _ 0xa1bcefb14d101987) in E; [|vm_compute; reflexivity| |]; try (apply lxor_lt; [assumption|apply shiftr_lt; assumption]).
  apply xorshift_inj in E; [exact E|reflexivity].
Qed.
Lemma hash_round_inj h x y : h < W64 -> x < W64 -> y < W64 -> hash_round h x = hash_round h y -> x = y.
Proof.
  intros Hh Hx Hy E. unfold hash_round in E.
  apply (mul_inj _ 0x28fc23783fb0706d) in E; [|vm_compute; reflexivity| |]; try (apply lxor_lt; [assumption|apply mix_lt]).
  apply mix_inj; [assumption..|]. apply (f_equal (N.lxor h)) in E. rewrite <- !N.lxor_assoc, N.lxor_nilpotent, !N.lxor_0_l in E. exact E.
Qed.
Lemma le_decode_w64 bs : Forall (fun y => y < 256) bs -> (List.length bs <= 8)%nat -> le_decode bs < W64.
Proof.
  intros HF Hl. eapply N.lt_le_trans; [apply le_decode_lt, HF|]. change W64 with (256 ^ 8). apply N.pow_le_mono_r; lia.
Qed.
Lemma hash64_small bs : (1 <= List.length bs <= 8)%nat -> hash64 bs =
  mix (hash_round (N.lxor HASH_SEED (u64 (N.of_nat (List.length bs) * HASH_M))) (le_decode bs)).
Proof.
  intros Hl. unfold hash64. cbv zeta. destruct (Nat.eq_dec (List.length bs) 8) as [E|E].
  - rewrite E. change (N.to_nat (N.of_nat 8 / 8)) with 1%nat. cbn [hash_words].
    rewrite (firstn_all2 bs) by lia. rewrite (skipn_all2 bs) by lia. reflexivity.
  - rewrite N.div_small by lia. cbn [N.to_nat hash_words]. destruct bs; [cbn in Hl; lia|reflexivity].
Qed.
Lemma hash64_inj a b : List.length a = List.length b -> (1 <= List.length a <= 8)%nat ->
  Forall (fun y => y < 256) a -> Forall (fun y => y < 256) b -> hash64 a = hash64 b -> a = b.
Proof.
  intros Hl H8 Ha Hb E. rewrite !hash64_small in E by lia. rewrite <- Hl in E.
  assert (Hh : N.lxor HASH_SEED (u64 (N.of_nat (List.length a) * HASH_M)) < W64) by (apply lxor_lt; [reflexivity|apply u64_lt]).
  apply mix_inj in E; [|apply u64_lt..]. apply hash_round_inj in E; [|exact Hh|apply le_decode_w64; [assumption|lia]..].
  apply le_decode_inj; assumption.
Qed.
