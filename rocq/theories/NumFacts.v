(** Facts about integers and their bytes. *)
From Verif Require Import CompatFacts CompatFacts2 Base Types TypeBuild TypeSpec Mem MemSpec Compat MemFacts ConstructFacts MemEqns NumSpec.
Local Open Scope Z_scope.

Lemma prim_eqb_eq p q : prim_eqb p q = true <-> p = q.
Proof. destruct p, q; cbn; split; intros H; (reflexivity || discriminate H). Qed.
Lemma width_pos p : 0 < width p.
Proof. destruct p; reflexivity. Qed.
Lemma pow_width p : 2 ^ width p = Z.of_N (256 ^ prim_size p).
Proof. destruct p; reflexivity. Qed.
Lemma half_width p : 2 ^ width p = 2 * 2 ^ (width p - 1).
Proof. destruct p; reflexivity. Qed.
Lemma half_pos p : 0 < 2 ^ (width p - 1).
Proof. destruct p; reflexivity. Qed.

(** Only one value of the type differs from [z] by a multiple of 2^width. *)
Lemma fits_unique p z r r' k k' : fits p r -> fits p r' -> z - r = k * 2 ^ width p -> z - r' = k' * 2 ^ width p -> r = r'.
Proof.
  intros H H' E E'. pose proof (half_width p) as Hh. pose proof (half_pos p) as Hp. unfold fits, least, greatest in *. set (W := 2 ^ width p) in *. set (h := 2 ^ (width p - 1)) in *.
  assert (Hd : r - r' = (k' - k) * W) by lia. assert (Hlt : - W < r - r' < W) by (destruct (prim_signed p); lia).
  assert (k' - k = 0) by nia. lia.
Qed.
Lemma number_unique p bs z z' : number p bs z -> number p bs z' -> z = z'.
Proof. intros [H (k & E)] [H' (k' & E')]. eapply fits_unique; eassumption. Qed.
Lemma number_prim_int p bs : N.of_nat (List.length bs) = prim_size p -> Forall (fun y => (y < 256)%N) bs -> number p bs (prim_int p bs).
Proof.
  intros Hl HF. pose proof (le_decode_lt bs HF) as Hlt. rewrite Hl in Hlt. pose proof (pow_width p) as Hw. pose proof (half_width p) as Hh. pose proof (half_pos p) as Hp.
  unfold number, fits, least, greatest, prim_int. fold (width p). assert (Hx : 0 <= Z.of_N (le_decode bs) < 2 ^ width p) by lia.
  set (W := 2 ^ width p) in *. set (h := 2 ^ (width p - 1)) in *. set (x := Z.of_N (le_decode bs)) in *.
  destruct (prim_signed p); [|split; [lia|exists 0; lia]]. destruct (x <? h) eqn:E; [apply Z.ltb_lt in E|apply Z.ltb_ge in E].
  - split; [lia|exists 0; lia].
  - split; [lia|exists 1; lia].
Qed.
Lemma int_bytes_wf p z : N.of_nat (List.length (int_bytes p z)) = prim_size p /\ Forall (fun y => (y < 256)%N) (int_bytes p z).
Proof.
  unfold int_bytes. destruct p; try (split; [rewrite le_encode_length; reflexivity|apply le_encode_bytes]). split; [reflexivity|]. constructor; [destruct (Z.eqb z 0); reflexivity|constructor].
Qed.
Lemma int_bytes_decode p z : p <> PBool -> Z.of_N (le_decode (int_bytes p z)) = z mod 2 ^ width p.
Proof.
  intros Hb. pose proof (pow_width p) as Hw.
  assert (E : int_bytes p z = le_encode (N.to_nat (prim_size p)) (Z.to_N (z mod 2 ^ width p))) by (destruct p; try reflexivity; congruence). rewrite E, le_decode_encode, N2Nat.id.
  pose proof (Z.mod_pos_bound z (2 ^ width p) ltac:(rewrite Hw; destruct p; reflexivity)) as Hm. rewrite N.mod_small by lia. lia.
Qed.
Lemma int_bytes_number p z r : p <> PBool -> number p (int_bytes p z) r <-> reduced p z r.
Proof.
  intros Hb. unfold number, reduced. rewrite (int_bytes_decode p z Hb). pose proof (Z.div_mod z (2 ^ width p) ltac:(destruct p; discriminate)) as Hd.
  set (W := 2 ^ width p) in *. split; (intros [H (k & E)]; split; [exact H|]).
  - exists (k + z / W). lia.
  - exists (k - z / W). lia.
Qed.
Lemma reduced_fits p z : fits p z -> reduced p z z.
Proof. intros H. split; [exact H|]. exists 0. lia. Qed.
Lemma reduced_unique p z r r' : reduced p z r -> reduced p z r' -> r = r'.
Proof. intros [H (k & E)] [H' (k' & E')]. eapply fits_unique; eassumption. Qed.

