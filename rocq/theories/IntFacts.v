(** Facts about integers, their bytes and the C++ operators. *)
From Verif Require Import CompatFacts CompatFacts2 Base Types TypeBuild TypeSpec Mem MemSpec Compat MemFacts ConstructFacts MemEqns Ops OpsSpec Realize Prog ProgFacts DataSpec DataFacts IntOps NumSpec NumFacts IntSpec.
Local Open Scope Z_scope.

(** ** Arithmetic *)
Lemma promoted_eq p : promoted p = (width (computed_in p), prim_signed (computed_in p)).
Proof. destruct p; reflexivity. Qed.
Lemma computed_multiple p : exists m, 2 ^ width (computed_in p) = m * 2 ^ width p.
Proof. destruct p; ((exists 1; reflexivity) || (exists (2 ^ 24); reflexivity) || (exists (2 ^ 16); reflexivity)). Qed.
Lemma fits_signed c z : prim_signed c = true -> (fits c z <-> (- 2 ^ (width c - 1) <=? z) && (z <? 2 ^ (width c - 1)) = true).
Proof. intros H. unfold fits, least, greatest. rewrite H, andb_true_iff, Z.leb_le, Z.ltb_lt. lia. Qed.
Lemma fit_int_ok c z : ~ (prim_signed c = true /\ ~ fits c z) -> exists r k, fit_int (width c, prim_signed c) z = Ok r /\ z - r = k * 2 ^ width c.
Proof.
  intros H. unfold fit_int. destruct (prim_signed c) eqn:Es.
  - destruct (_ && _) eqn:E; [exists z, 0; split; [reflexivity|lia]|]. destruct H. split; [reflexivity|]. rewrite (fits_signed _ _ Es). congruence.
  - exists (z mod 2 ^ width c), (z / 2 ^ width c). split; [reflexivity|]. pose proof (Z.div_mod z (2 ^ width c) ltac:(destruct c; discriminate)). lia.
Qed.
Lemma fit_int_ub c z : prim_signed c = true -> ~ fits c z -> fit_int (width c, prim_signed c) z = Fail UB.
Proof. intros Hs H. unfold fit_int. rewrite Hs. rewrite (fits_signed _ _ Hs) in H. destruct (_ && _); [congruence|reflexivity]. Qed.

Lemma cpp_arith_ub o p a b : undefined o p a b -> cpp_arith o (promoted p) a b = Fail UB.
Proof.
  rewrite promoted_eq. unfold undefined. set (c := computed_in p). unfold cpp_arith.
  destruct o; cbn [math]; intros H; try contradiction H; try (destruct H as [Hs H]; apply fit_int_ub; assumption).
  - destruct (Z.eqb b 0) eqn:E; [reflexivity|]. apply Z.eqb_neq in E. destruct H as [H|[Hs H]]; [congruence|]. apply fit_int_ub; assumption.
  - destruct (Z.eqb b 0) eqn:E; [reflexivity|]. apply Z.eqb_neq in E. destruct H as [H|[Hs H]]; [congruence|]. rewrite fit_int_ub by assumption. reflexivity.
  - destruct ((b <? 0) || (width c <=? b)) eqn:E; [reflexivity|]. apply orb_false_iff in E as [E1 E2]. apply Z.ltb_ge in E1. apply Z.leb_gt in E2.
    destruct H as [H|[H|[Hs H]]]; [lia|lia|]. rewrite Hs. replace ((a <? 0) || (2 ^ width c <=? a * 2 ^ b)) with true; [reflexivity|].
    symmetry. apply orb_true_iff. rewrite Z.ltb_lt, Z.leb_le. exact H.
  - replace ((b <? 0) || (width c <=? b)) with true; [reflexivity|]. symmetry. apply orb_true_iff. rewrite Z.ltb_lt, Z.leb_le. exact H.
Qed.
Lemma cpp_arith_ok o p a b : ~ undefined o p a b -> exists r k, cpp_arith o (promoted p) a b = Ok r /\ math o a b - r = k * 2 ^ width p.
Proof.
  rewrite promoted_eq. unfold undefined. set (c := computed_in p). intros H. destruct (computed_multiple p) as (m & Hm). fold c in Hm.
  assert (Hgo : exists r k, cpp_arith o (width c, prim_signed c) a b = Ok r /\ math o a b - r = k * 2 ^ width c).
  { unfold cpp_arith. destruct o; cbn [math] in *; try (apply fit_int_ok, H); try (exists (Z.land a b), 0; split; [reflexivity|lia]);
      try (exists (Z.lor a b), 0; split; [reflexivity|lia]); try (exists (Z.lxor a b), 0; split; [reflexivity|lia]).
    - destruct (Z.eqb b 0) eqn:E; [apply Z.eqb_eq in E; tauto|]. apply fit_int_ok. tauto.
    - destruct (Z.eqb b 0) eqn:E; [apply Z.eqb_eq in E; tauto|]. destruct (fit_int_ok c (Z.quot a b)) as (r & k & -> & _); [tauto|]. exists (Z.rem a b), 0. split; [reflexivity|lia].
    - destruct ((b <? 0) || (width c <=? b)) eqn:E; [apply orb_true_iff in E; rewrite Z.ltb_lt, Z.leb_le in E; tauto|].
      destruct (prim_signed c) eqn:Es.
      + destruct ((a <? 0) || (2 ^ width c <=? a * 2 ^ b)) eqn:E'; [apply orb_true_iff in E'; rewrite Z.ltb_lt, Z.leb_le in E'; tauto|].
        destruct (a * 2 ^ b <? 2 ^ (width c - 1)); [exists (a * 2 ^ b), 0; split; [reflexivity|lia]|]. exists (a * 2 ^ b - 2 ^ width c), 1. split; [reflexivity|lia].
      + exists ((a * 2 ^ b) mod 2 ^ width c), ((a * 2 ^ b) / 2 ^ width c). split; [reflexivity|]. pose proof (Z.div_mod (a * 2 ^ b) (2 ^ width c) ltac:(destruct c; discriminate)). lia.
    - destruct ((b <? 0) || (width c <=? b)) eqn:E; [apply orb_true_iff in E; rewrite Z.ltb_lt, Z.leb_le in E; tauto|]. apply orb_false_iff in E as [E _]. apply Z.ltb_ge in E.
      exists (Z.shiftr a b), 0. split; [reflexivity|]. rewrite Z.shiftr_div_pow2 by exact E. lia. }
  destruct Hgo as (r & k & E & Hk). exists r, (k * m). split; [exact E|]. rewrite Hk, Hm. lia.
Qed.

(** ** Elements *)
Lemma prim_good p : good (TPrim p).
Proof. split; exact I. Qed.
Lemma operand_holds x p a : holds x (VBytes a) -> d_type x = TPrim p -> operand p x = Ok a /\ N.of_nat (List.length a) = prim_size p /\ Forall (fun y => (y < 256)%N) a.
Proof.
  intros (_ & _ & _ & L & R) Ht. rewrite Ht in *. cbn [read] in R. apply bind_ok in R as (bs & E & R). injection R as ->.
  unfold operand, get_value. rewrite Ht. cbn [rget type_check]. rewrite (proj2 (prim_eqb_eq p p) eq_refl), E. split; [reflexivity|]. exact (ValueFacts.read_bytes_wf _ _ _ _ L E).
Qed.
Lemma operand_other x p q a : holds x (VBytes a) -> d_type x = TPrim q -> p <> q -> operand p x = Fail Assert.
Proof.
  intros (_ & _ & _ & L & R) Ht Hne. unfold operand, get_value. rewrite Ht. cbn [rget type_check]. destruct (prim_eqb q p) eqn:E; [apply prim_eqb_eq in E; congruence|reflexivity].
Qed.
Lemma set_prim_holds fc x p v bs : holds x v -> d_type x = TPrim p -> N.of_nat (List.length bs) = prim_size p -> Forall (fun y => (y < 256)%N) bs ->
  exists m, set_value fc (ScPrim p bs) (TPrim p) (d_mem x) 0 = Ok m /\ holds (mkData (TPrim p) m) (VBytes bs).
Proof.
  intros (_ & _ & _ & L & R) Ht Hl HF. rewrite Ht in *.
  destruct (set_realizes fc (TPrim p) (ScPrim p bs) eq_refl (prim_good p)) with (b := d_mem x) (off := 0%N) (v := v) (v' := VBytes bs) as (m & E & _ & L' & R'); try assumption.
  - cbn [scalar_ok]. auto.
  - reflexivity.
  - exists m. split; [exact E|]. unfold holds. cbn [d_type d_mem]. repeat split; try exact I; try reflexivity; assumption.
Qed.
Lemma result_holds fc p bs : N.of_nat (List.length bs) = prim_size p -> Forall (fun y => (y < 256)%N) bs ->
  exists d, result fc p bs = Ok d /\ d_type d = TPrim p /\ holds d (VBytes bs).
Proof.
  intros Hl HF. destruct (new_holds (TPrim p) (at_prim p) I) as (d & E & Ht & Hh & _). cbn [rget] in Ht.
  destruct (set_prim_holds fc d p _ bs Hh Ht Hl HF) as (m & Em & Hm). exists (mkData (TPrim p) m). unfold result. rewrite E. cbn [bind]. rewrite Em. auto.
Qed.
Lemma is_int_operand x p z : is_int x p z -> exists a, operand p x = Ok a /\ holds x (VBytes a) /\ prim_int p a = z.
Proof.
  intros (Ht & a & Hh & Hn). destruct (operand_holds x p a Hh Ht) as (E & Hl & HF). exists a. split; [exact E|]. split; [exact Hh|].
  exact (number_unique p a _ _ (number_prim_int p a Hl HF) Hn).
Qed.
Lemma is_int_fits x p z : is_int x p z -> fits p z.
Proof. intros (_ & a & _ & H & _). exact H. Qed.
Lemma reduced_exists p z : p <> PBool -> exists r, reduced p z r.
Proof.
  intros Hb. destruct (int_bytes_wf p z) as [Hl HF]. exists (prim_int p (int_bytes p z)). apply (int_bytes_number p z _ Hb). apply number_prim_int; assumption.
Qed.
Lemma result_int fc p z : p <> PBool -> exists d r, result fc p (int_bytes p z) = Ok d /\ is_int d p r /\ reduced p z r.
Proof.
  intros Hb. destruct (int_bytes_wf p z) as [Hl HF]. destruct (result_holds fc p _ Hl HF) as (d & E & Ht & Hh). destruct (reduced_exists p z Hb) as (r & Hr).
  exists d, r. split; [exact E|]. split; [|exact Hr]. split; [exact Ht|]. exists (int_bytes p z). split; [exact Hh|]. apply int_bytes_number; assumption.
Qed.
Lemma set_int fc x p z0 z : p <> PBool -> is_int x p z0 ->
  exists m r, set_value fc (ScPrim p (int_bytes p z)) (TPrim p) (d_mem x) 0 = Ok m /\ is_int (mkData (TPrim p) m) p r /\ reduced p z r.
Proof.
  intros Hb (Ht & a & Hh & _). destruct (int_bytes_wf p z) as [Hl HF]. destruct (set_prim_holds fc x p _ _ Hh Ht Hl HF) as (m & E & Hm). destruct (reduced_exists p z Hb) as (r & Hr).
  exists m, r. split; [exact E|]. split; [|exact Hr]. split; [reflexivity|]. exists (int_bytes p z). split; [exact Hm|]. apply int_bytes_number; assumption.
Qed.
Lemma int_kind_bool p : int_kind p = true -> p <> PBool.
Proof. intros H ->. discriminate. Qed.
(** A value of the type congruent to something congruent to [z]. *)
Lemma reduced_shift p z z' k r : z - z' = k * 2 ^ width p -> reduced p z' r -> reduced p z r.
Proof. intros E [H (k' & E')]. split; [exact H|]. exists (k + k'). lia. Qed.
Lemma copy_int fc x p z : is_int x p z -> exists d, copy_data fc x = Ok d /\ is_int d p z.
Proof.
  intros (Ht & a & Hh & Hn). destruct (copy_holds fc x _ Hh) as (d & E & Ht' & Hd); [rewrite Ht; exact I|rewrite Ht; exact I|].
  exists d. split; [exact E|]. split; [congruence|]. exists a. auto.
Qed.
Lemma assign_int fc x y p z z' : is_int x p z -> is_int y p z' -> exists m, assign_from fc (d_mem y) 0 (d_type x) (d_mem x) 0 = Ok m /\ is_int (mkData (d_type x) m) p z'.
Proof.
  intros (Ht & a & Hh & Hn) (Ht' & b & Hh' & Hn'). destruct (assign_holds fc x y _ _ Hh Hh') as (d & E & Hd & Hdh); [congruence|rewrite Ht; exact I|rewrite Ht; exact I|].
  unfold assign_data in E. rewrite Ht, Ht', compat_refl in E. cbn [bind] in E. rewrite N.eqb_refl in E. rewrite Ht. destruct (assign_from _ _ _ _ _ _) as [m|e] eqn:Em; [|discriminate E].
  cbn [bind] in E. injection E as <-. exists m. split; [reflexivity|]. split; [reflexivity|]. exists b. auto.
Qed.
