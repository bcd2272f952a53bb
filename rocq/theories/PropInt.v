(** C24, C26: arithmetic and conversions of integer data. *)
From Verif Require Import CompatFacts CompatFacts2 Base Types TypeBuild TypeSpec Mem MemSpec Compat MemFacts ConstructFacts MemEqns CopyFacts Ops OpsSpec Realize Prog ProgFacts DataSpec DataFacts IntOps NumSpec NumFacts IntSpec IntFacts.
Local Open Scope Z_scope.

(** ** C24: the binary operators on two integers of the same type give the mathematical result reduced to the type... *)
Theorem C24_binary : forall fc flt o x y p a b, int_kind p = true -> is_int x p a -> is_int y p b -> ~ undefined o p a b ->
  exists d r, binary fc flt o x y = Ok d /\ is_int d p r /\ reduced p (math o a b) r.
Proof.
  intros fc flt o x y p a b Hk Hx Hy Hu. destruct (is_int_operand _ _ _ Hx) as (u & Eu & _ & Zu). destruct (is_int_operand _ _ _ Hy) as (w & Ew & _ & Zw).
  destruct (cpp_arith_ok o p a b Hu) as (r & k & Er & Hr). destruct (result_int fc p r (int_kind_bool p Hk)) as (d & z & Ed & Hd & Hz).
  exists d, z. unfold binary. rewrite (proj1 Hx), Hk, Eu, Ew. cbn [bind]. rewrite Zu, Zw, Er. cbn [bind]. split; [exact Ed|]. split; [exact Hd|]. exact (reduced_shift _ _ _ _ _ Hr Hz).
Qed.
(** ... and are undefined exactly where C++ leaves them undefined. *)
Theorem C24_undefined : forall fc flt o x y p a b, int_kind p = true -> is_int x p a -> is_int y p b ->
  (binary fc flt o x y = Fail UB <-> undefined o p a b).
Proof.
  intros fc flt o x y p a b Hk Hx Hy. destruct (is_int_operand _ _ _ Hx) as (u & Eu & _ & Zu). destruct (is_int_operand _ _ _ Hy) as (w & Ew & _ & Zw).
  assert (Hdec : undefined o p a b \/ ~ undefined o p a b).
  { unfold undefined, fits. destruct o; destruct (prim_signed (computed_in p)); lia. }
  split.
  - intros E. destruct Hdec as [H|H]; [exact H|]. destruct (C24_binary fc flt o x y p a b Hk Hx Hy H) as (d & r & E' & _). congruence.
  - intros H. unfold binary. rewrite (proj1 Hx), Hk, Eu, Ew. cbn [bind]. rewrite Zu, Zw, (cpp_arith_ub _ _ _ _ H). reflexivity.
Qed.
(** A result that the type can hold is exact; no condition on the shifts and divisions but the divisor and the shift count. *)
Theorem C24_exact : forall fc flt o x y p a b, int_kind p = true -> is_int x p a -> is_int y p b -> fits p (math o a b) ->
  match o with Div | Rem => b <> 0 | Shl => 0 <= b < width (computed_in p) /\ 0 <= a | Shr => 0 <= b < width (computed_in p) | _ => True end ->
  (o = Rem -> fits p (Z.quot a b)) ->
  exists d, binary fc flt o x y = Ok d /\ is_int d p (math o a b).
Proof.
  intros fc flt o x y p a b Hk Hx Hy Hf Hc Hrem.
  assert (Hw : forall z, fits p z -> fits (computed_in p) z).
  { intros z. unfold fits, least, greatest. destruct p; cbn; lia. }
  destruct (C24_binary fc flt o x y p a b Hk Hx Hy) as (d & r & E & Hd & Hr).
  - unfold undefined. pose proof (Hw _ Hf) as Hf'. destruct o; cbn [math] in *; try tauto.
    + pose proof (Hw _ (Hrem eq_refl)). tauto.
    + intros [H|[H|[Hs [H|H]]]]; try lia. pose proof (half_width (computed_in p)) as Hh. pose proof (half_pos (computed_in p)). unfold fits, greatest in Hf'. rewrite Hs in Hf'. lia.
    + lia.
  - exists d. split; [exact E|]. rewrite (reduced_unique p _ _ _ (reduced_fits p _ Hf) Hr) in *. exact Hd.
Qed.
(** Operands of different types are refused, except that an enumeration of the same size is taken as the right operand. *)
Theorem C24_mixed_rejected : forall fc flt o x y p a w, int_kind p = true -> is_int x p a -> holds y w ->
  d_type y <> TPrim p -> is_enumerated_type (d_type y) = false -> binary fc flt o x y = Fail Assert.
Proof.
  intros fc flt o x y p a w Hk Hx (_ & _ & Hr & _) Hne He. destruct (is_int_operand _ _ _ Hx) as (u & Eu & _ & Zu).
  unfold binary. rewrite (proj1 Hx), Hk, Eu. cbn [bind]. unfold operand, get_value. rewrite Hr.
  destruct (d_type y) as [q|enm esz evals| | | | | | | |]; cbn [type_check bind]; try reflexivity.
  - destruct (prim_eqb q p) eqn:E; [apply prim_eqb_eq in E; congruence|reflexivity].
  - discriminate He.
Qed.
(** Every other primitive kind: characters and booleans have no arithmetic. *)
Theorem C24_not_integer : forall fc flt o x y p, d_type x = TPrim p -> int_kind p = false -> is_float p = false ->
  binary fc flt o x y = Fail (match o with Add => Throw | _ => Assert end).
Proof. intros fc flt o x y p Ht Hk Hf. unfold binary. rewrite Ht, Hk, Hf. cbn [andb]. destruct o; reflexivity. Qed.

(** Unary minus and complement of signed integers. *)
Theorem C24_negate : forall fc flt x p a, signed_int_kind p = true -> is_int x p a ->
  (width p < 32 \/ a <> least p ->
     exists d r, negate fc flt x = Ok d /\ is_int d p r /\ reduced p (- a) r) /\
  (width p >= 32 -> a = least p -> negate fc flt x = Fail UB).
Proof.
  intros fc flt x p a Hk Hx. destruct (is_int_operand _ _ _ Hx) as (u & Eu & _ & Zu). pose proof (is_int_fits _ _ _ Hx) as Hf.
  unfold negate. rewrite (proj1 Hx), Hk, Eu. cbn [bind]. rewrite Zu, promoted_eq. split; intros H.
  - destruct (fit_int_ok (computed_in p) (- a)) as (r & k & Er & Hr).
    { intros [_ Hn]. apply Hn. destruct p; try discriminate Hk; unfold fits, least, greatest in *; cbn in *; lia. }
    rewrite Er. cbn [bind]. destruct (result_int fc p r) as (d & z & Ed & Hd & Hz); [intros ->; discriminate Hk|].
    exists d, z. split; [exact Ed|]. split; [exact Hd|]. destruct (computed_multiple p) as (m & Hm). apply (reduced_shift p _ r (k * m)); [rewrite Hr, Hm; lia|exact Hz].
  - intros Ha. rewrite fit_int_ub; [reflexivity| |].
    + destruct p; try discriminate Hk; try reflexivity.
    + subst a. destruct p; try discriminate Hk; unfold fits, least, greatest, width in *; cbn in *; lia.
Qed.
Theorem C24_complement : forall fc x p a, signed_int_kind p = true -> is_int x p a -> exists d, complement fc x = Ok d /\ is_int d p (- a - 1).
Proof.
  intros fc x p a Hk Hx. destruct (is_int_operand _ _ _ Hx) as (u & Eu & _ & Zu). pose proof (is_int_fits _ _ _ Hx) as Hf.
  unfold complement. rewrite (proj1 Hx), Hk, Eu. cbn [bind]. rewrite Zu. destruct (result_int fc p (Z.lnot a)) as (d & z & Ed & Hd & Hz); [intros ->; discriminate Hk|].
  exists d. split; [exact Ed|]. replace (- a - 1) with (Z.lnot a) by (unfold Z.lnot; lia). rewrite (reduced_unique p (Z.lnot a) (Z.lnot a) z); [exact Hd| |exact Hz].
  apply reduced_fits. unfold Z.lnot. destruct p; try discriminate Hk; unfold fits, least, greatest in *; cbn in *; lia.
Qed.
(** Full statement: minus and complement on every integer kind.  They are refused for unsigned integers. *)
Theorem C66_unary_unsigned_refuted : forall fc flt x p a, int_kind p = true -> signed_int_kind p = false -> is_int x p a ->
  negate fc flt x = Fail Assert /\ complement fc x = Fail Assert.
Proof.
  intros fc flt x p a Hk Hs Hx. unfold negate, complement. rewrite (proj1 Hx), Hs. destruct p; try discriminate Hk; try discriminate Hs; split; reflexivity.
Qed.

(** ++x and --x ([d] is 1 or -1, any step): the data holds the new value. *)
Lemma step_spec fc d x p a : int_kind p = true -> is_int x p a -> ~ (prim_signed (computed_in p) = true /\ ~ fits (computed_in p) (a + d)) ->
  exists c x' r, post_step fc d x = Ok (c, x') /\ is_int c p r /\ is_int x' p r /\ reduced p (a + d) r.
Proof.
  intros Hk Hx Hu. destruct (is_int_operand _ _ _ Hx) as (u & Eu & _ & Zu). destruct (fit_int_ok (computed_in p) (a + d) Hu) as (r & k & Er & Hr).
  destruct (set_int fc x p a r (int_kind_bool p Hk) Hx) as (m & z & Em & Hm & Hz). destruct (copy_int fc _ p z Hm) as (c & Ec & Hc).
  exists c, (mkData (TPrim p) m), z. unfold post_step. rewrite (proj1 Hx), Hk, Eu. cbn [bind]. rewrite Zu, promoted_eq, Er. cbn [bind]. rewrite Em. cbn [bind]. rewrite Ec. cbn [bind].
  split; [reflexivity|]. split; [exact Hc|]. split; [exact Hm|]. destruct (computed_multiple p) as (n & Hn). apply (reduced_shift p _ r (k * n)); [rewrite Hr, Hn; lia|exact Hz].
Qed.
Theorem C24_increment : forall fc d x p a, int_kind p = true -> is_int x p a ->
  ~ (prim_signed p = true /\ width p >= 32 /\ ~ fits p (a + d)) -> (width p < 32 -> -1 <= d <= 1) ->
  exists x' r, pre_step fc d x = Ok x' /\ is_int x' p r /\ reduced p (a + d) r.
Proof.
  intros fc d x p a Hk Hx Hu Hd. pose proof (is_int_fits _ _ _ Hx) as Hf. destruct (step_spec fc d x p a Hk Hx) as (c & x1 & r & E & Hc & Hx1 & Hr).
  { intros [Hs Hn]. destruct p; try discriminate Hk; cbn in *; try discriminate Hs; try (apply Hn; unfold fits, least, greatest in *; cbn in *; lia); apply Hu; unfold width; cbn; (split; [reflexivity|]); (split; [lia|]); exact Hn. }
  destruct (assign_int fc x1 c p r r Hx1 Hc) as (m & Em & Hm). unfold pre_step. rewrite E. cbn [bind fst snd]. rewrite Em. cbn [bind].
  eexists; exists r. split; [reflexivity|]. split; [exact Hm|exact Hr].
Qed.
(** Full statement: x++ returns the value before the increment.  It returns the value after it, for every integer. *)
Theorem C66_post_increment_refuted : forall fc d x p a, int_kind p = true -> is_int x p a -> fits p (a + d) ->
  exists c x', post_step fc d x = Ok (c, x') /\ is_int c p (a + d) /\ is_int x' p (a + d).
Proof.
  intros fc d x p a Hk Hx Hf. destruct (step_spec fc d x p a Hk Hx) as (c & x' & r & E & Hc & Hx' & Hr).
  { intros [_ Hn]. apply Hn. revert Hf. unfold fits, least, greatest. destruct p; cbn; lia. }
  rewrite (reduced_unique p _ _ _ Hr (reduced_fits p _ Hf)) in *. eauto.
Qed.
(** x op= y and x op= value. *)
Theorem C24_compound : forall fc flt o x y p a b, int_kind p = true -> is_int x p a -> is_int y p b -> ~ undefined o p a b ->
  exists x' r, compound fc flt o x y = Ok x' /\ is_int x' p r /\ reduced p (math o a b) r.
Proof.
  intros fc flt o x y p a b Hk Hx Hy Hu. destruct (C24_binary fc flt o x y p a b Hk Hx Hy Hu) as (d & r & E & Hd & Hr).
  destruct (assign_int fc x d p a r Hx Hd) as (m & Em & Hm). unfold compound. rewrite E. cbn [bind]. rewrite Em. cbn [bind]. eexists; exists r. split; [reflexivity|]. auto.
Qed.
Theorem C24_compound_value : forall fc o x p a bs b, int_kind p = true -> is_int x p a -> number p bs b ->
  N.of_nat (List.length bs) = prim_size p -> Forall (fun y => (y < 256)%N) bs -> ~ undefined o p a b ->
  exists x' r, compound_value fc o x p bs = Ok x' /\ is_int x' p r /\ reduced p (math o a b) r.
Proof.
  intros fc o x p a bs b Hk Hx Hb Hl HF Hu. destruct (is_int_operand _ _ _ Hx) as (u & Eu & _ & Zu). pose proof (number_unique p bs _ _ (number_prim_int p bs Hl HF) Hb) as Zb.
  destruct (cpp_arith_ok o p a b Hu) as (r & k & Er & Hr). destruct (set_int fc x p a r (int_kind_bool p Hk) Hx) as (m & z & Em & Hm & Hz).
  unfold compound_value. rewrite Hk, Eu. cbn [bind]. rewrite Zu, Zb, Er, (proj1 Hx). cbn [bind]. rewrite Em. cbn [bind]. eexists; exists z. split; [reflexivity|]. split; [exact Hm|].
  exact (reduced_shift _ _ _ _ _ Hr Hz).
Qed.
(** Comparisons and logic of integers and characters agree with the numbers. *)
Theorem C24_compare : forall fltcmp o x y p a b, integral p -> is_int x p a -> is_int y p b ->
  exists r, compare_op fltcmp o x y = Ok r /\ (r = true <-> cmp_holds o a b).
Proof.
  intros fltcmp o x y p a b [Hf Hb] Hx Hy. destruct (is_int_operand _ _ _ Hx) as (u & Eu & _ & Zu). destruct (is_int_operand _ _ _ Hy) as (w & Ew & _ & Zw).
  unfold compare_op. rewrite (proj1 Hx), Eu, Ew. cbn [bind]. rewrite Hf, Zu, Zw. eexists. split; [reflexivity|].
  destruct o; cbn [cpp_cmp cmp_holds]; rewrite ?andb_true_iff, ?orb_true_iff, ?negb_true_iff, ?Z.eqb_neq, ?Z.ltb_lt, ?Z.leb_le; lia.
Qed.
Theorem C24_not : forall x p a, integral p -> is_int x p a -> exists r, not_op x = Ok r /\ (r = true <-> a = 0).
Proof.
  intros x p a [Hf Hb] Hx. destruct (is_int_operand _ _ _ Hx) as (u & Eu & _ & Zu). unfold not_op. rewrite (proj1 Hx), Hf, Eu. cbn [bind]. rewrite Zu. eexists. split; [reflexivity|]. apply Z.eqb_eq.
Qed.

(** Full statement: no undefined behaviour on types smaller than int (their results are reduced).  Two uint16 whose
    product exceeds the greatest int: C++ computes it as int, which overflows. *)
Theorem C66_small_product_refuted : exists x y, is_int x PU16 65535 /\ is_int y PU16 65535 /\
  forall fc flt, binary fc flt Mul x y = Fail UB.
Proof.
  destruct (result_int (fun _ _ bs => bs) PU16 65535) as (d & r & E & Hd & Hr); [discriminate|].
  assert (Hf : fits PU16 65535) by (unfold fits, least, greatest, width; cbn; lia).
  rewrite (reduced_unique PU16 _ _ _ Hr (reduced_fits PU16 _ Hf)) in Hd. exists d, d. split; [exact Hd|]. split; [exact Hd|]. intros fc flt.
  apply (C24_undefined fc flt Mul d d PU16 65535 65535 eq_refl Hd Hd). split; [reflexivity|]. unfold fits, least, greatest, width; cbn. lia.
Qed.
(** Full statement: operands of different types are refused.  An enumeration of the size of the left operand is taken,
    also by a floating point operand, which reads the bytes of the enumeration as a floating point number. *)
Theorem C66_enum_operand_refuted : forall fc flt x y bs a nm vals, d_type x = TPrim PF32 -> holds x (VBytes bs) ->
  d_type y = TEnum nm 4 vals -> holds y (VBytes a) ->
  binary fc flt Mul x y = result fc PF32 (flt Mul PF32 bs a).
Proof.
  intros fc flt x y bs a nm vals Ht Hx Ht' Hy. destruct (operand_holds x PF32 bs Hx Ht) as (E & _). unfold binary. rewrite Ht. cbn [int_kind is_float float_arith andb]. rewrite E. cbn [bind].
  destruct Hy as (_ & _ & _ & L & R). rewrite Ht' in *. cbn [read] in R. apply bind_ok in R as (b & E' & R). injection R as ->.
  unfold operand, get_value. rewrite Ht'. cbn [rget type_check sizeof prim_size N.eqb Pos.eqb]. rewrite E'. reflexivity.
Qed.

(** ** C26: conversion between integers *)
Lemma write_prim_holds p bs : N.of_nat (List.length bs) = prim_size p -> Forall (fun y => (y < 256)%N) bs ->
  exists m, write_bytes (fresh (prim_size p)) 0 bs = Ok m /\ holds (mkData (TPrim p) m) (VBytes bs).
Proof.
  intros Hl HF. destruct (write_bytes_spec (fresh (prim_size p)) 0 bs) as (m & W1 & W2 & W3); [rewrite Hl; apply fresh_alloc|]. rewrite Hl in *. exists m. split; [exact W1|].
  split; [exact I|]. split; [exact I|]. split; [reflexivity|]. cbn [d_type d_mem]. split; [exact (written_bytes_at _ _ _ _ Hl W3 HF)|].
  cbn [read]. rewrite (proj2 (read_bytes_spec _ _ _ _) (conj Hl W3)). reflexivity.
Qed.
Lemma prim_compat p q : exists c, is_compatible (TPrim q) (TPrim p) = Ok c /\ (c =? NONE)%N = false.
Proof. destruct p; destruct q; eexists; (split; [reflexivity|reflexivity]). Qed.
Lemma convert_prim fc x p q a : holds x (VBytes a) -> d_type x = TPrim p ->
  N.of_nat (List.length (convert fc p q a)) = prim_size q -> Forall (fun y => (y < 256)%N) (convert fc p q a) ->
  exists d, convert_data fc x (TPrim q) = Ok d /\ d_type d = TPrim q /\ holds d (VBytes (convert fc p q a)).
Proof.
  intros (_ & _ & _ & L & R) Ht Hl HF. rewrite Ht in L, R. cbn [read] in R. apply bind_ok in R as (b & E' & R). injection R as ->.
  destruct (write_prim_holds q _ Hl HF) as (m & Em & Hm). exists (mkData (TPrim q) m). split; [|split; [reflexivity|exact Hm]].
  unfold convert_data. cbn [rget msize]. rewrite Ht. destruct (prim_compat p q) as (c & Ec & Hc). rewrite Ec. cbn [bind]. rewrite Hc.
  rewrite copy_from_prim. unfold copy_prim_from. cbn [strip1]. rewrite E'. cbn [bind]. rewrite Em. reflexivity.
Qed.
Lemma convert_int fc p q a z : integral p -> integral q -> number p a z -> N.of_nat (List.length a) = prim_size p -> Forall (fun y => (y < 256)%N) a ->
  exists r, number q (convert fc p q a) r /\ reduced q z r /\ N.of_nat (List.length (convert fc p q a)) = prim_size q /\ Forall (fun y => (y < 256)%N) (convert fc p q a).
Proof.
  intros [Hf Hb] [Hf' Hb'] Hn Hl HF. unfold convert. destruct (prim_eqb p q) eqn:E.
  - apply prim_eqb_eq in E. subst q. exists z. split; [exact Hn|]. split; [apply reduced_fits, Hn|]. auto.
  - rewrite Hf, Hf'. cbn [orb]. rewrite (number_unique p a _ _ (number_prim_int p a Hl HF) Hn). destruct (reduced_exists q z Hb') as (r & Hr). exists r.
    split; [apply int_bytes_number; assumption|]. split; [exact Hr|]. apply int_bytes_wf.
Qed.
(** DynamicData(x, type) between integer and character types: the number reduced to the target type... *)
Theorem C26_convert : forall fc x p q z, integral p -> integral q -> is_int x p z ->
  exists d r, convert_data fc x (TPrim q) = Ok d /\ is_int d q r /\ reduced q z r.
Proof.
  intros fc x p q z Hp Hq (Ht & a & Hh & Hn). destruct (operand_holds x p a Hh Ht) as (_ & Hl & HF). destruct (convert_int fc p q a z Hp Hq Hn Hl HF) as (r & Hr & Hz & Hl' & HF').
  destruct (convert_prim fc x p q a Hh Ht Hl' HF') as (d & E & Hd & Hdh). exists d, r. split; [exact E|]. split; [|exact Hz]. split; [exact Hd|]. eauto.
Qed.
(** ... hence the same number whenever the target type can hold it... *)
Theorem C26_preserved : forall fc x p q z, integral p -> integral q -> is_int x p z -> fits q z ->
  exists d, convert_data fc x (TPrim q) = Ok d /\ is_int d q z.
Proof.
  intros fc x p q z Hp Hq Hx Hf. destruct (C26_convert fc x p q z Hp Hq Hx) as (d & r & E & Hd & Hr). rewrite (reduced_unique q _ _ _ Hr (reduced_fits q _ Hf)) in Hd. eauto.
Qed.
(** ... and conversion to any type at least as wide (of whatever signedness) and back is the identity. *)
Theorem C26_there_and_back : forall fc x p q z, integral p -> integral q -> width p <= width q -> is_int x p z ->
  exists d e, convert_data fc x (TPrim q) = Ok d /\ convert_data fc d (TPrim p) = Ok e /\ is_int e p z.
Proof.
  intros fc x p q z Hp Hq Hw Hx. destruct (C26_convert fc x p q z Hp Hq Hx) as (d & r & E & Hd & [_ (k & Hk)]). destruct (C26_convert fc d q p r Hq Hp Hd) as (e & s & E' & He & Hs).
  assert (Hm : exists m, 2 ^ width q = m * 2 ^ width p).
  { exists (2 ^ (width q - width p)). rewrite <- Z.pow_add_r; [f_equal; lia|lia|]. pose proof (width_pos p). lia. }
  destruct Hm as (m & Hm). exists d, e. split; [exact E|]. split; [exact E'|].
  assert (Hz : reduced p z s) by (apply (reduced_shift p z r (k * m)); [rewrite Hk, Hm; lia|exact Hs]).
  rewrite (reduced_unique p _ _ _ Hz (reduced_fits p _ (is_int_fits _ _ _ Hx))) in He. exact He.
Qed.
(** Conversion to boolean tests for zero. *)
Theorem C26_to_bool : forall fc x p z, integral p -> is_int x p z ->
  exists d, convert_data fc x (TPrim PBool) = Ok d /\ d_type d = TPrim PBool /\ holds d (VBytes [if Z.eqb z 0 then 0%N else 1%N]).
Proof.
  intros fc x p z [Hf Hb] (Ht & a & Hh & Hn). destruct (operand_holds x p a Hh Ht) as (_ & Hl & HF). pose proof (number_unique p a _ _ (number_prim_int p a Hl HF) Hn) as Zn.
  assert (Ec : convert fc p PBool a = [if Z.eqb z 0 then 0%N else 1%N]).
  { unfold convert. destruct (prim_eqb p PBool) eqn:E; [apply prim_eqb_eq in E; congruence|]. rewrite Hf. cbn [orb is_float int_bytes]. rewrite Zn. reflexivity. }
  destruct (convert_prim fc x p PBool a Hh Ht) as (d & E & Hd & Hdh); rewrite Ec in *; [reflexivity|constructor; [destruct (Z.eqb z 0); reflexivity|constructor]|]. eauto.
Qed.
(** cast<T>() gives the same number. *)
Theorem C26_cast : forall fc x p q z, integral p -> integral q -> is_int x p z ->
  exists bs r, cast_op fc q x = Ok bs /\ number q bs r /\ reduced q z r.
Proof.
  intros fc x p q z Hp Hq (Ht & a & Hh & Hn). destruct (operand_holds x p a Hh Ht) as (E & Hl & HF). destruct (convert_int fc p q a z Hp Hq Hn Hl HF) as (r & Hr & Hz & _).
  unfold cast_op. rewrite Ht, E. cbn [bind]. eauto.
Qed.
(** ... also of an enumeration, whose number is unsigned. *)
Theorem C26_enum_cast : forall fc x nm p vals q a z, p = PU8 \/ p = PU16 \/ p = PU32 -> integral q -> d_type x = TEnum nm (prim_size p) vals -> holds x (VBytes a) -> number p a z ->
  0 <= z /\ exists bs r, cast_op fc q x = Ok bs /\ number q bs r /\ reduced q z r.
Proof.
  intros fc x nm p vals q a z Hp Hq Ht (_ & _ & _ & L & R) Hn. rewrite Ht in L, R. cbn [read] in R. apply bind_ok in R as (b & E & R). injection R as ->.
  assert (HF : Forall (fun y => (y < 256)%N) a) by (cbn [live] in L; exact (proj2 (ValueFacts.read_bytes_wf _ _ _ _ L E))).
  pose proof (proj1 (proj1 (read_bytes_spec _ _ _ _) E)) as Hl. split; [destruct Hn as [Hn _]; destruct Hp as [-> | [-> | ->]]; unfold fits, least in Hn; cbn in Hn; lia|].
  assert (Hip : integral p) by (destruct Hp as [-> | [-> | ->]]; split; [reflexivity|discriminate|reflexivity|discriminate|reflexivity|discriminate]).
  destruct (convert_int fc p q a z Hip Hq Hn Hl HF) as (r & Hr & Hz & _).
  unfold cast_op. rewrite Ht. replace (enum_prim (prim_size p)) with p by (destruct Hp as [-> | [-> | ->]]; reflexivity).
  replace (operand p x) with (Ok a) by (unfold operand, get_value; rewrite Ht; cbn [rget]; destruct Hp as [-> | [-> | ->]]; cbn [type_check sizeof prim_size N.eqb Pos.eqb] in *; rewrite E; reflexivity).
  cbn [bind]. eauto.
Qed.

(** ** Non-trivial cases *)
Definition int_of (p : prim) (z : Z) : data := match result (fun _ _ bs => bs) p (int_bytes p z) with Ok d => d | Fail _ => mkData (TPrim p) (fresh 0) end.
Lemma int_of_is p z : p <> PBool -> fits p z -> is_int (int_of p z) p z.
Proof.
  intros Hb Hf. unfold int_of. destruct (result_int (fun _ _ bs => bs) p z Hb) as (d & r & E & Hd & Hr). rewrite E. rewrite (reduced_unique p _ _ _ Hr (reduced_fits p _ Hf)) in Hd. exact Hd.
Qed.
Example C24_nontrivial : exists d, binary (fun _ _ b => b) (fun _ _ a _ => a) Add (int_of PU8 200) (int_of PU8 100) = Ok d /\ is_int d PU8 44.
Proof.
  assert (H1 : is_int (int_of PU8 200) PU8 200) by (apply int_of_is; [discriminate|unfold fits, least, greatest, width; cbn; lia]).
  assert (H2 : is_int (int_of PU8 100) PU8 100) by (apply int_of_is; [discriminate|unfold fits, least, greatest, width; cbn; lia]).
  destruct (C24_binary (fun _ _ b => b) (fun _ _ a _ => a) Add _ _ PU8 200 100 eq_refl H1 H2) as (d & r & E & Hd & Hr).
  { intros [_ H]. apply H. unfold fits, least, greatest, width; cbn; lia. }
  exists d. split; [exact E|]. replace 44 with r; [exact Hd|]. apply (reduced_unique PU8 (math Add 200 100)); [exact Hr|]. split; [unfold fits, least, greatest, width; cbn; lia|]. exists 1. reflexivity.
Qed.
Example C26_nontrivial : exists d, convert_data (fun _ _ b => b) (int_of PI16 (-2)) (TPrim PU64) = Ok d /\ is_int d PU64 18446744073709551614.
Proof.
  assert (H1 : is_int (int_of PI16 (-2)) PI16 (-2)) by (apply int_of_is; [discriminate|unfold fits, least, greatest, width; cbn; lia]).
  destruct (C26_convert (fun _ _ b => b) _ PI16 PU64 (-2) ltac:(split; [reflexivity|discriminate]) ltac:(split; [reflexivity|discriminate]) H1) as (d & r & E & Hd & Hr).
  exists d. split; [exact E|]. replace 18446744073709551614 with r; [exact Hd|]. apply (reduced_unique PU64 (-2)); [exact Hr|]. split; [unfold fits, least, greatest, width; cbn; lia|]. exists (-1). reflexivity.
Qed.

Print Assumptions C24_binary.
Print Assumptions C24_undefined.
Print Assumptions C24_exact.
Print Assumptions C24_mixed_rejected.
Print Assumptions C24_not_integer.
Print Assumptions C24_negate.
Print Assumptions C24_complement.
Print Assumptions C66_unary_unsigned_refuted.
Print Assumptions C24_increment.
Print Assumptions C66_post_increment_refuted.
Print Assumptions C24_compound.
Print Assumptions C24_compound_value.
Print Assumptions C24_compare.
Print Assumptions C24_not.
Print Assumptions C66_small_product_refuted.
Print Assumptions C66_enum_operand_refuted.
Print Assumptions C26_convert.
Print Assumptions C26_preserved.
Print Assumptions C26_there_and_back.
Print Assumptions C26_to_bool.
Print Assumptions C26_cast.
Print Assumptions C26_enum_cast.
