(** Reading numbers. *)
From Verif Require Import Base Types TypeBuild Mem MemSpec Ops DataSpec IntOps NumSpec NumFacts IntSpec IntFacts IdlLit IdlExpr IdlSpec.
From Coq Require Import Ascii.
Local Open Scope Z_scope.

Lemma digit_val_of c d : is_digit_of c d -> digit_val c = d /\ 0 <= d < 16.
Proof.
  intros [k Hk ->|k Hk ->|k Hk ->]; (split; [|lia]); do 10 (destruct k as [|k]; [try reflexivity; lia|]); lia.
Qed.
Lemma digit_val_range c : 0 <= digit_val c.
Proof. unfold digit_val. repeat match goal with |- context [if ?x then _ else _] => destruct x eqn:? end; rewrite ?andb_true_iff in *; lia. Qed.
Lemma digit_val_spec c : digit_val c < 16 -> is_digit_of c (digit_val c).
Proof.
  assert (Ha : c = ascii_of_nat (nat_of_ascii c)) by (symmetry; apply ascii_nat_embedding).
  unfold digit_val. set (m := nat_of_ascii c) in *. destruct ((48 <=? Z.of_nat m) && (Z.of_nat m <=? 57)) eqn:E1.
  - intros _. apply andb_true_iff in E1 as [H1 H2]. replace (Z.of_nat m - 48) with (Z.of_nat (m - 48)) by lia. apply dg_dec; [lia|]. replace (48 + (m - 48))%nat with m by lia. exact Ha.
  - destruct ((97 <=? Z.of_nat m) && (Z.of_nat m <=? 122)) eqn:E2.
    + intros H. apply andb_true_iff in E2 as [H1 H2]. replace (Z.of_nat m - 87) with (10 + Z.of_nat (m - 97)) by lia. apply dg_lower; [lia|]. replace (97 + (m - 97))%nat with m by lia. exact Ha.
    + destruct ((65 <=? Z.of_nat m) && (Z.of_nat m <=? 90)) eqn:E3; [|lia].
      intros H. apply andb_true_iff in E3 as [H1 H2]. replace (Z.of_nat m - 55) with (10 + Z.of_nat (m - 65)) by lia. apply dg_upper; [lia|]. replace (65 + (m - 65))%nat with m by lia. exact Ha.
Qed.
Lemma app_assoc_s (a b c : string) : ((a ++ b) ++ c = a ++ (b ++ c))%string.
Proof. induction a as [|x a IH]; [reflexivity|]. cbn. rewrite IH. reflexivity. Qed.
Lemma app_nil_s (a : string) : (a ++ "" = a)%string.
Proof. induction a as [|x a IH]; [reflexivity|]. cbn. rewrite IH. reflexivity. Qed.

Lemma digits_numeral base s z : numeral base s z -> forall acc rest, exists m, m = acc * base ^ Z.of_nat (String.length s) + z /\ digits base (s ++ rest) acc = digits base rest m.
Proof.
  induction 1 as [c d Hd Hb|s z c d H IH Hd Hb]; intros acc rest.
  - destruct (digit_val_of c d Hd) as [Hv _]. eexists. split; [reflexivity|]. cbn [append digits String.length]. unfold is_digit. rewrite Hv, (proj2 (Z.ltb_lt _ _) Hb). f_equal. cbn. lia.
  - destruct (digit_val_of c d Hd) as [Hv _]. rewrite app_assoc_s. cbn [append]. destruct (IH acc (String c rest)) as (m & Em & E). rewrite E. cbn [digits]. unfold is_digit. rewrite Hv, (proj2 (Z.ltb_lt _ _) Hb).
    eexists. split; [reflexivity|]. f_equal.
    assert (Hl : forall a b : string, String.length (a ++ b) = (String.length a + String.length b)%nat) by (intros a b; induction a; cbn; lia).
    rewrite Hl, Nat2Z.inj_add. cbn [String.length]. rewrite Z.pow_add_r by lia. subst m. change (Z.of_nat 1) with 1. rewrite Z.pow_1_r. ring.
Qed.
Lemma digits_end base rest m : base <= 16 -> ends base rest -> digits base rest m = m.
Proof.
  intros Hb H. destruct rest as [|c r]; [reflexivity|]. cbn [digits]. unfold is_digit. destruct (digit_val c <? base) eqn:E; [|reflexivity]. apply Z.ltb_lt in E.
  pose proof (H _ (digit_val_spec c ltac:(lia))). lia.
Qed.
Lemma digits_value base s z rest : base <= 16 -> numeral base s z -> ends base rest -> digits base (s ++ rest) 0 = z.
Proof. intros Hb H He. destruct (digits_numeral _ _ _ H 0 rest) as (m & Em & E). rewrite E, digits_end by assumption. lia. Qed.
Lemma numeral_head base s z : numeral base s z -> exists c r, s = String c r /\ digit_val c < base /\ digit_val c < 16.
Proof.
  induction 1 as [c d Hd Hb|s z c d H IH Hd Hb].
  - destruct (digit_val_of c d Hd) as [Hv Hr]. exists c, ""%string. split; [reflexivity|]. lia.
  - destruct IH as (c0 & r & -> & Hc). exists c0, (r ++ String c "")%string. split; [reflexivity|]. exact Hc.
Qed.
Lemma numeral_nonneg base s z : 0 < base -> numeral base s z -> 0 <= z.
Proof. intros Hb. induction 1 as [c d Hd Hd2|s z c d H IH Hd Hd2]; destruct (digit_val_of c d Hd) as [_ Hr]; nia. Qed.
Lemma digit_not_space c d : is_digit_of c d -> is_space c = false /\ Ascii.eqb c "-" = false /\ Ascii.eqb c "+" = false.
Proof. intros [k Hk ->|k Hk ->|k Hk ->]; do 10 (destruct k as [|k]; [try (repeat split; reflexivity); lia|]); lia. Qed.
(** strto on a text that starts with digits, no sign and no prefix. *)
Lemma strto_plain base s z rest : base <= 16 -> numeral base s z -> ends base rest ->
  (base = 16 -> forall x r, (s ++ rest)%string = String "0" (String x r) -> Ascii.eqb x "x" || Ascii.eqb x "X" = false) ->
  strto base (s ++ rest) = Some (false, z).
Proof.
  intros Hb H He Hx. destruct (numeral_head _ _ _ H) as (c & r & -> & Hc & Hc16). cbn [append] in *.
  destruct (digit_not_space c _ (digit_val_spec c Hc16)) as (Hsp & Hm & Hp). unfold strto. cbn [skip_space]. rewrite Hsp.
  assert (Hsign : forall (A : Type) (x y w : A), match c with "-"%char => x | "+"%char => y | _ => w end = w).
  { intros A x y w. destruct c as [[] [] [] [] [] [] [] []]; try reflexivity; discriminate. }
  assert (E0 : match String c (r ++ rest) with String "-" r0 => (true, r0) | String "+" r0 => (false, r0) | _ => (false, String c (r ++ rest)) end = (false, String c (r ++ rest))).
  { destruct c as [[] [] [] [] [] [] [] []]; try reflexivity; discriminate. }
  rewrite E0. clear E0 Hsign.
  match goal with |- context [if starts_digit base ?s0 then _ else _] => assert (E1 : s0 = String c (r ++ rest)) end.
  { destruct c as [[] [] [] [] [] [] [] []]; try reflexivity. destruct (r ++ rest)%string as [|x r'] eqn:Er; [reflexivity|].
    destruct (base =? 16) eqn:Eb; [|reflexivity]. apply Z.eqb_eq in Eb. rewrite (Hx Eb x r' ltac:(reflexivity)). reflexivity. }
  rewrite E1. cbn [starts_digit]. unfold is_digit. rewrite (proj2 (Z.ltb_lt _ _) Hc). f_equal. f_equal. change (String c (r ++ rest)) with (String c r ++ rest)%string. apply digits_value; assumption.
Qed.
Lemma base_of_literal s base z : literal s base z -> base_of s = base.
Proof.
  intros Hl. destruct Hl as [ | c s1 z1 H Hc | s1 z1 H | x s1 z1 H Hx ]; try reflexivity.
  3:{ destruct Hx; subst x; reflexivity. }
  - destruct c as [[] [] [] [] [] [] [] []]; try reflexivity. congruence.
  - destruct (numeral_head _ _ _ H) as (c & r & -> & Hc & _). cbn [base_of]. destruct (Ascii.eqb c "x" || Ascii.eqb c "X") eqn:E; [|reflexivity].
    apply orb_true_iff in E as [E|E]; apply Ascii.eqb_eq in E; subst c; vm_compute in Hc; discriminate Hc.
Qed.
(** A literal is read as its value, in the base of the literal. *)
Lemma strto_literal s base z rest : literal s base z -> ends base rest -> strto base (s ++ rest) = Some (false, z) /\ 0 <= z.
Proof.
  intros H He. destruct H as [ | c s z H Hc | s z H | x s z H Hx ].
  - split; [|lia]. apply (strto_plain 8 "0" 0 rest); [lia| |exact He|lia]. apply nu_one; [|lia]. apply (dg_dec _ 0); [lia|reflexivity].
  - split; [|apply (numeral_nonneg 10 (String c s)); [lia|exact H]]. apply strto_plain; [lia|exact H|exact He|lia].
  - split; [|apply (numeral_nonneg 8 s); [lia|exact H]]. assert (H0 : forall s z, numeral 8 s z -> numeral 8 (String "0" s) z).
    { clear. induction 1 as [c d Hd Hb|s z c d H IH Hd Hb].
      - change (String "0" (String c "")) with ((String "0" "") ++ String c "")%string. replace d with (0 * 8 + d) by lia. apply nu_more; [|exact Hd|exact Hb]. apply nu_one; [|lia]. apply (dg_dec _ 0); [lia|reflexivity].
      - change (String "0" (s ++ String c "")) with (String "0" s ++ String c "")%string. apply nu_more; assumption. }
    change (String "0" s ++ rest)%string with (String "0" s ++ rest)%string. apply strto_plain; [lia|apply H0, H|exact He|lia].
  - split; [|apply (numeral_nonneg 16 s); [lia|exact H]]. destruct (numeral_head _ _ _ H) as (c & r & -> & Hc & Hc16). unfold strto. cbn [append].
    assert (Hx' : Ascii.eqb x "x" || Ascii.eqb x "X" = true) by (destruct Hx as [->| ->]; reflexivity).
    cbn [skip_space]. change (is_space "0") with false. cbv iota. cbn [starts_digit]. unfold is_digit. rewrite (proj2 (Z.ltb_lt _ _) Hc), Hx'. change (16 =? 16) with true. cbn [andb starts_digit]. unfold is_digit. rewrite (proj2 (Z.ltb_lt _ _) Hc).
    f_equal. f_equal. change (String c (r ++ rest)) with (String c r ++ rest)%string. apply digits_value; [lia|exact H|exact He].
Qed.
Lemma literal_unique s base z base' z' : literal s base z -> literal s base' z' -> base = base' /\ z = z'.
Proof.
  intros H H'. pose proof (base_of_literal _ _ _ H) as E. pose proof (base_of_literal _ _ _ H') as E'. split; [congruence|]. subst base'. rewrite E in H'.
  destruct (strto_literal _ _ _ "" H I) as [E1 _]. destruct (strto_literal _ _ _ "" H' I) as [E2 _]. congruence.
Qed.
Lemma read_number_literal p s base z rest : int_kind p = true -> literal s base z -> ends base rest -> fits p z -> read_number p base (s ++ rest) = z.
Proof.
  intros Hk H He Hf. destruct (strto_literal _ _ _ _ H He) as [E H0]. unfold read_number, strtoll, strtoull. rewrite E. unfold fits, least, greatest in Hf.
  destruct p; try discriminate Hk; cbn in Hf |- *; rewrite ?(proj2 (Z.ltb_ge _ _)) by lia; lia.
Qed.
