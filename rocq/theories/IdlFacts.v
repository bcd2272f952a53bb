(** The parser of expressions groups to the right; evaluation. *)
From Verif Require Import Base Types TypeBuild TypeSpec Compat CompatFacts2 Mem MemSpec Layout MemFacts ConstructFacts Ops OpsSpec Prog DataSpec DataFacts IntOps NumSpec NumFacts IntSpec IntFacts IdlLit IdlExpr IdlSpec IdlLitFacts PropInt.
Local Open Scope nat_scope.

(** ** Grouping *)
Fixpoint graft (a : expr) (o : arith) (b : expr) : expr :=
  match a with
  | EBin o' x y => if level o' =? level o then EBin o' x (graft y o b) else EBin o a b
  | _ => EBin o a b
  end.
Fixpoint regroup (e : expr) : expr :=
  match e with
  | EBin o a b => graft (regroup a) o (regroup b)
  | EUn u a => EUn u (regroup a)
  | EPar a => EPar (regroup a)
  | _ => e
  end.
(** The grammar as the PEG has it. *)
Inductive rderives : nat -> expr -> list token -> Prop :=
| rd_up l e ts : l < 7 -> rderives (S l) e ts -> rderives l e ts
| rd_bin o a b ts ts' : rderives (S (level o)) a ts -> rderives (level o) b ts' -> rderives (level o) (EBin o a b) (ts ++ KOp o :: ts')
| rd_un u e ts : rderives 7 e ts -> rderives 6 (EUn u e) (unary_token u :: ts)
| rd_par e ts : rderives 0 e ts -> rderives 7 (EPar e) (KOpen :: ts ++ [KClose])
| rd_lit l s : rderives 7 (ELit l s) [KLit l s]
| rd_name x : rderives 7 (EName x) [KName x].
Lemma level_lt o : level o < 6.
Proof. destruct o; cbn; lia. Qed.
Lemma rderives_level l e ts : rderives l e ts -> forall l', same_level l' e -> l <= l'.
Proof. induction 1; intros l' Hs; cbn in Hs; try contradiction; [apply IHrderives in Hs; lia|lia]. Qed.
Lemma derives_level l e ts : derives l e ts -> forall l', same_level l' e -> l <= l'.
Proof. induction 1; intros l' Hs; cbn in Hs; try contradiction; [apply IHderives in Hs; lia|lia]. Qed.
Lemma graft_other a o b : ~ same_level (level o) a -> graft a o b = EBin o a b.
Proof. destruct a; intros H; try reflexivity. cbn in *. destruct (Nat.eqb_spec (level o0) (level o)); [contradiction|reflexivity]. Qed.
Lemma graft_rderives l A ts : rderives l A ts -> forall o B ts', level o = l -> rderives l B ts' -> rderives l (graft A o B) (ts ++ KOp o :: ts').
Proof.
  induction 1 as [l e ts Hl H IH|o' a b ts ts1 H1 IH1 H2 IH2|u e ts H IH|e ts H IH|x s|x]; intros o B ts' Hlv HB; try (pose proof (level_lt o); lia).
  - rewrite graft_other.
    + subst l. apply rd_bin; assumption.
    + intros Hs. rewrite Hlv in Hs. pose proof (rderives_level _ _ _ H _ Hs). lia.
  - cbn [graft]. rewrite <- Hlv, Nat.eqb_refl. rewrite <- app_assoc. cbn [app]. rewrite Hlv. apply rd_bin; [exact H1|]. apply IH2; assumption.
Qed.
Lemma derives_rderives l e ts : derives l e ts -> rderives l (regroup e) ts.
Proof.
  induction 1 as [l e ts Hl H IH|o a b ts ts1 H1 IH1 H2 IH2|u e ts H IH|e ts H IH|x s|x]; cbn [regroup]; try (constructor; assumption).
  apply graft_rderives; [exact IH1|reflexivity|]. apply rd_up; [pose proof (level_lt o); lia|exact IH2].
Qed.
Lemma derives_prepend l b ts' : derives l b ts' -> forall o a ts, level o = l -> derives (S l) a ts -> exists e, derives l e (ts ++ KOp o :: ts').
Proof.
  induction 1 as [l e ts1 Hl H IH|o' x y ts1 ts2 H1 IH1 H2 IH2|u e ts1 H IH|e ts1 H IH|x s|x]; intros o a ts Hlv Ha; try (pose proof (level_lt o); lia).
  - exists (EBin o a e). subst l. apply de_bin; [apply de_up; [lia|exact Ha]|exact H].
  - destruct (IH1 o a ts Hlv Ha) as (e & He). exists (EBin o' e y). replace (ts ++ KOp o :: ts1 ++ KOp o' :: ts2) with ((ts ++ KOp o :: ts1) ++ KOp o' :: ts2) by (rewrite <- app_assoc; reflexivity).
    apply de_bin; assumption.
Qed.
Lemma rderives_derives l e' ts : rderives l e' ts -> exists e, derives l e ts.
Proof.
  induction 1 as [l e ts Hl H IH|o a b ts ts1 H1 IH1 H2 IH2|u e ts H IH|e ts H IH|x s|x].
  - destruct IH as (e0 & He). exists e0. apply de_up; assumption.
  - destruct IH1 as (a0 & Ha), IH2 as (b0 & Hb). eapply derives_prepend; [exact Hb|reflexivity|exact Ha].
  - destruct IH as (e0 & He). eexists. apply de_un, He.
  - destruct IH as (e0 & He). eexists. apply de_par, He.
  - eexists. apply de_lit.
  - eexists. apply de_name.
Qed.

(** ** The parser *)
Definition follow (l : nat) (rest : list token) : Prop := match rest with KOp o :: _ => level o < l | _ => True end.
Definition unary_start (ts : list token) : Prop := match ts with KOp Sub :: _ | KOp Add :: _ | KTilde :: _ => True | _ => False end.
Lemma rderives7_start e ts : rderives 7 e ts -> ~ unary_start ts /\ ts <> [].
Proof. intros H. inversion H; subst; try lia; try (match goal with o : arith |- _ => pose proof (level_lt o) end; lia); (split; [cbn; tauto|discriminate]). Qed.
Lemma parse_complete l e ts : rderives l e ts -> forall f rest, 8 * List.length ts + (8 - l) <= f -> follow l rest -> parse f l (ts ++ rest) = Some (e, rest).
Proof.
  induction 1 as [l e ts Hl H IH|o a b ts ts1 H1 IH1 H2 IH2|u e ts H IH|e ts H IH|x s|x]; intros f rest Hf Hr; (destruct f as [|n]; [exfalso; try (pose proof (level_lt o)); lia|]).
  - cbn [parse]. destruct (Nat.ltb_spec l 6) as [Hl6|Hl6].
    + rewrite IH; [|lia|destruct rest as [|[] ?]; cbn in *; try exact I; lia]. destruct rest as [|[ | |o| | | ] r]; try reflexivity. cbn in Hr. rewrite (proj2 (Nat.eqb_neq _ _)) by lia. reflexivity.
    + assert (l = 6) by lia. subst l. cbn [Nat.eqb]. destruct (rderives7_start _ _ H) as [Hu Hne].
      assert (E : parse n 7 (ts ++ rest) = Some (e, rest)).
      { apply IH; [lia|]. destruct rest as [|[ | |o| | | ] ?]; cbn in *; try exact I. pose proof (level_lt o). lia. }
      destruct ts as [|[ | |o| | | ] ts]; [congruence|exact E|exact E| |exfalso; apply Hu; exact I|exact E|exact E].
      destruct o; try exact E; exfalso; apply Hu; exact I.
  - rewrite app_length in Hf. cbn [List.length] in Hf. pose proof (level_lt o) as Ho. cbn [parse]. rewrite (proj2 (Nat.ltb_lt _ _) Ho). rewrite <- app_assoc. cbn [app].
    rewrite IH1; [|lia|cbn; lia]. rewrite Nat.eqb_refl. rewrite IH2; [reflexivity|lia|exact Hr].
  - cbn [List.length] in Hf. cbn [parse Nat.ltb Nat.leb Nat.eqb]. assert (E : parse n 7 (ts ++ rest) = Some (e, rest)). { apply IH; [lia|]. destruct rest as [|[] ?]; cbn in *; try exact I. pose proof (level_lt o). lia. }
    destruct u; cbn [unary_token app]; rewrite E; reflexivity.
  - cbn [List.length] in Hf. rewrite app_length in Hf. cbn [List.length] in Hf. cbn [parse Nat.ltb Nat.leb Nat.eqb app]. rewrite <- app_assoc. cbn [app]. rewrite IH; [reflexivity|lia|exact I].
  - reflexivity.
  - reflexivity.
Qed.
Lemma parse_sound f : forall l ts e rest, l <= 7 -> parse f l ts = Some (e, rest) -> exists ts0, ts = ts0 ++ rest /\ rderives l e ts0.
Proof.
  induction f as [|n IH]; intros l ts e rest Hl7 H; [discriminate H|]. cbn [parse] in H. destruct (Nat.ltb_spec l 6) as [Hl|Hl].
  - destruct (parse n (S l) ts) as [[a r]|] eqn:E; [|discriminate H]. destruct (IH (S l) ts a r ltac:(lia) E) as (ts0 & -> & Ha). assert (Hup : rderives l a ts0) by (apply rd_up; [lia|exact Ha]).
    destruct r as [|[ | |o| | | ] r]; try (injection H as <- <-; exists ts0; split; [reflexivity|exact Hup]).
    destruct (Nat.eqb_spec (level o) l) as [Ho|Ho]; [|injection H as <- <-; exists ts0; split; [reflexivity|exact Hup]].
    destruct (parse n l r) as [[b r']|] eqn:E2; [|injection H as <- <-; exists ts0; split; [reflexivity|exact Hup]].
    injection H as <- <-. destruct (IH l r b r' Hl7 E2) as (ts1 & -> & Hb). exists (ts0 ++ KOp o :: ts1). split; [rewrite <- app_assoc; reflexivity|]. subst l. apply rd_bin; assumption.
  - destruct (Nat.eqb_spec l 6) as [->|Hn].
    + assert (H7 : parse n 7 ts = Some (e, rest) -> exists ts0, ts = ts0 ++ rest /\ rderives 6 e ts0).
      { intros E. destruct (IH 7 ts e rest ltac:(lia) E) as (ts0 & E0 & H0). exists ts0. split; [exact E0|]. apply rd_up; [lia|exact H0]. }
      assert (Hun : forall u r, ts = unary_token u :: r -> match parse n 7 r with Some (e0, r') => Some (EUn u e0, r') | None => parse n 7 ts end = Some (e, rest) -> exists ts0, ts = ts0 ++ rest /\ rderives 6 e ts0).
      { intros u r Et E. destruct (parse n 7 r) as [[e0 r']|] eqn:E7; [|apply H7, E]. injection E as <- <-. destruct (IH 7 r e0 r' ltac:(lia) E7) as (ts0 & -> & H0). exists (unary_token u :: ts0). split; [rewrite Et; reflexivity|]. apply rd_un, H0. }
      destruct ts as [|[ | |o| | | ] r]; try (apply H7, H); [destruct o; try (apply H7, H); [apply (Hun UPlus r eq_refl), H|apply (Hun UMinus r eq_refl), H]|apply (Hun UTilde r eq_refl), H].
    + assert (l = 7) by lia. subst l. destruct ts as [|[l s|x|o| | | ] r]; try discriminate H.
      * injection H as <- <-. exists [KLit l s]. split; [reflexivity|apply rd_lit].
      * injection H as <- <-. exists [KName x]. split; [reflexivity|apply rd_name].
      * destruct (parse n 0 r) as [[e0 [|[] r']]|] eqn:E0; try discriminate H. injection H as <- <-. destruct (IH 0 r e0 _ ltac:(lia) E0) as (ts0 & -> & H0). exists (KOpen :: ts0 ++ [KClose]).
        split; [cbn [app]; rewrite <- app_assoc; reflexivity|]. apply rd_par, H0.
Qed.
Lemma parse_expr_iff ts e' : parse_expr ts = Some e' <-> rderives 0 e' ts.
Proof.
  unfold parse_expr. split.
  - intros H. destruct (parse (enough ts) 0 ts) as [[e r]|] eqn:E; [|discriminate H]. destruct r; [|discriminate H]. injection H as <-. assert (H07 : 0 <= 7) by lia. destruct (parse_sound _ _ _ _ _ H07 E) as (ts0 & E0 & H). rewrite app_nil_r in E0. subst ts0. exact H.
  - intros H. assert (Hf : 8 * List.length ts + (8 - 0) <= enough ts) by (unfold enough; lia). pose proof (parse_complete _ _ _ H (enough ts) [] Hf I) as E. rewrite app_nil_r in E. rewrite E. reflexivity.
Qed.
Lemma parse_expr_idl e ts : idl_expr e ts -> parse_expr ts = Some (regroup e).
Proof. intros H. apply parse_expr_iff, derives_rderives, H. Qed.

(** ** Evaluation *)
Local Open Scope Z_scope.
Lemma assign_result_int fc p v z : is_int v p z -> exists d, assign_result fc p v = Ok d /\ is_int d p z.
Proof.
  intros Hv. destruct (new_holds (TPrim p)) as (r & Er & Tr & Hr & _); [apply at_prim|exact I|].
  assert (Hri : exists z0, is_int r p z0).
  { cbn [rget] in Tr. destruct (default_value (TPrim p)) as [bs| | |] eqn:Eb; try discriminate Eb. destruct (operand_holds r p bs Hr Tr) as (_ & H1 & H2).
    exists (prim_int p bs). split; [exact Tr|]. exists bs. split; [exact Hr|]. apply number_prim_int; assumption. }
  destruct Hri as (z0 & Hri). destruct (assign_int fc r v p z0 z Hri Hv) as (m & Em & Hm). unfold assign_result. rewrite Er. cbn [bind]. unfold assign_data.
  rewrite (proj1 Hri), (proj1 Hv). replace (is_compatible (TPrim p) (TPrim p)) with (Ok EQUALS) by (destruct p; reflexivity). cbn [bind]. rewrite N.eqb_refl.
  rewrite (proj1 Hri) in Em, Hm. rewrite Em. cbn [bind]. eexists. split; [reflexivity|exact Hm].
Qed.
Lemma solve_sound fc flt env p e z : int_kind p = true -> evaluates p env e z -> unary_safe p e -> exists d, solve fc flt env p e = Ok d /\ is_int d p z.
Proof.
  intros Hk H. induction H as [l base rest z Hl He Hf|x d z Ex Hd|e z H IH|u e a H IH Hf|o x y a b Hx IHx Hy IHy Hdf Hf]; intros Hu; cbn [solve unary_safe] in *.
  - unfold get_literal_value. rewrite (base_of_literal _ _ _ Hl), (read_number_literal p l base z rest Hk Hl He Hf).
    destruct (result_int fc p z (int_kind_bool p Hk)) as (d & r & Ed & Hd & Hr). exists d. split; [exact Ed|]. rewrite (reduced_unique p z z r (reduced_fits p z Hf) Hr). exact Hd.
  - unfold constant. rewrite Ex. cbn [bind]. apply assign_result_int, Hd.
  - apply IH, Hu.
  - destruct Hu as [Hu1 Hu2]. destruct (IH Hu1) as (d & Ed & Hd). rewrite Ed. cbn [bind]. destruct (assign_result_int fc p d a Hd) as (d1 & E1 & H1). rewrite E1. cbn [bind].
    destruct u; [|exists d1; split; [reflexivity|exact H1]|contradiction Hu2]. cbn [un_math] in *.
    assert (Hs : signed_int_kind p = true) by (destruct p; try discriminate Hk; try discriminate Hu2; reflexivity).
    destruct (C24_negate fc flt d1 p a Hs H1) as [Hneg _]. destruct Hneg as (t & r & Et & Ht & Hr).
    { destruct (Z.eq_dec a (least p)) as [->|Hn]; [|right; exact Hn]. exfalso. unfold fits, greatest, least in Hf. rewrite Hu2 in Hf. lia. }
    rewrite Et. cbn [bind]. rewrite <- (reduced_unique p (- a) (- a) r (reduced_fits p _ Hf) Hr) in Ht. apply assign_result_int, Ht.
  - destruct Hu as [Hu1 Hu2]. destruct (IHx Hu1) as (dx & Ex & Hdx). destruct (IHy Hu2) as (dy & Ey & Hdy). rewrite Ex, Ey. cbn [bind].
    destruct (C24_exact fc flt o dx dy p a b Hk Hdx Hdy Hf) as (t & Et & Ht).
    + assert (Hw : width p <= width (computed_in p)) by (destruct p; vm_compute; congruence). destruct o; cbn [defined] in Hdf; try exact I; try (apply Hdf); lia.
    + intros ->. apply Hdf.
    + rewrite Et. cbn [bind]. apply assign_result_int, Ht.
Qed.

(** *** Bitwise operations stay in the type *)
Lemma signed_range_shift w z : 0 < w -> (- 2 ^ (w - 1) <= z < 2 ^ (w - 1)) <-> (Z.shiftr z (w - 1) = 0 \/ Z.shiftr z (w - 1) = -1).
Proof.
  intros Hw. rewrite Z.shiftr_div_pow2 by lia. assert (Hp : 0 < 2 ^ (w - 1)) by (apply Z.pow_pos_nonneg; lia). set (P := 2 ^ (w - 1)) in *. split.
  - intros H. destruct (Z_lt_dec z 0) as [H0|H0]; [right|left; apply Z.div_small; lia]. symmetry. apply Z.div_unique with (r := z + P); lia.
  - intros [H|H]; pose proof (Z.div_mod z P ltac:(lia)) as E; pose proof (Z.mod_pos_bound z P Hp); rewrite H in E; nia.
Qed.
Lemma unsigned_range_shift w z : 0 < w -> (0 <= z < 2 ^ w) <-> Z.shiftr z w = 0.
Proof.
  intros Hw. rewrite Z.shiftr_div_pow2 by lia. assert (Hp : 0 < 2 ^ w) by (apply Z.pow_pos_nonneg; lia). set (P := 2 ^ w) in *. split.
  - apply Z.div_small.
  - intros H; pose proof (Z.div_mod z P ltac:(lia)) as E; pose proof (Z.mod_pos_bound z P Hp); rewrite H in E; nia.
Qed.
Definition bitwise (o : arith) : Prop := o = BAnd \/ o = BXor \/ o = BOr.
Lemma fits_bitwise o p a b : bitwise o -> fits p a -> fits p b -> fits p (math o a b).
Proof.
  intros Ho. unfold fits, least, greatest. pose proof (width_pos p) as Hw. destruct (prim_signed p).
  - assert (E : forall z, - 2 ^ (width p - 1) <= z <= 2 ^ (width p - 1) - 1 <-> (Z.shiftr z (width p - 1) = 0 \/ Z.shiftr z (width p - 1) = -1)).
    { intros z. rewrite <- signed_range_shift by lia. lia. }
    rewrite !E. intros Ha Hb. destruct Ho as [->|[->| ->]]; cbn [math]; rewrite ?Z.shiftr_land, ?Z.shiftr_lxor, ?Z.shiftr_lor; destruct Ha as [-> | ->], Hb as [-> | ->]; cbn; auto.
  - assert (E : forall z, 0 <= z <= 2 ^ width p - 1 <-> Z.shiftr z (width p) = 0). { intros z. rewrite <- unsigned_range_shift by lia. lia. }
    rewrite !E. intros Ha Hb. destruct Ho as [->|[->| ->]]; cbn [math]; rewrite ?Z.shiftr_land, ?Z.shiftr_lxor, ?Z.shiftr_lor, Ha, Hb; reflexivity.
Qed.
Lemma math_assoc o a b c : bitwise o \/ o = Add \/ o = Mul -> math o (math o a b) c = math o a (math o b c).
Proof.
  intros [[->|[->| ->]]|[->| ->]]; cbn [math]; [symmetry; apply Z.land_assoc|apply Z.lxor_assoc|symmetry; apply Z.lor_assoc|lia|ring].
Qed.
Lemma evaluates_fits p env e z : evaluates p env e z -> fits p z.
Proof. induction 1 as [l base rest z Hl He Hf|x d z Ex Hd|e z H IH|u e a H IH Hf|o x y a b Hx IHx Hy IHy Hdf Hf]; try assumption. eapply is_int_fits, Hd. Qed.
Lemma is_int_unique d p z z' : is_int d p z -> is_int d p z' -> z = z'.
Proof.
  intros (_ & bs & H & Hn) (_ & bs' & H' & Hn'). destruct H as (_ & _ & _ & _ & R). destruct H' as (_ & _ & _ & _ & R'). rewrite R in R'. injection R' as <-. eapply number_unique; eassumption.
Qed.
Lemma evaluates_unique p env e z : evaluates p env e z -> forall z', evaluates p env e z' -> z = z'.
Proof.
  induction 1 as [l base rest z Hl He Hf|x d z Ex Hd|e z H IH|u e a H IH Hf|o x y a b Hx IHx Hy IHy Hdf Hf]; intros z' H'; inversion H'; subst.
  - eapply literal_unique; eassumption.
  - assert (d = d0) by congruence. subst d0. eapply is_int_unique; eassumption.
  - apply IH. assumption.
  - f_equal. apply IH. assumption.
  - f_equal; [apply IHx|apply IHy]; assumption.
Qed.

(** *** Grouping to the right keeps the value *)
Fixpoint ronly (o : arith) (e : expr) : Prop := match e with EBin o' _ b => level o' = level o -> o' = o /\ ronly o b | _ => True end.
Lemma graft_only o A B : ronly o A -> ~ same_level (level o) B -> ronly o (graft A o B).
Proof.
  induction A as [ | | | |o' x IHx y IHy]; intros HA HB; try (cbn; intros _; split; [reflexivity|]; destruct B; cbn in *; tauto).
  cbn [graft]. destruct (Nat.eqb_spec (level o') (level o)) as [E|E].
  - cbn. intros _. destruct (HA E) as [-> Hy]. split; [reflexivity|]. apply IHy; assumption.
  - cbn. intros _. split; [reflexivity|]. destruct B; cbn in *; tauto.
Qed.
Lemma bitwise_defined o p a b : bitwise o \/ o = Add \/ o = Mul -> defined o p a b.
Proof. intros [[->|[->| ->]]|[->| ->]]; exact I. Qed.
Lemma graft_bitwise p env o A B b : bitwise o -> ronly o A -> evaluates p env B b -> forall a, evaluates p env A a -> evaluates p env (graft A o B) (math o a b).
Proof.
  intros Ho. induction A as [ | | | |o' x IHx y IHy]; intros HA HB a Ha;
    try (cbn [graft]; apply ev_bin; [exact Ha|exact HB|apply bitwise_defined; tauto|apply fits_bitwise; [exact Ho|eapply evaluates_fits, Ha|eapply evaluates_fits, HB]]).
  cbn [graft]. destruct (Nat.eqb_spec (level o') (level o)) as [E|E].
  - destruct (HA E) as [-> Hy]. inversion Ha; subst. rewrite math_assoc by tauto. pose proof (IHy Hy HB _ ltac:(eassumption)) as H.
    apply ev_bin; [assumption|exact H|apply bitwise_defined; tauto|]. apply fits_bitwise; [exact Ho| |]; eapply evaluates_fits; eassumption.
  - apply ev_bin; [exact Ha|exact HB|apply bitwise_defined; tauto|apply fits_bitwise; [exact Ho|eapply evaluates_fits, Ha|eapply evaluates_fits, HB]].
Qed.
(** Chains of additions or multiplications, grouped to the right. *)
Fixpoint rleast (m : Z) p env (o : arith) (e : expr) : Prop :=
  match e with
  | EBin o' a b => (o' = o /\ (forall z, evaluates p env a z -> m <= z) /\ rleast m p env o b) \/
      (level o' <> level o /\ forall z, evaluates p env e z -> m <= z)
  | _ => forall z, evaluates p env e z -> m <= z
  end.
Definition grows (o : arith) (m : Z) : Prop := (o = Add /\ m = 0) \/ (o = Mul /\ m = 1).
Lemma grows_least o m a b : grows o m -> m <= a -> m <= b -> m <= math o a b /\ b <= math o a b /\ a <= math o a b.
Proof. intros [[-> ->]|[-> ->]]; cbn [math]; nia. Qed.
Lemma rleast_least m p env o e : grows o m -> rleast m p env o e -> forall z, evaluates p env e z -> m <= z.
Proof.
  intros Ho. induction e as [ | | | |o' x IHx y IHy]; intros H z Hz; try (apply H, Hz). cbn in H. destruct H as [(-> & Hx & Hy)|(_ & H)]; [|apply H, Hz].
  inversion Hz; subst. apply (grows_least o m a b Ho); [apply Hx; assumption|apply (IHy Hy); assumption].
Qed.
Lemma fits_between p m x z : fits p z -> 0 <= m -> m <= x -> x <= z -> fits p x.
Proof. unfold fits, least. intros H H0 H1 H2. pose proof (half_pos p). destruct (prim_signed p); lia. Qed.
Lemma graft_grows m p env o A B b : grows o m -> rleast m p env o A -> evaluates p env B b -> m <= b ->
  forall a, evaluates p env A a -> fits p (math o a b) -> evaluates p env (graft A o B) (math o a b) /\ (rleast m p env o B -> ~ same_level (level o) B -> rleast m p env o (graft A o B)).
Proof.
  intros Ho HA HB Hb. assert (Hm : 0 <= m) by (destruct Ho as [[_ ->]|[_ ->]]; lia). assert (Hgo : bitwise o \/ o = Add \/ o = Mul) by (destruct Ho as [[-> _]|[-> _]]; tauto).
  induction A as [ | | | |o' x IHx y IHy]; intros a Ha Hf;
    try (cbn [graft]; split; [apply ev_bin; [exact Ha|exact HB|apply bitwise_defined, Hgo|exact Hf]|intros H1 H2; left; split; [reflexivity|]; split; [exact HA|exact H1]]).
  cbn [graft]. destruct (Nat.eqb_spec (level o') (level o)) as [E|E].
  - cbn in HA. destruct HA as [(-> & Hx & Hy)|(Hne & _)]; [|contradiction].
    inversion Ha; subst. rewrite math_assoc in * by exact Hgo.
    assert (Hu : m <= a0) by (apply Hx; assumption). assert (Hw : m <= b0) by (eapply (rleast_least m p env o y); eassumption).
    pose proof (grows_least o m b0 b Ho Hw Hb) as (G1 & G2 & G3). pose proof (grows_least o m a0 _ Ho Hu G1) as (G4 & G5 & G6).
    destruct (IHy Hy b0 ltac:(assumption)) as [G7 G8]; [eapply fits_between; [exact Hf|exact Hm|exact G1|exact G5]|].
    split; [apply ev_bin; [assumption|exact G7|apply bitwise_defined, Hgo|exact Hf]|]. intros HB1 HB2. left. split; [reflexivity|]. split; [exact Hx|apply G8; assumption].
  - cbn in HA. destruct HA as [(-> & _)|(_ & HA)]; [contradiction|].
    split; [apply ev_bin; [exact Ha|exact HB|apply bitwise_defined, Hgo|exact Hf]|]. intros H1 H2. left. split; [reflexivity|]. split; [exact HA|exact H1].
Qed.

(** The right operand of an operator derived by the grammar is not an unparenthesised operation of the same level. *)
Fixpoint leftish (e : expr) : Prop :=
  match e with
  | EBin o a b => leftish a /\ leftish b /\ ~ same_level (level o) b
  | EUn _ a | EPar a => leftish a
  | _ => True
  end.
Lemma derives_leftish l e ts : derives l e ts -> leftish e.
Proof.
  induction 1 as [l e ts Hl H IH|o a b ts ts1 H1 IH1 H2 IH2|u e ts H IH|e ts H IH|x s|x]; cbn; try assumption; try exact I.
  split; [exact IH1|]. split; [exact IH2|]. intros Hs. pose proof (derives_level _ _ _ H2 _ Hs). lia.
Qed.
Lemma graft_root A o B l : same_level l (graft A o B) <-> l = level o.
Proof.
  destruct A; cbn [graft same_level]; try (split; intros; congruence). destruct (Nat.eqb_spec (level o0) (level o)) as [E|E]; cbn [same_level]; split; intros; congruence.
Qed.
Lemma regroup_root e l : same_level l (regroup e) <-> same_level l e.
Proof. destruct e; cbn [regroup]; try reflexivity. rewrite graft_root. cbn. split; congruence. Qed.
Lemma regroup_only o e : leftish e -> only o e -> ronly o (regroup e).
Proof.
  induction e as [ | | | |o' x IHx y IHy]; intros Hl Ho; try exact I. cbn [regroup]. destruct Hl as (Hl1 & Hl2 & Hl3). cbn in Ho.
  destruct (Nat.eq_dec (level o') (level o)) as [E|E].
  - destruct (Ho E) as [-> Hx]. apply graft_only; [apply IHx; assumption|]. rewrite regroup_root. exact Hl3.
  - assert (Hr : ~ same_level (level o) (graft (regroup x) o' (regroup y))) by (rewrite graft_root; congruence).
    destruct (graft (regroup x) o' (regroup y)); try exact I. cbn in *. intros Ex. contradiction.
Qed.
Lemma rleast_outside m p env o e z : ~ same_level (level o) e -> evaluates p env e z -> m <= z -> rleast m p env o e.
Proof.
  intros Hn He Hm. assert (H : forall z', evaluates p env e z' -> m <= z') by (intros z' Hz; rewrite <- (evaluates_unique _ _ _ _ He _ Hz); exact Hm).
  destruct e as [ | | | |o' x y]; try exact H. right. split; [exact Hn|exact H].
Qed.
Lemma regroup_both p env e z : leftish e -> right_safe p env e -> evaluates p env e z ->
  evaluates p env (regroup e) z /\ forall o m, grows o m -> at_least m p env o e -> rleast m p env o (regroup e).
Proof.
  intros Hl Hs H. revert Hl Hs. induction H as [l base rest z Hx He Hf|x d z Ex Hd|e z H IH|u e a H IH Hf|o x y a b Hx IHx Hy IHy Hdf Hf]; intros Hl Hs; cbn [regroup leftish right_safe] in *.
  - split; [econstructor; eassumption|intros o m _ H; exact H].
  - split; [econstructor; eassumption|intros o m _ H; exact H].
  - destruct (IH Hl Hs) as [H1 _]. split; [apply ev_par, H1|]. intros o m _ Ha. apply rleast_outside with (z := z); [cbn; tauto|apply ev_par, H1|apply Ha, ev_par, H].
  - destruct (IH Hl Hs) as [H1 _]. split; [apply ev_un; [exact H1|exact Hf]|]. intros o m _ Ha. apply rleast_outside with (z := un_math u p a); [cbn; tauto|apply ev_un; assumption|apply Ha, ev_un; assumption].
  - destruct Hl as (Hl1 & Hl2 & Hl3). destruct Hs as (Hs1 & Hs2 & Hs3). destruct (IHx Hl1 Hs1) as [Ex Lx]. destruct (IHy Hl2 Hs2) as [Ey Ly]. clear IHx IHy.
    assert (Hn : ~ same_level (level o) (regroup y)) by (rewrite regroup_root; exact Hl3).
    assert (Hgr : forall m, grows o m -> at_least m p env o (EBin o x y) -> evaluates p env (graft (regroup x) o (regroup y)) (math o a b) /\ rleast m p env o (graft (regroup x) o (regroup y))).
    { intros m Hg Ha. cbn [at_least] in Ha. destruct Ha as [(_ & Hax & Hay)|(Hne & _)]; [|contradiction].
      pose proof (Hay b Hy) as Hb. destruct (graft_grows m p env o (regroup x) (regroup y) b Hg (Lx o m Hg Hax) Ey Hb a Ex Hf) as [H1 H2].
      split; [exact H1|]. apply H2; [|exact Hn]. eapply rleast_outside; eassumption. }
    assert (Hev : evaluates p env (graft (regroup x) o (regroup y)) (math o a b)).
    { destruct Hs3 as [Hnl|[(Ho & Hbw)|Hg]].
      - rewrite graft_other by (rewrite regroup_root; exact Hnl). apply ev_bin; assumption.
      - apply graft_bitwise; [exact Hbw|apply regroup_only; assumption|exact Ey|exact Ex].
      - destruct Hg as [[-> Hg]|[-> Hg]]; [apply (Hgr 0)|apply (Hgr 1)]; try exact Hg; unfold grows; tauto. }
    split; [exact Hev|]. intros o' m Hg Ha. pose proof Ha as Ha0. cbn [at_least] in Ha. destruct Ha as [(-> & _)|(Hne & Ha)].
    + apply (Hgr m Hg Ha0).
    + apply rleast_outside with (z := math o a b); [rewrite graft_root; congruence|exact Hev|apply Ha; apply ev_bin; assumption].
Qed.
Lemma regroup_evaluates p env e z : leftish e -> right_safe p env e -> evaluates p env e z -> evaluates p env (regroup e) z.
Proof. intros Hl Hs H. apply regroup_both; assumption. Qed.
Lemma graft_unary_safe p A o B : unary_safe p A -> unary_safe p B -> unary_safe p (graft A o B).
Proof.
  intros HA HB. induction A as [ | | | |o1 x IHx y IHy]; [cbn in *; tauto..|]. cbn [graft]. destruct (Nat.eqb (level o1) (level o)).
  - cbn in *. split; [tauto|]. apply IHy, HA.
  - cbn in *. tauto.
Qed.
Lemma regroup_unary_safe p e : unary_safe p e -> unary_safe p (regroup e).
Proof. induction e; cbn; try tauto. intros [H1 H2]. apply graft_unary_safe; auto. Qed.
Lemma const_value_sound fc flt env p e ts z : int_kind p = true -> idl_expr e ts -> evaluates p env e z -> right_safe p env e -> unary_safe p e ->
  exists d, const_value fc flt env p ts = Ok d /\ is_int d p z.
Proof.
  intros Hk Hi He Hr Hu. unfold const_value. rewrite (parse_expr_idl _ _ Hi).
  destruct (solve_sound fc flt env p (regroup e) z Hk) as (d & Ed & Hd); [apply regroup_evaluates; [eapply derives_leftish, Hi|exact Hr|exact He]|apply regroup_unary_safe, Hu|].
  rewrite Ed. cbn [bind]. apply assign_result_int, Hd.
Qed.
