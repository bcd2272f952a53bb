(** More proofs about is_compatible: shapes, sizes, symmetry, member lists. *)
From Verif Require Import Base Types TypeBuild TypeSpec Compat CompatSpec TyInd CompatFacts.

Definition mshape (ms : list (string * N * ty)) : list leaf := flat_map (fun m => shape (m_type m)) ms.
Lemma shape_struct nm s ms : shape (TStruct nm s ms) = mshape ms.
Proof. unfold mshape. induction ms as [|m r IH]; cbn; [reflexivity|]. cbn in IH. rewrite IH. reflexivity. Qed.
Lemma shape_union nm s ms l a b c :
  shape (TUnion nm s ms l a b c) = [LUnion (map (fun m => shape (m_type m)) ms)].
Proof. cbn [shape]. apply (f_equal (fun x => [LUnion x])). induction ms as [|m r IH]; cbn; [reflexivity|]. rewrite IH. reflexivity. Qed.
Lemma shape_rget t : shape (rget t) = shape t.
Proof. induction t using ty_ind'; cbn [rget shape]; try reflexivity. exact IHt. Qed.

Lemma compat_members_equals rec ms oms acc :
  compat_members rec ms oms acc = Ok EQUALS ->
  acc = EQUALS /\
  Forall2 (fun m om => rec (m_type m) (m_type om) = Ok EQUALS /\ m_name m = m_name om) ms oms.
Proof.
  revert oms acc. induction ms as [|m r IH]; intros [|om omr] acc; cbn [compat_members].
  - intros [= ->]. split; [reflexivity|constructor].
  - intros [= H]. apply N.lor_eq_0_iff in H as [_ H]. discriminate H.
  - intros [= H]. apply N.lor_eq_0_iff in H as [_ H]. discriminate H.
  - destruct (rec (m_type m) (m_type om)) as [c|e] eqn:E; cbn [bind]; [|discriminate].
    destruct (c =? NONE); [discriminate|].
    intros H. apply IH in H as [H1 H2].
    apply N.lor_eq_0_iff in H1 as [H1 ->].
    destruct (String.eqb (m_name m) (m_name om)) eqn:En.
    + apply String.eqb_eq in En. subst acc. split; [reflexivity|]. constructor; auto.
    + apply N.lor_eq_0_iff in H1 as [_ H1]. discriminate H1.
Qed.

Lemma Forall2_impl {A B} (P Q : A -> B -> Prop) l l' :
  (forall a b, P a b -> Q a b) -> Forall2 P l l' -> Forall2 Q l l'.
Proof. intros H HF. induction HF; constructor; auto. Qed.
Lemma Forall2_In_l {A B} (P : A -> B -> Prop) l l' :
  Forall2 P l l' -> Forall2 (fun a b => In a l /\ In b l' /\ P a b) l l'.
Proof.
  intros H. induction H as [|a b l l' Hab H IH]; constructor.
  - split; [left; reflexivity|split; [left; reflexivity|exact Hab]].
  - eapply Forall2_impl; [|exact IH]. cbn. intros x y (H1 & H2 & H3). tauto.
Qed.

Lemma skind_eqb_eq a b : skind_eqb a b = true -> a = b.
Proof. destruct a, b; cbn; congruence. Qed.

Lemma Ok_inj {A} (a b : A) : Ok a = Ok b -> a = b.
Proof. congruence. Qed.
Lemma bind_ok {A B} (r : res A) (f : A -> res B) b :
  bind r f = Ok b -> exists a, r = Ok a /\ f a = Ok b.
Proof. destruct r; cbn; [eauto|discriminate]. Qed.

Lemma compat_equals_shape : forall n t o, (mu t o < n)%nat ->
  is_compatible t o = Ok EQUALS -> shape t = shape o.
Proof.
  induction n as [|n IH]; intros t o Hn; [lia|].
  assert (H : forall a b, (mu a b < mu t o)%nat -> is_compatible a b = Ok EQUALS -> shape a = shape b).
  { intros a b Hab. apply IH. lia. }
  assert (Hfl : forall nm s oms, flips t (TStruct nm s oms) = true -> o = TStruct nm s oms ->
     is_compatible o t = Ok EQUALS -> shape t = shape o).
  { intros nm s oms Hf -> Hc. symmetry. revert Hc. apply H. unfold mu at 2. rewrite Hf. unfold mu. cbn [flips]. lia. }
  clear IH. rewrite is_compatible_eq.
  destruct t; destruct o; cbn [compat_body]; try discriminate;
    try solve [apply (Hfl _ _ _ eq_refl eq_refl)].
  - (* prim prim *)
    destruct (negb _); [discriminate|]. destruct p, p0; cbn; first [reflexivity|discriminate].
  - (* prim str *) destruct k; discriminate.
  - (* prim alias *)
    intros Hc. symmetry. revert Hc. apply H. apply mu_flip_alias; exact I.
  - (* enum prim *)
    change (is_enumerated_type (TPrim p)) with (is_enumerated_type (TPrim p)).
    replace (is_enumerated_type (TPrim p)) with false by (destruct p; reflexivity).
    destruct (negb _); [discriminate|]. cbn [msize shape].
    destruct (sz =? prim_size p) eqn:E; [apply N.eqb_eq in E; subst; reflexivity|].
    destruct (N.land _ _ =? 0); intros [= Hx]; discriminate Hx.
  - (* enum enum *)
    change (is_enumerated_type (TEnum nm0 sz0 vals0)) with true. cbn iota. cbn [msize shape].
    destruct (sz =? sz0) eqn:E; [apply N.eqb_eq in E; subst; reflexivity|discriminate].
  - destruct k; discriminate.
  - intros Hc. rewrite <- (shape_rget (TAlias nm0 o)). revert Hc. apply H; mu_tac.
  - (* str str *)
    destruct (skind_eqb k k0) eqn:E; [|discriminate]. apply skind_eqb_eq in E as ->.
    destruct (bound =? bound0) eqn:E; [apply N.eqb_eq in E as ->; reflexivity|discriminate].
  - intros Hc. rewrite <- (shape_rget (TAlias nm o)). revert Hc. apply H; mu_tac.
  - (* arr arr *)
    intros Hc. apply bind_ok in Hc as (x & Hx & Hc).
    destruct (n0 =? n1) eqn:E; apply Ok_inj in Hc;
      [rewrite N.lor_0_l in Hc|apply N.lor_eq_0_iff in Hc as [Hc1 Hc]; discriminate].
    subst x. apply N.eqb_eq in E as ->. apply H in Hx; [|mu_tac]. cbn [shape]. rewrite Hx. reflexivity.
  - intros Hc. rewrite <- (shape_rget (TAlias nm0 o)). revert Hc. apply H; mu_tac.
  - (* seq *)
    intros Hc. apply bind_ok in Hc as (x & Hx & Hc).
    destruct (bound =? bound0) eqn:E; apply Ok_inj in Hc;
      [rewrite N.lor_0_l in Hc|apply N.lor_eq_0_iff in Hc as [Hc1 Hc]; discriminate].
    subst x. apply N.eqb_eq in E as ->. apply H in Hx; [|mu_tac]. cbn [shape]. rewrite Hx. reflexivity.
  - intros Hc. rewrite <- (shape_rget (TAlias nm o)). revert Hc. apply H; mu_tac.
  - (* map *)
    intros Hc. apply bind_ok in Hc as (x & Hx & Hc).
    destruct (bound =? bound0) eqn:E; apply Ok_inj in Hc;
      [rewrite N.lor_0_l in Hc|apply N.lor_eq_0_iff in Hc as [Hc1 Hc]; discriminate].
    subst x. apply N.eqb_eq in E as ->. apply H in Hx; [|mu_tac]. cbn [shape] in *. rewrite Hx. reflexivity.
  - intros Hc. rewrite <- (shape_rget (TAlias nm o)). revert Hc. apply H; mu_tac.
  - (* pair *)
    intros Hc. apply bind_ok in Hc as (x & Hx & Hc). apply bind_ok in Hc as (y & Hy & Hc).
    apply Ok_inj in Hc. apply N.lor_eq_0_iff in Hc as [-> ->].
    apply H in Hx; [|mu_tac]. apply H in Hy; [|mu_tac]. cbn [shape]. rewrite Hx, Hy. reflexivity.
  - intros Hc. rewrite <- (shape_rget (TAlias nm o)). revert Hc. apply H; mu_tac.
  (* struct against a non-struct *)
  - destruct ms as [|m [|m2 r]]; try discriminate. intros Hc. rewrite shape_struct. unfold mshape; cbn [flat_map].
    rewrite app_nil_r. symmetry. revert Hc. apply H; mu_tac.
  - destruct ms as [|m [|m2 r]]; try discriminate. intros Hc. rewrite shape_struct. unfold mshape; cbn [flat_map].
    rewrite app_nil_r. symmetry. revert Hc. apply H; mu_tac.
  - destruct ms as [|m [|m2 r]]; try discriminate. intros Hc. rewrite shape_struct. unfold mshape; cbn [flat_map].
    rewrite app_nil_r. symmetry. revert Hc. apply H; mu_tac.
  - destruct ms as [|m [|m2 r]]; try discriminate. intros Hc. rewrite shape_struct. unfold mshape; cbn [flat_map].
    rewrite app_nil_r. symmetry. revert Hc. apply H; mu_tac.
  - destruct ms as [|m [|m2 r]]; try discriminate. intros Hc. rewrite shape_struct. unfold mshape; cbn [flat_map].
    rewrite app_nil_r. symmetry. revert Hc. apply H; mu_tac.
  - destruct ms as [|m [|m2 r]]; try discriminate. intros Hc. rewrite shape_struct. unfold mshape; cbn [flat_map].
    rewrite app_nil_r. symmetry. revert Hc. apply H; mu_tac.
  - destruct ms as [|m [|m2 r]]; try discriminate. intros Hc. rewrite shape_struct. unfold mshape; cbn [flat_map].
    rewrite app_nil_r. symmetry. revert Hc. apply H; mu_tac.
  - (* struct struct *)
    assert (Hgen : compat_members is_compatible ms ms0 EQUALS = Ok EQUALS ->
       shape (TStruct nm msize ms) = shape (TStruct nm0 msize0 ms0)).
    { intros Hc. apply compat_members_equals in Hc as [_ Hc]. rewrite !shape_struct.
      apply Forall2_In_l in Hc. unfold mshape.
      assert (Hsh : Forall2 (fun m om => shape (m_type m) = shape (m_type om)) ms ms0).
      { eapply Forall2_impl; [|exact Hc]. cbn. intros m om (H1 & H2 & H3 & _). revert H3. apply H. mu_tac. }
      clear -Hsh. induction Hsh as [|m om ms ms0 Hm _ IH]; cbn; [reflexivity|]. rewrite Hm, IH. reflexivity. }
    destruct ms as [|m [|m2 r]]; try exact Hgen.
    intros Hc. rewrite (shape_struct nm). unfold mshape; cbn [flat_map].
    rewrite app_nil_r. symmetry. revert Hc. apply H; mu_tac.
  - destruct ms as [|m [|m2 r]]; try discriminate. intros Hc. rewrite shape_struct. unfold mshape; cbn [flat_map].
    rewrite app_nil_r. symmetry. revert Hc. apply H; mu_tac.
  - intros Hc. rewrite <- (shape_rget (TAlias nm0 o)). revert Hc. apply H; mu_tac.
  - (* union union *)
    intros Hc. apply compat_members_equals in Hc as [_ Hc]. rewrite !shape_union.
    apply Forall2_In_l in Hc. do 2 f_equal.
    assert (Hsh : Forall2 (fun m om => shape (m_type m) = shape (m_type om)) ms ms0).
    { eapply Forall2_impl; [|exact Hc]. cbn. intros m om (H1 & H2 & H3 & _). revert H3. apply H. mu_tac. }
    clear -Hsh. induction Hsh as [|m om ms ms0 Hm _ IH]; cbn; [reflexivity|]. rewrite Hm, IH. reflexivity.
  - intros Hc. rewrite <- (shape_rget (TAlias nm0 o)). revert Hc. apply H; mu_tac.
  (* alias against anything *)
  - intros Hc. rewrite <- (shape_rget (TAlias nm t)). revert Hc. apply H; mu_tac.
  - intros Hc. rewrite <- (shape_rget (TAlias nm t)). revert Hc. apply H; mu_tac.
  - intros Hc. rewrite <- (shape_rget (TAlias nm t)). revert Hc. apply H; mu_tac.
  - intros Hc. rewrite <- (shape_rget (TAlias nm t)). revert Hc. apply H; mu_tac.
  - intros Hc. rewrite <- (shape_rget (TAlias nm t)). revert Hc. apply H; mu_tac.
  - intros Hc. rewrite <- (shape_rget (TAlias nm t)). revert Hc. apply H; mu_tac.
  - intros Hc. rewrite <- (shape_rget (TAlias nm t)). revert Hc. apply H; mu_tac.
  - intros Hc. rewrite <- (shape_rget (TAlias nm t)). revert Hc. apply H; mu_tac.
  - intros Hc. rewrite <- (shape_rget (TAlias nm t)). revert Hc. apply H; mu_tac.
  - rewrite bind_lor0. intros Hc. rewrite <- (shape_rget (TAlias nm t)), <- (shape_rget (TAlias nm0 o)).
    revert Hc. apply H; mu_tac.
Qed.

Lemma compat_equals_same_shape t o : is_compatible t o = Ok EQUALS -> shape t = shape o.
Proof. apply (compat_equals_shape (S (mu t o))). lia. Qed.

(** ** Sizes: a well-formed type's memory_size is determined by its shape. *)
Fixpoint lsize (l : leaf) : N :=
  match l with
  | LBytes n => n
  | LStr _ _ => SZ_STRING
  | LSeq _ _ => SZ_SEQ
  | LMap _ _ => SZ_MAP
  | LUnion ms =>
      let sizes := map (fun m => fold_right (fun l acc => lsize l + acc) 0 m) ms in
      match sizes with [] => 0 | d :: cs => d + fold_right N.max 0 cs end
  end.
Definition lsizes (ls : list leaf) : N := fold_right (fun l acc => lsize l + acc) 0 ls.
Lemma lsizes_app a b : lsizes (a ++ b) = lsizes a + lsizes b.
Proof. unfold lsizes. induction a as [|x a IH]; cbn; [reflexivity|]. rewrite IH. lia. Qed.

Lemma msize_shape t : wf_ty t -> msize t = lsizes (shape t).
Proof.
  induction t as [p|nm sz vals|k b|nm c n IHc|c b IHc|k v b IHk IHv|a b IHa IHb|nm s ms IH|nm s ms l dv iv d IH|nm t IH] using ty_ind'.
  - intros _. cbn. lia.
  - intros _. cbn. lia.
  - intros _. reflexivity.
  - intros [Hc _]. cbn [msize shape]. rewrite (IHc Hc).
    rewrite <- (N2Nat.id n) at 1. induction (N.to_nat n) as [|k IHk]; [reflexivity|].
    cbn [repeat_app]. rewrite lsizes_app, <- IHk. lia.
  - reflexivity.
  - reflexivity.
  - intros [Ha Hb]. cbn [msize shape]. rewrite lsizes_app, IHa, IHb by assumption. reflexivity.
  - intros Hwf. apply wf_struct_iff in Hwf as (_ & -> & _ & Hm). cbn [msize].
    rewrite shape_struct. unfold mshape, total_size.
    induction ms as [|m r IHr]; cbn [flat_map fold_right]; [reflexivity|].
    apply Forall_cons_iff in IH as [IH1 IH2]; apply Forall_cons_iff in Hm as [Hm1 Hm2].
    rewrite lsizes_app, <- (IHr IH2 Hm2), <- (IH1 Hm1). reflexivity.
  - intros Hwf. apply wf_union_iff in Hwf as ((disc & cases & -> & _ & _ & _ & _ & -> & _) & Hm).
    cbn [msize]. rewrite shape_union. cbn [lsizes fold_right lsize map].
    apply Forall_cons_iff in IH as [IH1 IH2]; apply Forall_cons_iff in Hm as [Hm1 Hm2].
    fold (lsizes (shape (m_type disc))). rewrite <- (IH1 Hm1).
    rewrite N.add_0_r. f_equal. unfold max_size. clear IH1 Hm1.
    induction cases as [|m r IHr]; cbn [fold_right map]; [reflexivity|].
    apply Forall_cons_iff in IH2 as [IH1 IH2]; apply Forall_cons_iff in Hm2 as [Hm1 Hm2].
    fold (lsizes (shape (m_type m))). rewrite <- (IH1 Hm1).
    rewrite (IHr IH2 Hm2). reflexivity.
  - intros Hw. cbn [msize shape]. apply IH, Hw.
Qed.

Lemma compat_equals_same_size t o : wf_ty t -> wf_ty o ->
  is_compatible t o = Ok EQUALS -> msize t = msize o.
Proof. intros Ht Ho H. rewrite !msize_shape by assumption. f_equal. apply compat_equals_same_shape, H. Qed.

(** ** Member lists *)
Lemma lor_shuffle a b c d : N.lor (N.lor a b) (N.lor c d) = N.lor (N.lor a c) (N.lor b d).
Proof.
  rewrite <- !N.lor_assoc. f_equal. rewrite !N.lor_assoc. f_equal. apply N.lor_comm.
Qed.

Lemma compat_members_verdict_acc ms oms acc : verdict_ok acc -> acc <> NONE ->
  compat_members is_compatible ms oms acc =
  Ok (if existsb (fun v => v =? NONE) (map verdict_val (pair_verdicts ms oms)) then NONE
      else N.lor acc (members_verdict ms oms)).
Proof.
  revert oms acc. induction ms as [|m r IH]; intros [|om omr] acc Hacc Hn.
  - cbn. rewrite N.lor_0_r. reflexivity.
  - reflexivity.
  - reflexivity.
  - cbn [compat_members]. destruct (is_compatible_total (m_type m) (m_type om)) as [c Hc].
    pose proof (is_compatible_verdict' _ _ _ Hc) as Hvc.
    unfold members_verdict, pair_verdicts. cbn [combine map existsb fst snd length forallb].
    rewrite Hc. cbn [bind verdict_val]. destruct (c =? NONE) eqn:En; cbn [orb]; [reflexivity|].
    apply N.eqb_neq in En.
    assert (Hacc' : verdict_ok (if String.eqb (m_name m) (m_name om) then acc else N.lor acc IGNORE_MEMBER_NAMES)).
    { destruct (String.eqb _ _); [exact Hacc|apply verdict_lor; [exact Hacc|vok]]. }
    assert (Hacc'' : (if String.eqb (m_name m) (m_name om) then acc else N.lor acc IGNORE_MEMBER_NAMES) <> NONE).
    { destruct (String.eqb _ _); [exact Hn|]. intros Hx. apply lor_none_iff in Hx; [|exact Hacc|vok].
      destruct Hx as [Hx|Hx]; [contradiction|discriminate]. }
    rewrite IH; [|apply verdict_lor; assumption|intros Hx; apply lor_none_iff in Hx; tauto].
    fold (pair_verdicts r omr).
    destruct (existsb _ (map verdict_val (pair_verdicts r omr))) eqn:Ee; [reflexivity|].
    f_equal. unfold members_verdict. rewrite Ee. cbn [fold_right Nat.eqb].
    set (V := fold_right N.lor 0 (map verdict_val (pair_verdicts r omr))).
    change (Nat.eqb (Datatypes.length (m :: r)) (Datatypes.length (om :: omr))) with (Nat.eqb (Datatypes.length r) (Datatypes.length omr)).
    set (L := if Nat.eqb (Datatypes.length r) (Datatypes.length omr) then 0 else IGNORE_MEMBERS).
    destruct (String.eqb (m_name m) (m_name om)); cbn [andb].
    + rewrite !N.lor_assoc. reflexivity.
    + set (F := if forallb _ (combine r omr) then 0 else IGNORE_MEMBER_NAMES).
      assert (HF : N.lor IGNORE_MEMBER_NAMES F = IGNORE_MEMBER_NAMES).
      { unfold F. destruct (forallb _ _); reflexivity. }
      rewrite <- HF at 2. clearbody V L F. clear.
      apply N.bits_inj; intros i. rewrite !N.lor_spec.
      destruct (N.testbit acc i), (N.testbit IGNORE_MEMBER_NAMES i), (N.testbit c i),
        (N.testbit V i), (N.testbit F i), (N.testbit L i); reflexivity.
Qed.

Lemma compat_members_is ms oms :
  compat_members is_compatible ms oms EQUALS = Ok (members_verdict ms oms).
Proof.
  rewrite compat_members_verdict_acc; [|vok|discriminate].
  rewrite N.lor_0_l. unfold members_verdict. destruct (existsb _ _); reflexivity.
Qed.

(** ** Symmetry on plain types *)
Definition plain_members (ms : list (string * N * ty)) : bool := forallb (fun m => plain (m_type m)) ms.
Lemma plain_struct nm s ms :
  plain (TStruct nm s ms) = negb (Nat.eqb (List.length ms) 1) && plain_members ms.
Proof.
  cbn [plain]. apply (f_equal (andb _)). unfold plain_members. induction ms as [|m r IH]; cbn; [reflexivity|]. rewrite IH. reflexivity.
Qed.
Lemma plain_union nm s ms l a b c : plain (TUnion nm s ms l a b c) = plain_members ms.
Proof.
  cbn [plain]. unfold plain_members. induction ms as [|m r IH]; cbn; [reflexivity|]. rewrite IH. reflexivity.
Qed.
Lemma plain_rget t : plain (rget t) = plain t.
Proof. induction t using ty_ind'; cbn [rget plain]; try reflexivity. exact IHt. Qed.
Lemma plain_not_enum t : plain t = true -> is_enum t = false.
Proof. destruct t; cbn; congruence. Qed.

Lemma members_verdict_sym ms oms :
  (forall m om, In m ms -> In om oms ->
     is_compatible (m_type m) (m_type om) = is_compatible (m_type om) (m_type m)) ->
  compat_members is_compatible ms oms EQUALS = compat_members is_compatible oms ms EQUALS.
Proof.
  generalize EQUALS. revert oms. induction ms as [|m r IH]; intros [|om omr] acc H; cbn [compat_members]; try reflexivity.
  rewrite (H m om) by (left; reflexivity). destruct (is_compatible (m_type om) (m_type m)) as [c|e]; cbn [bind]; [|reflexivity].
  destruct (c =? NONE); [reflexivity|]. rewrite String.eqb_sym. apply IH.
  intros; apply H; right; assumption.
Qed.

Lemma compat_sym_plain_n : forall n t o, (tsize t + tsize o < n)%nat -> plain t = true -> plain o = true ->
  is_compatible t o = is_compatible o t.
Proof.
  induction n as [|n IH]; intros t o Hn Ht Ho; [lia|].
  rewrite (compat_rget t o) by (left; rewrite (plain_not_enum (rget o)) by (rewrite plain_rget; exact Ho); apply andb_false_r).
  rewrite (compat_rget o t) by (left; rewrite (plain_not_enum (rget t)) by (rewrite plain_rget; exact Ht); apply andb_false_r).
  pose proof (tsize_rget t) as Hst. pose proof (tsize_rget o) as Hso.
  rewrite <- plain_rget in Ht, Ho.
  pose proof (rget_not_alias t) as Hat. pose proof (rget_not_alias o) as Hao.
  destruct (is_prim (rget t)) eqn:Hpt.
  { destruct (rget t) eqn:E; try discriminate Hpt. apply compat_prim_sym; [apply plain_not_enum, Ho|exact Hao]. }
  destruct (is_prim (rget o)) eqn:Hpo.
  { destruct (rget o) eqn:E; try discriminate Hpo. symmetry. apply compat_prim_sym; [apply plain_not_enum, Ht|exact Hat]. }
  remember (rget t) as t' eqn:Et. remember (rget o) as o' eqn:Eo. clear Et Eo.
  assert (Hsz : (tsize t' + tsize o' < S n)%nat) by lia. clear Hn Hst Hso t o.
  assert (Hmem : forall ms oms, (S (members_size ms) + S (members_size oms) < S n)%nat ->
     plain_members ms = true -> plain_members oms = true ->
     compat_members is_compatible ms oms EQUALS = compat_members is_compatible oms ms EQUALS).
  { intros ms oms Hlt Hm Ho'. apply members_verdict_sym. intros m om Hi Hj.
    pose proof (members_size_in _ _ Hi). pose proof (members_size_in _ _ Hj).
    apply IH; [lia|..].
    - unfold plain_members in Hm. rewrite forallb_forall in Hm. apply Hm, Hi.
    - unfold plain_members in Ho'. rewrite forallb_forall in Ho'. apply Ho', Hj. }
  destruct t' as [p|nm sz vals|k b|nm c m|c b|k v b|a b|nm s ms|nm s ms l dv iv d|nm a] eqn:Et; try discriminate Ht; try discriminate Hpt;
  try (exfalso; eapply Hat; reflexivity);
  destruct o' as [p'|nm' sz' vals'|k' b'|nm' c' m'|c' b'|k' v' b'|a' b'|nm' s' ms'|nm' s' ms' l' dv' iv' d'|nm' a'] eqn:Eo; try discriminate Ho; try discriminate Hpo;
  try (exfalso; eapply Hao; reflexivity).
  all: try (rewrite is_compatible_eq; rewrite (is_compatible_eq (TStruct _ _ _)); reflexivity).
  all: try (match goal with |- is_compatible ?x ?y = is_compatible ?y ?x =>
              rewrite (is_compatible_eq x y), (is_compatible_eq y x); reflexivity end).
  all: try rewrite plain_struct in Ht; try rewrite plain_struct in Ho;
       try rewrite plain_union in Ht; try rewrite plain_union in Ho;
       try rewrite !tsize_struct in Hsz; try rewrite !tsize_union in Hsz; cbn [tsize plain] in Hsz, Ht, Ho;
       try apply andb_prop in Ht as [Ht1 Ht2]; try apply andb_prop in Ho as [Ho1 Ho2].
  all: match goal with |- is_compatible ?x ?y = is_compatible ?y ?x =>
         rewrite (is_compatible_eq x y), (is_compatible_eq y x); cbn [compat_body] end.
  all: try solve [destruct ms' as [|? [|? ?]]; cbn in Ho1; try discriminate Ho1; reflexivity].
  all: try solve [destruct ms as [|? [|? ?]]; cbn in Ht1; try discriminate Ht1; reflexivity].
  - replace (skind_eqb k' k) with (skind_eqb k k') by (destruct k, k'; reflexivity).
    rewrite (N.eqb_sym b' b). reflexivity.
  - rewrite (IH c c') by (assumption || lia). rewrite (N.eqb_sym m' m). reflexivity.
  - rewrite (IH c c') by (assumption || lia). rewrite (N.eqb_sym b' b). reflexivity.
  - rewrite (IH (TPair k v) (TPair k' v')) by (cbn [tsize plain]; rewrite ?Ht1, ?Ht2, ?Ho1, ?Ho2; (reflexivity || lia)).
    rewrite (N.eqb_sym b' b). reflexivity.
  - rewrite (IH a a') by (assumption || lia). rewrite (IH b b') by (assumption || lia). reflexivity.
  - assert (Hmm : compat_members is_compatible ms ms' EQUALS = compat_members is_compatible ms' ms EQUALS).
    { apply Hmem; assumption || lia. }
    destruct ms as [|? [|? ?]]; cbn in Ht1; try discriminate Ht1;
    destruct ms' as [|? [|? ?]]; cbn in Ho1; try discriminate Ho1; exact Hmm.
  - apply Hmem; assumption || lia.
Qed.

Lemma compat_sym_plain t o : plain t = true -> plain o = true -> is_compatible t o = is_compatible o t.
Proof. apply (compat_sym_plain_n (S (tsize t + tsize o))). lia. Qed.
