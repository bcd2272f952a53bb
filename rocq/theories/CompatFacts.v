(** Proofs about is_compatible. *)
From Verif Require Import Base Types TypeBuild TypeSpec Compat TyInd.

(** ** Termination *)
Definition flips (t o : ty) : bool :=
  match t with
  | TStruct _ _ _ | TAlias _ _ => false
  | _ => match o with TStruct _ _ _ | TAlias _ _ => true | _ => false end
  end.
Definition mu (t o : ty) : nat := (2 * (tsize t + tsize o) + if flips t o then 1 else 0)%nat.

Lemma flips_bound t o : (mu t o <= 2 * (tsize t + tsize o) + 1)%nat.
Proof. unfold mu. destruct (flips t o); lia. Qed.
Lemma mu_lt a b t o : (tsize a + tsize b < tsize t + tsize o)%nat -> (mu a b < mu t o)%nat.
Proof. intros H. pose proof (flips_bound a b). unfold mu at 2. lia. Qed.

Lemma mu_lt_members t o a b : (tsize a + tsize b < tsize t + tsize o)%nat -> (mu a b < mu t o)%nat.
Proof. exact (mu_lt a b t o). Qed.

(** [compat_body rec t o] only calls [rec] on smaller pairs. *)
Lemma compat_members_ext rec1 rec2 ms oms acc :
  (forall m om, In m ms -> In om oms -> rec1 (m_type m) (m_type om) = rec2 (m_type m) (m_type om)) ->
  compat_members rec1 ms oms acc = compat_members rec2 ms oms acc.
Proof.
  revert oms acc. induction ms as [|m r IH]; intros [|om omr] acc H; cbn [compat_members]; try reflexivity.
  rewrite (H m om) by (left; reflexivity).
  destruct (rec2 (m_type m) (m_type om)) as [c|e]; cbn [bind]; [|reflexivity].
  destruct (c =? NONE); [reflexivity|].
  apply IH. intros m' om' Hm Ho. apply H; right; assumption.
Qed.

Lemma mu_flip_alias t nm o : (match t with TAlias _ _ | TStruct _ _ _ => False | _ => True end) ->
  (mu (TAlias nm o) t < mu t (TAlias nm o))%nat.
Proof. destruct t; cbn; intros H; try contradiction; unfold mu; cbn [flips]; lia. Qed.

Lemma tsize_m1 nm s m : tsize (TStruct nm s [m]) = S (tsize (m_type m)).
Proof. rewrite tsize_struct. cbn. lia. Qed.

Ltac mu_tac :=
  apply mu_lt; rewrite ?tsize_struct, ?tsize_union; cbn [tsize rget];
  repeat match goal with
         | |- context [tsize (rget ?x)] =>
             lazymatch goal with H : (tsize (rget x) <= _)%nat |- _ => fail | _ => pose proof (tsize_rget x) end
         | H : In ?m ?ms |- _ =>
             lazymatch goal with H' : (tsize (m_type m) <= _)%nat |- _ => fail
             | _ => pose proof (members_size_in m ms H) end
         end; unfold members_size in *; cbn [fold_right] in *; lia.

Lemma compat_body_ext rec1 rec2 t o :
  (forall a b, (mu a b < mu t o)%nat -> rec1 a b = rec2 a b) ->
  compat_body rec1 t o = compat_body rec2 t o.
Proof.
  intros H.
  assert (Hfl : forall nm s oms, flips t (TStruct nm s oms) = true -> o = TStruct nm s oms -> rec1 o t = rec2 o t).
  { intros nm s oms Hf ->. apply H. unfold mu at 2. rewrite Hf. unfold mu. cbn [flips]. lia. }
  destruct t; destruct o; cbn [compat_body rget]; try reflexivity;
    try (apply (Hfl _ _ _ eq_refl eq_refl));
    try (apply H; mu_tac);
    try (apply H; apply mu_flip_alias; exact I);
    try (rewrite H by mu_tac; reflexivity);
    try (rewrite !H by mu_tac; reflexivity);
    try (destruct ms as [|m [|m2 r]]; [|apply H; mu_tac|]; try reflexivity);
    try (apply compat_members_ext; intros; apply H; mu_tac).
Qed.

Lemma compat_f_stable : forall n t o, (mu t o < n)%nat ->
  forall k, (n <= k)%nat -> compat_f k t o = compat_f n t o.
Proof.
  induction n as [|n IH]; intros t o Hm k Hk; [lia|].
  destruct k as [|k]; [lia|]. cbn [compat_f].
  apply compat_body_ext. intros a b Hab.
  rewrite (IH a b) with (k := k) by lia. reflexivity.
Qed.

Lemma is_compatible_eq t o : is_compatible t o = compat_body is_compatible t o.
Proof.
  unfold is_compatible at 1.
  replace (2 * (tsize t + tsize o) + 2)%nat with (S (2 * (tsize t + tsize o) + 1)) by lia.
  cbn [compat_f]. apply compat_body_ext. intros a b Hab.
  pose proof (flips_bound t o). pose proof (flips_bound a b).
  unfold is_compatible.
  rewrite (compat_f_stable (S (mu a b)) a b) with (k := (2 * (tsize t + tsize o) + 1)%nat) by lia.
  rewrite (compat_f_stable (S (mu a b)) a b) with (k := (2 * (tsize a + tsize b) + 2)%nat) by lia.
  reflexivity.
Qed.

Lemma compat_members_total rec ms oms acc :
  (forall m om, In m ms -> In om oms -> exists v, rec (m_type m) (m_type om) = Ok v) ->
  exists v, compat_members rec ms oms acc = Ok v.
Proof.
  revert oms acc. induction ms as [|m r IH]; intros [|om omr] acc H; cbn [compat_members]; eauto.
  destruct (H m om) as [c Hc]; [left; reflexivity|left; reflexivity|].
  rewrite Hc; cbn [bind]. destruct (c =? NONE); [eauto|].
  apply IH. intros m' om' Hm Ho; apply H; right; assumption.
Qed.

Lemma compat_f_total : forall n t o, (mu t o < n)%nat -> exists v, compat_f n t o = Ok v.
Proof.
  induction n as [|n IH]; intros t o Hm; [lia|]. cbn [compat_f].
  assert (H : forall a b, (mu a b < mu t o)%nat -> exists v, compat_f n a b = Ok v).
  { intros a b Hab. apply IH. lia. }
  clear IH Hm. generalize dependent (compat_f n). clear n. intros rec H.
  assert (Hfl : forall nm s oms, flips t (TStruct nm s oms) = true -> o = TStruct nm s oms -> exists v, rec o t = Ok v).
  { intros nm s oms Hf ->. apply H. unfold mu at 2. rewrite Hf. unfold mu. cbn [flips]. lia. }
  destruct t; destruct o; cbn [compat_body rget]; try solve [eauto];
    try solve [apply (Hfl _ _ _ eq_refl eq_refl)];
    try solve [apply H; mu_tac];
    try solve [apply H; apply mu_flip_alias; exact I].
  all: repeat first
    [ solve [eauto]
    | match goal with
      | |- exists v, bind (?r ?a ?b) _ = _ =>
          let v := fresh in let E := fresh in
          destruct (H a b) as [v E]; [mu_tac|rewrite E; cbn [bind]]
      | |- exists v, ?r ?a ?b = _ => is_var r; apply H; mu_tac
      | |- exists v, (if ?c then _ else _) = _ => destruct c
      | |- exists v, match ?l with [] => _ | _ => _ end = _ => destruct l as [|? [|? ?]]
      | |- exists v, compat_members _ _ _ _ = _ => apply compat_members_total; intros; apply H; mu_tac
      end ].
Qed.

Lemma is_compatible_total t o : exists v, is_compatible t o = Ok v.
Proof. apply compat_f_total. pose proof (flips_bound t o). lia. Qed.

(** ** Alias handling *)
Lemma bind_lor0 (r : res N) : (do x <- r; Ok (N.lor EQUALS x)) = r.
Proof. destruct r; reflexivity. Qed.

Lemma compat_alias_l nm t o : is_compatible (TAlias nm t) o = is_compatible (rget t) (rget o).
Proof.
  rewrite is_compatible_eq. cbn [compat_body rget].
  destruct o; try reflexivity. cbn [rget]. apply bind_lor0.
Qed.

Definition is_enum (t : ty) : bool := match t with TEnum _ _ _ => true | _ => false end.
Definition is_prim (t : ty) : bool := match t with TPrim _ => true | _ => false end.

Lemma compat_prim_sym p o : is_enum o = false ->
  (forall nm a, o <> TAlias nm a) ->
  is_compatible (TPrim p) o = is_compatible o (TPrim p).
Proof.
  intros He Ha. destruct o; try discriminate He.
  - destruct p, p0; reflexivity.
  - destruct k; reflexivity.
  - reflexivity.
  - reflexivity.
  - reflexivity.
  - reflexivity.
  - rewrite is_compatible_eq. reflexivity.
  - reflexivity.
  - exfalso; eapply Ha; reflexivity.
Qed.

Lemma compat_rget t o : (is_prim t && is_enum (rget o) = false \/ (forall nm a, o <> TAlias nm a)) ->
  is_compatible t o = is_compatible (rget t) (rget o).
Proof.
  intros H.
  destruct t; cbn [rget].
  10: apply compat_alias_l.
  all: destruct o; cbn [rget]; try reflexivity.
  2-9: rewrite is_compatible_eq; cbn [compat_body]; reflexivity.
  destruct H as [H|H]; [|exfalso; eapply H; reflexivity].
  rewrite is_compatible_eq. cbn [compat_body]. rewrite compat_alias_l. cbn [rget].
  symmetry. apply compat_prim_sym; [exact H|].
  intros nm' a Hc. eapply rget_not_alias; exact Hc.
Qed.

(** ** Reflexivity *)
Lemma compat_members_refl rec ms :
  (forall m, In m ms -> rec (m_type m) (m_type m) = Ok EQUALS) ->
  compat_members rec ms ms EQUALS = Ok EQUALS.
Proof.
  induction ms as [|m r IH]; intros H; cbn [compat_members]; [reflexivity|].
  rewrite H by (left; reflexivity). cbn [bind].
  change (EQUALS =? NONE) with false. cbn iota. rewrite String.eqb_refl.
  change (N.lor EQUALS EQUALS) with EQUALS. apply IH. intros m' Hm; apply H; right; exact Hm.
Qed.

Lemma compat_refl_gen : forall n t t', (tsize (rget t) < n)%nat -> rget t = rget t' ->
  is_compatible t t' = Ok EQUALS.
Proof.
  induction n as [|n IH]; intros t t' Hn He; [lia|].
  assert (IHm : forall m, (tsize m < tsize (rget t))%nat -> is_compatible m m = Ok EQUALS).
  { intros m Hm. apply IH; [pose proof (tsize_rget m); lia|reflexivity]. }
  assert (IHr : forall m, (tsize m < tsize (rget t))%nat -> is_compatible (rget m) m = Ok EQUALS).
  { intros m Hm. apply IH; [rewrite rget_idem; pose proof (tsize_rget m); lia|apply rget_idem]. }
  assert (Hbase : is_compatible (rget t) (rget t) = Ok EQUALS).
  { pose proof (rget_not_alias t) as Hna. destruct (rget t) as [p|nm sz vals|k b|nm c k|c b|k v b|a b|nm s ms|nm s ms l dv iv d|nm a] eqn:E.
    - destruct p; reflexivity.
    - rewrite is_compatible_eq. cbn [compat_body]. change (is_enumerated_type (TEnum nm sz vals)) with true.
      cbn iota. rewrite N.eqb_refl. reflexivity.
    - rewrite is_compatible_eq. cbn [compat_body]. rewrite N.eqb_refl. destruct k; reflexivity.
    - rewrite is_compatible_eq. cbn [compat_body]. rewrite IHm by (cbn [tsize]; lia).
      cbn [bind]. rewrite N.eqb_refl. reflexivity.
    - rewrite is_compatible_eq. cbn [compat_body]. rewrite IHm by (cbn [tsize]; lia).
      cbn [bind]. rewrite N.eqb_refl. reflexivity.
    - rewrite is_compatible_eq. cbn [compat_body]. rewrite IHm by (cbn [tsize]; lia).
      cbn [bind]. rewrite N.eqb_refl. reflexivity.
    - rewrite is_compatible_eq. cbn [compat_body]. rewrite !IHm by (cbn [tsize]; lia). reflexivity.
    - assert (Hm : forall m, In m ms -> (tsize (m_type m) < tsize (TStruct nm s ms))%nat).
      { intros m Hm. rewrite tsize_struct. pose proof (members_size_in m ms Hm). lia. }
      rewrite is_compatible_eq. cbn [compat_body].
      destruct ms as [|m [|m2 r]].
      + reflexivity.
      + rewrite compat_rget by (left; reflexivity).
        rewrite is_compatible_eq. cbn [compat_body rget].
        assert (Hlt : (tsize (m_type m) < tsize (TStruct nm s [m]))%nat) by (apply Hm; left; reflexivity).
        destruct (rget (m_type m)) as [| | | | | | | | |nm' a'] eqn:Em;
          try (rewrite <- Em; apply IHr; exact Hlt).
        exfalso. eapply rget_not_alias; exact Em.
      + apply compat_members_refl. intros m' Hm'. apply IHm, Hm, Hm'.
    - rewrite is_compatible_eq. cbn [compat_body]. apply compat_members_refl. intros m Hm.
      apply IHm. rewrite tsize_union. pose proof (members_size_in m ms Hm). lia.
    - exfalso; eapply Hna; reflexivity. }
  destruct t' as [| | | | | | | | |nm' a'] eqn:Et';
    try (rewrite compat_rget by (right; discriminate); rewrite <- He; exact Hbase).
  destruct t as [p| | | | | | | | |] eqn:Et;
    try (rewrite compat_rget by (left; reflexivity); rewrite <- He; exact Hbase).
  rewrite is_compatible_eq. cbn [compat_body]. rewrite compat_alias_l. cbn [rget] in He.
  rewrite <- He. exact Hbase.
Qed.

Lemma compat_refl t : is_compatible t t = Ok EQUALS.
Proof. apply (compat_refl_gen (S (tsize (rget t)))); [lia|reflexivity]. Qed.

(** ** Verdict values *)
Definition verdict_ok (v : N) : Prop := v = NONE \/ v < 256.

Lemma lor_lt_256 a b : a < 256 -> b < 256 -> N.lor a b < 256.
Proof.
  intros Ha Hb. destruct (N.eq_dec (N.lor a b) 0) as [->|Hn]; [lia|].
  apply N.log2_lt_pow2 with (b := 8); [lia|].
  rewrite N.log2_lor.
  destruct (N.eq_dec a 0) as [->|]; destruct (N.eq_dec b 0) as [->|]; cbn [N.log2]; try lia.
  - apply N.max_lub_lt; [reflexivity|apply N.log2_lt_pow2; lia].
  - apply N.max_lub_lt; [apply N.log2_lt_pow2; lia|reflexivity].
  - apply N.max_lub_lt; apply N.log2_lt_pow2; lia.
Qed.

Lemma lor_none_l v : verdict_ok v -> N.lor NONE v = NONE.
Proof.
  intros [->|Hv]; [reflexivity|].
  apply N.bits_inj; intros i. rewrite N.lor_spec.
  destruct (N.lt_ge_cases i 32).
  - replace (N.testbit NONE i) with true; [reflexivity|].
    symmetry. change NONE with (N.ones 32). apply N.ones_spec_low; assumption.
  - replace (N.testbit v i) with false; [apply orb_false_r|].
    symmetry. destruct (N.eq_dec v 0) as [->|]; [apply N.bits_0|]. apply N.bits_above_log2.
    assert (N.log2 v < 8) by (apply N.log2_lt_pow2; lia). lia.
Qed.
Lemma lor_none_r v : verdict_ok v -> N.lor v NONE = NONE.
Proof. intros. rewrite N.lor_comm. apply lor_none_l; assumption. Qed.
Lemma verdict_lor a b : verdict_ok a -> verdict_ok b -> verdict_ok (N.lor a b).
Proof.
  intros Ha Hb. destruct Ha as [->|Ha]; [left; apply lor_none_l; assumption|].
  destruct Hb as [->|Hb]; [left; apply lor_none_r; right; assumption|].
  right; apply lor_lt_256; assumption.
Qed.
Lemma lor_none_iff a b : verdict_ok a -> verdict_ok b -> (N.lor a b = NONE <-> a = NONE \/ b = NONE).
Proof.
  intros Ha Hb. split.
  - intros H. destruct Ha as [->|Ha]; [left; reflexivity|]. destruct Hb as [->|Hb]; [right; reflexivity|].
    pose proof (lor_lt_256 a b Ha Hb). rewrite H in H0. discriminate H0.
  - intros [->| ->]; [apply lor_none_l|apply lor_none_r]; assumption.
Qed.
Ltac vok := first [left; reflexivity | right; reflexivity].

Lemma compat_members_verdict rec ms oms acc v :
  (forall m om c, In m ms -> In om oms -> rec (m_type m) (m_type om) = Ok c -> verdict_ok c) ->
  verdict_ok acc -> compat_members rec ms oms acc = Ok v -> verdict_ok v.
Proof.
  revert oms acc. induction ms as [|m r IH]; intros [|om omr] acc H Ha; cbn [compat_members].
  - intros [= <-]; exact Ha.
  - intros [= <-]; apply verdict_lor; [exact Ha|vok].
  - intros [= <-]; apply verdict_lor; [exact Ha|vok].
  - destruct (rec (m_type m) (m_type om)) as [c|e] eqn:E; cbn [bind]; [|discriminate].
    destruct (c =? NONE); [intros [= <-]; vok|].
    apply IH; [intros; eapply H; eauto; right; assumption|].
    apply verdict_lor; [|eapply H; eauto; left; reflexivity].
    destruct (String.eqb _ _); [exact Ha|]. apply verdict_lor; [exact Ha|vok].
Qed.

Lemma is_compatible_verdict : forall n t o, (mu t o < n)%nat ->
  forall v, is_compatible t o = Ok v -> verdict_ok v.
Proof.
  induction n as [|n IH]; intros t o Hn v; [lia|].
  assert (H : forall a b, (mu a b < mu t o)%nat -> forall c, is_compatible a b = Ok c -> verdict_ok c).
  { intros a b Hab c. apply IH. lia. }
  assert (Hfl : forall nm s oms, flips t (TStruct nm s oms) = true -> o = TStruct nm s oms ->
     is_compatible o t = Ok v -> verdict_ok v).
  { intros nm s oms Hf ->. apply H. unfold mu at 2. rewrite Hf. unfold mu. cbn [flips]. lia. }
  rewrite is_compatible_eq.
  destruct t; destruct o; cbn [compat_body rget]; try solve [intros [= <-]; vok];
    try solve [apply (Hfl _ _ _ eq_refl eq_refl)];
    try solve [apply H; mu_tac];
    try solve [apply H; apply mu_flip_alias; exact I].
  all: repeat first
    [ solve [intros [= <-]; repeat (apply verdict_lor); vok]
    | match goal with
      | |- bind (is_compatible ?a ?b) _ = _ -> _ =>
          let v := fresh in let E := fresh in
          destruct (is_compatible a b) as [v|] eqn:E; cbn [bind]; [|discriminate];
          apply H in E; [|mu_tac]
      | |- Ok _ = Ok _ -> _ => intros [= <-]; repeat (apply verdict_lor); try assumption; vok
      | |- is_compatible ?a ?b = _ -> _ => apply H; mu_tac
      | |- (if ?c then _ else _) = _ -> _ => destruct c
      | |- match ?l with [] => _ | _ => _ end = _ -> _ => destruct l as [|? [|? ?]]
      | |- compat_members _ _ _ _ = _ -> _ => apply compat_members_verdict; [intros ? ? ? ? ? ; apply H; mu_tac|vok]
      end ].
  1,2: destruct (msize _ =? msize _), (N.land _ _ =? N.land _ _); intros [= <-]; vok.
  1,2: destruct (msize _ =? msize _), (N.land _ _ =? 0); intros [= <-]; vok.
  all: match goal with |- Ok (N.lor ?a ?b) = Ok _ -> _ =>
         intros Hv; assert (v = N.lor a b) as -> by congruence;
         apply (verdict_lor a b); [vok|assumption] end.
Qed.

Lemma is_compatible_verdict' t o v : is_compatible t o = Ok v -> verdict_ok v.
Proof. apply (is_compatible_verdict (S (mu t o))). lia. Qed.
