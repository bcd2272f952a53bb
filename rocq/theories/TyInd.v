(** Induction principle for [ty] with hypotheses for the member lists. *)
From Verif Require Import Base Types TypeBuild TypeSpec Compat.

Lemma ty_ind' (P : ty -> Prop) :
  (forall p, P (TPrim p)) ->
  (forall nm sz vals, P (TEnum nm sz vals)) ->
  (forall k b, P (TStr k b)) ->
  (forall nm c n, P c -> P (TArr nm c n)) ->
  (forall c b, P c -> P (TSeq c b)) ->
  (forall k v b, P k -> P v -> P (TMap k v b)) ->
  (forall a b, P a -> P b -> P (TPair a b)) ->
  (forall nm s ms, Forall (fun m => P (m_type m)) ms -> P (TStruct nm s ms)) ->
  (forall nm s ms labels dv iv d, Forall (fun m => P (m_type m)) ms ->
     P (TUnion nm s ms labels dv iv d)) ->
  (forall nm t, P t -> P (TAlias nm t)) ->
  forall t, P t.
Proof.
  intros Hp He Hs Ha Hq Hm Hpa Hst Hu Hal.
  fix IH 1. intros t; destruct t.
  - apply Hp.
  - apply He.
  - apply Hs.
  - apply Ha, IH.
  - apply Hq, IH.
  - apply Hm; apply IH.
  - apply Hpa; apply IH.
  - apply Hst. induction ms as [|m r IHr]; constructor; [apply IH|exact IHr].
  - apply Hu. induction ms as [|m r IHr]; constructor; [apply IH|exact IHr].
  - apply Hal, IH.
Qed.

Definition members_size (ms : list (string * N * ty)) : nat :=
  fold_right (fun m acc => (tsize (m_type m) + acc)%nat) O ms.

Lemma tsize_struct nm s ms : tsize (TStruct nm s ms) = S (members_size ms).
Proof.
  cbn. f_equal. induction ms as [|[[a b] c] r IH]; cbn; [reflexivity|].
  rewrite IH. reflexivity.
Qed.
Lemma tsize_union nm s ms l a b c : tsize (TUnion nm s ms l a b c) = S (members_size ms).
Proof.
  cbn. f_equal. induction ms as [|[[x y] z] r IH]; cbn; [reflexivity|].
  rewrite IH. reflexivity.
Qed.
Lemma tsize_pos t : (1 <= tsize t)%nat.
Proof. destruct t; cbn [tsize]; apply le_n_S, Nat.le_0_l. Qed.
Lemma members_size_in m ms : In m ms -> (tsize (m_type m) <= members_size ms)%nat.
Proof.
  induction ms as [|x r IH]; cbn; [tauto|].
  unfold members_size in *. intros [->|H]; cbn; [lia|]. specialize (IH H). lia.
Qed.
Lemma tsize_rget t : (tsize (rget t) <= tsize t)%nat.
Proof.
  induction t using ty_ind'; try reflexivity.
  cbn [rget tsize]. lia.
Qed.
Lemma rget_not_alias t nm a : rget t <> TAlias nm a.
Proof. induction t using ty_ind'; cbn; congruence. Qed.
Lemma rget_idem t : rget (rget t) = rget t.
Proof. induction t using ty_ind'; cbn; try reflexivity. exact IHt. Qed.
Lemma msize_rget t : msize (rget t) = msize t.
Proof. induction t using ty_ind'; cbn; try reflexivity. exact IHt. Qed.

(** wf_ty unfolded for member lists *)
Definition wf_members (ms : list (string * N * ty)) : Prop := Forall (fun m => wf_ty (m_type m)) ms.
Lemma wf_members_iff ms :
  (fix all (l : list (string * N * ty)) : Prop :=
     match l with [] => True | m :: r => wf_ty (m_type m) /\ all r end) ms <-> wf_members ms.
Proof.
  unfold wf_members. induction ms as [|m r IH].
  - split; constructor.
  - split.
    + intros [H1 H2]. constructor; [exact H1|apply IH, H2].
    + intros H; inversion H; subst. split; [assumption|apply IH; assumption].
Qed.
Lemma wf_struct_iff nm s ms :
  wf_ty (TStruct nm s ms) <->
  laid_out 0 ms /\ s = total_size ms /\ NoDup (map m_name ms) /\ wf_members ms.
Proof. cbn [wf_ty]. rewrite wf_members_iff. reflexivity. Qed.
Lemma wf_union_iff nm s ms labels dv iv d :
  wf_ty (TUnion nm s ms labels dv iv d) <->
  (exists disc cases, ms = disc :: cases /\
     m_name disc = UNION_DISCRIMINATOR /\ m_off disc = 0 /\
     check_discriminator (m_type disc) = true /\
     Forall (fun m => m_off m = msize (m_type disc)) cases /\
     s = msize (m_type disc) + max_size cases /\
     NoDup (map m_name ms) /\
     wf_union_labels (m_type disc) cases labels dv iv d) /\ wf_members ms.
Proof.
  cbn [wf_ty]. rewrite wf_members_iff. destruct ms as [|disc cases].
  - split; [intros [[] _]|intros [(x & y & H & _) _]; discriminate].
  - split.
    + intros [H1 H2]. split; [exists disc, cases; tauto|exact H2].
    + intros [(x & y & H & H1) H2]. inversion H; subst. split; [tauto|exact H2].
Qed.
