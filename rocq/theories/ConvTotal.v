(** Between [convertible] types every value has a converted value. *)
From Verif Require Import Base Types TypeBuild TypeSpec TyInd Mem MemSpec ValueSpec ValueFacts ConvSpec ConvFacts.

Lemma bare_wf o : forall v, wf_value o v -> exists w, bare o v = (strip1 o, w) /\ wf_value (strip1 o) w.
Proof.
  induction o as [p|nm sz vals|k bd|nm c n IHc|c bd IHc|k w bd IHk IHw|x y IHx IHy|nm s ms IHms|nm s ms labels dv iv d IHms|nm a IHa]
    using ty_ind'; intros v Hv; try (exists v; split; [reflexivity|exact Hv]).
  - destruct ms as [|[[mn mo] mt] [|m2 r]]; try (exists v; split; [reflexivity|exact Hv]).
    apply wf_struct_iff' in Hv as (l & -> & Hv). inversion Hv as [|? x ? l' H1 H2]; subst. inversion H2; subst. cbn [m_type snd] in H1.
    inversion IHms as [|? ? H3 _]; subst. cbn [m_type snd] in H3. cbn [bare strip1]. apply H3, H1.
  - cbn [bare strip1]. apply IHa, Hv.
Qed.
Lemma rget_wf o v : wf_value o v -> wf_value (rget o) v.
Proof. induction o using ty_ind'; intros H0; try exact H0. apply IHo, H0. Qed.
Lemma wf_rget o v : wf_value (rget o) v -> wf_value o v.
Proof. induction o using ty_ind'; intros H0; try exact H0. apply IHo, H0. Qed.
Lemma forall_firstn {A} (P : A -> Prop) n l : Forall P l -> Forall P (firstn n l).
Proof. intros H. revert n. induction H; intros [|n]; cbn; constructor; auto. Qed.
Lemma forall_at_most {A} (P : A -> Prop) bd l : Forall P l -> Forall P (at_most bd l).
Proof. unfold at_most. destruct (bd =? 0); [auto|apply forall_firstn]. Qed.
Lemma forall2_choose {A B} (P : A -> B -> Prop) l : Forall (fun x => exists y, P x y) l -> exists l', Forall2 P l l'.
Proof. induction 1 as [|x l (y & Hy) _ (l' & IH)]; [exists []; constructor|exists (y :: l'); constructor; assumption]. Qed.

Lemma scalar_total fc q o v : wf_value o v -> match strip1 o with TPrim _ => True | TEnum _ sz _ => sz = 4 | _ => False end -> exists v', scalar_converts fc q o v v'.
Proof.
  intros Hv Hc. destruct (bare_wf o v Hv) as (w & Eb & Hw). unfold scalar_converts. rewrite Eb.
  destruct (strip1 o) as [p|en sz vals| | | | | | | |]; try contradiction Hc; destruct w as [bs| | |]; try contradiction Hw; eauto.
Qed.
Theorem converts_total fc t : forall o v, convertible t o -> wf_value o v -> exists v', converts fc t o v v'.
Proof.
  induction t as [p|nm sz vals|k bd|nm c n IHc|c bd IHc|k w bd IHk IHw|x y IHx IHy|nm s ms IHms|nm s ms labels dv iv df IHms|nm a IHa]
    using ty_ind'; intros o v Hc Hv; cbn [convertible] in Hc; cbn [converts].
  - apply scalar_total; assumption.
  - apply scalar_total; assumption.
  - destruct (bare_wf o v Hv) as (u & Eb & Hu). rewrite Eb. destruct (strip1 o); try contradiction Hc. destruct u; try contradiction Hu. eauto.
  - destruct (bare_wf o v Hv) as (u & Eb & Hu). rewrite Eb. destruct (strip1 o) as [| | |? c' n'| | | | | |]; try contradiction Hc. destruct u as [| |l|]; try contradiction Hu.
    cbn [wf_value] in Hu. destruct Hc as (H1 & H2 & H3). destruct (forall2_choose (converts fc c c') (firstn (N.to_nat n) l)) as (l' & Hl).
    { apply forall_firstn. eapply Forall_impl; [|apply Hu]. intros z Hz. apply IHc; assumption. }
    exists (VNode l'). auto.
  - destruct (bare_wf o v Hv) as (u & Eb & Hu). rewrite Eb. destruct (strip1 o) as [| | | |c' bd'| | | | |]; try contradiction Hc. destruct u as [| |l|]; try contradiction Hu.
    cbn [wf_value] in Hu. destruct Hc as (H1 & H2 & H3). destruct (forall2_choose (converts fc c c') (at_most bd l)) as (l' & Hl).
    { apply forall_at_most. eapply Forall_impl; [|apply Hu]. intros z Hz. apply IHc; assumption. }
    exists (VNode l'). split; [|auto]. intros Hb. destruct (H1 Hb). auto.
  - destruct (bare_wf o v Hv) as (u & Eb & Hu). rewrite Eb. destruct (strip1 o); try contradiction Hc. destruct u; try contradiction Hu.
    destruct Hc as (H1 & H2 & H3 & H4 & H5). eexists. repeat (split; [assumption|]). reflexivity.
  - destruct (bare_wf o v Hv) as (u & Eb & Hu). rewrite Eb. destruct (strip1 o) as [| | | | | |x' y'| | |]; try contradiction Hc. destruct u as [| |[|p [|q [|? ?]]]|]; try contradiction Hu.
    cbn [wf_value] in Hu. destruct Hc as (H1 & H2 & H3). destruct (IHx _ _ H2 (proj1 Hu)) as (a' & Ha). destruct (IHy _ _ H3 (proj2 Hu)) as (c' & Hc'). exists (VNode [a'; c']). auto.
  - apply rget_wf in Hv. destruct (rget o) as [| | | | | | |on os oms| |] eqn:Er.
    8:{ apply wf_struct_iff' in Hv as (l & -> & Hv). clear Er.
        assert (H : exists l', members_convert fc ms oms l l').
        { revert oms l Hc Hv. induction ms as [|[[mn mo] mt] r IH]; intros oms l Hc Hv.
          - exists []. destruct oms, l; exact I.
          - inversion IHms as [|? ? H1 H2]; subst. destruct oms as [|[[on' oo] ot] orest].
            + inversion Hv; subst. destruct r; [|contradiction Hc]. exists [default_value mt]. reflexivity.
            + inversion Hv as [|? z ? lr Hz Hlr]; subst. assert (Hc' : convertible mt ot /\ (fix go (ms oms : list (string * N * ty)) {struct ms} : Prop :=
             match ms, oms with
             | [], _ => True
             | (_, _, mt) :: r, (_, _, ot) :: orest => convertible mt ot /\ go r orest
             | [_], [] => True
             | _, [] => False
             end) r orest) by (destruct r; exact Hc). destruct Hc' as [Hc1 Hc2].
              destruct (H1 ot z Hc1 Hz) as (z' & Hz'). destruct (IH H2 orest lr Hc2 Hlr) as (lr' & Hlr'). exists (z' :: lr'). destruct r; cbn [members_convert]; split; assumption. }
        destruct H as (l' & H). exists (VNode l'). clear IHms Hc Hv. revert oms l l' H. induction ms as [|[[mn mo] mt] r IH]; intros [|[[on' oo] ot] orest] [|z l] [|z' l'] H; try exact H;
          try (destruct r as [|[[? ?] ?] ?]; exact H); try (destruct r as [|[[? ?] ?] ?]; destruct l'; exact H).
        destruct r as [|m2 r]; destruct H as [H1 H2]; (split; [exact H1|exact (IH _ _ _ H2)]). }
    all: destruct ms as [|[[mn mo] mt] [|m2 r]]; try contradiction Hc; inversion IHms as [|? ? H1 _]; subst; destruct (H1 _ v Hc Hv) as (z & Hz); exists (VNode [z]); exact Hz.
  - destruct Hc as [H1 H2]. eauto.
  - apply IHa; assumption.
Qed.
