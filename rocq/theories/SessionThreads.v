(** Calls of parse by several threads. *)
From Verif Require Import Base Types TypeBuild Compat Mem Hash MapOps Ops Module ModList NumSpec IntSpec IntOps IdlLit IdlExpr IdlSpec Peg0 Grammar Peg PegFacts IdlParse IdlParseFacts KeepRun KeepSteady Session SessionSpec SessionFacts.
Local Open Scope string_scope.

(** The thread is inside parse. *)
Definition inside (a : at_) : Prop := match a with Start | Over _ => False | _ => True end.
(** No two threads are inside parse of the same parser. *)
Definition one_by_one (jobs : nat -> option job) (pc : nat -> at_) : Prop :=
  forall i j a b, i <> j -> jobs i = Some a -> jobs j = Some b -> inside (pc i) -> inside (pc j) -> by_ a <> by_ b.

Section Values.
  Variable fc : prim -> prim -> list N -> list N.
  Variable flt : arith -> prim -> list N -> list N -> list N.
  Variable flit : prim -> string -> res (list N).
  Variable jobs : nat -> option job.

  (** Schedules: the threads that take the steps; [one_by_one] holds all the time. *)
  Inductive goes : world * (nat -> at_) -> list nat -> world * (nat -> at_) -> Prop :=
  | go_end : forall s, one_by_one jobs (snd s) -> goes s [] s
  | go_step : forall s i s1 l s2, one_by_one jobs (snd s) -> tstep fc flt flit jobs i s s1 -> goes s1 l s2 -> goes s (i :: l) s2.

  (** Any schedule. *)
  Inductive any_schedule : world * (nat -> at_) -> list nat -> world * (nat -> at_) -> Prop :=
  | any_end : forall s, any_schedule s [] s
  | any_step : forall s i s1 l s2, tstep fc flt flit jobs i s s1 -> any_schedule s1 l s2 -> any_schedule s (i :: l) s2.

  (** What thread [i] has done so far. *)
  Definition doing (w0 w : world) (j : job) (c0 : context) (a : at_) : Prop :=
    exists c, cx w (into j) = Some c /\ cfg c = cfg c0 /\
    match a with
    | Start => content w c = content w0 c0 /\ success c = success c0
    | Entered => cur w (by_ j) = Some (into j) /\ content w c = content w0 c0 /\ success c = success c0
    | Matched o => cur w (by_ j) = Some (into j) /\ content w c = content w0 c0 /\ success c = success c0 /\ exists n, parse_document n (text_of j) = Some o
    | Built => cur w (by_ j) = Some (into j) /\ success c = success c0 /\ exists n, parse_run fc flt flit n (cfg c0) (text_of j) (content w0 c0) = (content w c, Ok true)
    | Over r => success c = (match r with Ok b => b | Fail _ => success c0 end) /\ r <> Fail Loop /\ exists n, parse_run fc flt flit n (cfg c0) (text_of j) (content w0 c0) = (content w c, r)
    end.
  Lemma doing_other : forall w0 w w' j c0 a, doing w0 w j c0 a -> cx w' (into j) = cx w (into j) ->
    (forall d, cx w (into j) = Some d -> content w' d = content w d) -> (inside a -> cur w' (by_ j) = cur w (by_ j)) -> doing w0 w' j c0 a.
  Proof.
    intros w0 w w' j c0 a (c & Hc & Ec & H) X C U. exists c. rewrite X. split; [exact Hc|]. split; [exact Ec|]. rewrite (C c Hc). destruct a; cbn in U; try rewrite U by exact I; exact H.
  Qed.
  Lemma document_and_build : forall n1 n2 c text a root root' r, parse_document n1 text = Some (Some a) -> build_run fc flt flit n2 c [] a root = (root', r) -> r <> Fail Loop ->
    exists n, parse_run fc flt flit n c text root = (root', match r with Ok _ => Ok true | Fail e => Fail e end).
  Proof.
    intros n1 n2 c text a root root' r H1 H2 Hr. exists (Nat.max n1 n2). unfold parse_run. unfold parse_document in *.
    destruct (peg n1 (Ref R_DOCUMENT) text) as [o|] eqn:E; [|discriminate H1]. rewrite (peg_mono n1 (Nat.max n1 n2) _ _ _ (Nat.le_max_l _ _) E). destruct o as [|cs [|a' []] ts [|]]; try discriminate H1. injection H1 as H1. rewrite H1.
    rewrite (firm_build fc flt flit c a [] root n2 (Nat.max n1 n2) (Nat.le_max_r _ _)) by (rewrite H2; exact Hr). rewrite H2. destruct r; reflexivity.
  Qed.

  (** The jobs at the start: contexts that exist, no two jobs with the same. *)
  Definition start (w0 : world) : Prop :=
    apart w0 /\ (forall i j, jobs i = Some j -> exists c, cx w0 (into j) = Some c) /\ (forall i k a b, jobs i = Some a -> jobs k = Some b -> into a = into b -> i = k).
  Definition all_doing (w0 w : world) (pc : nat -> at_) : Prop :=
    apart w /\ forall i j c0, jobs i = Some j -> cx w0 (into j) = Some c0 -> doing w0 w j c0 (pc i).
  Lemma others_doing : forall w0 w w' pc i j a, start w0 -> all_doing w0 w pc -> jobs i = Some j -> apart w' ->
    (forall y, y <> into j -> cx w' y = cx w y) -> (forall y d, y <> into j -> cx w y = Some d -> content w' d = content w d) -> (forall p, p <> by_ j -> cur w' p = cur w p) ->
    (forall k b, k <> i -> jobs k = Some b -> inside (pc k) -> by_ b <> by_ j) ->
    (forall c0, cx w0 (into j) = Some c0 -> doing w0 w' j c0 a) -> all_doing w0 w' (put pc i a).
  Proof.
    intros w0 w w' pc i j a (_ & _ & D) [_ H] Hj A' O C U L Hi. split; [exact A'|]. intros k b c0 Hk Hc. destruct (Nat.eq_dec k i) as [->|N].
    - rewrite put_same. assert (b = j) by congruence. subst b. apply Hi, Hc.
    - rewrite put_other by exact N. assert (Ni : into b <> into j) by (intros E; apply N; exact (D k i b j Hk Hj E)). apply (doing_other w0 w w'); [apply H; assumption|apply O, Ni|intros d Hd; apply (C (into b)); assumption|].
      intros I. apply U. exact (L k b N Hk I).
  Qed.
  Lemma step_doing : forall w0 w pc i w' pc', start w0 -> all_doing w0 w pc -> tstep fc flt flit jobs i (w, pc) (w', pc') -> one_by_one jobs pc -> one_by_one jobs pc' -> all_doing w0 w' pc'.
  Proof.
    intros w0 w pc i w' pc' S H T L L'. pose proof S as (A0 & Al & D).
    assert (Hin : forall j, jobs i = Some j -> inside (pc i) \/ inside (pc' i) -> forall k b, k <> i -> jobs k = Some b -> inside (pc k) -> by_ b <> by_ j).
    { intros j Hj [I|I] k b N Hk Ik; [exact (L k i b j N Hk Hj Ik I)|]. refine (L' k i b j N Hk Hj _ I). assert (E : pc' k = pc k) by (inversion T; subst; apply put_other, N). rewrite E. exact Ik. }
    inversion T; subst;
      match goal with K : jobs i = Some _ |- _ => rename K into Kj end; match goal with K : pc i = _ |- _ => rename K into Kp end;
      try match goal with K : finish _ _ _ = _ |- _ => rename K into Kf end; try match goal with K : build_in _ _ _ _ _ _ _ = _ |- _ => rename K into Kf end; try match goal with K : _ <> Fail Loop |- _ => rename K into Kl end; try match goal with K : parse_document _ _ = _ |- _ => rename K into Kd end.
    - pose proof (Al _ _ Kj) as [c0 Hc0]. pose proof (proj2 H i j c0 Kj Hc0) as (c & Hc & Ec & E). rewrite Kp in E.
      eapply others_doing; [exact S|exact H|exact Kj|apply apart_set_cur, H|auto|auto|intros p Hp; cbn; apply put_other, Hp|apply Hin; [exact Kj|right; rewrite put_same; exact I]|].
      intros c1 Hc1. assert (c1 = c0) by congruence. subst c1. exists c. split; [exact Hc|]. split; [exact Ec|]. split; [cbn; apply put_same|exact E].
    - pose proof (Al _ _ Kj) as [c0 Hc0]. pose proof (proj2 H i j c0 Kj Hc0) as (c & Hc & Ec & E). rewrite Kp in E.
      eapply others_doing; [exact S|exact H|exact Kj|apply H|auto|auto|auto|apply Hin; [exact Kj|left; rewrite Kp; exact I]|].
      intros c1 Hc1. assert (c1 = c0) by congruence. subst c1. exists c. split; [exact Hc|]. split; [exact Ec|]. destruct E as (E1 & E2 & E3). repeat (split; [assumption|]). eauto.
    - pose proof (Al _ _ Kj) as [c0 Hc0]. pose proof (proj2 H i j c0 Kj Hc0) as (c & Hc & Ec & E). rewrite Kp in E. destruct E as (E1 & E2 & E3 & n & E4).
      destruct (finish_spec (by_ j) false w (into j) c (proj1 H) E1 Hc) as (w2 & F & A2 & X2 & O2 & M2 & N2 & U2). rewrite F in Kf. injection Kf as <- <-.
      eapply others_doing; [exact S|exact H|exact Kj|exact A2|exact O2|intros; unfold content; rewrite M2; reflexivity|rewrite U2; auto|apply Hin; [exact Kj|left; rewrite Kp; exact I]|].
      intros c1 Hc1. assert (c1 = c0) by congruence. subst c1. eexists. split; [exact X2|]. split; [exact Ec|]. split; [reflexivity|]. split; [discriminate|]. exists n. unfold parse_run. rewrite E4. f_equal. rewrite <- E2. unfold content. cbn [home]. rewrite M2. reflexivity.
    - pose proof (Al _ _ Kj) as [c0 Hc0]. pose proof (proj2 H i j c0 Kj Hc0) as (c & Hc & Ec & E). rewrite Kp in E. destruct E as (E1 & E2 & E3 & n1 & E4).
      destruct (build_in_spec fc flt flit n (by_ j) a w (into j) c w' r (proj1 H) E1 Hc Kf) as (A1 & root & c1 & R1 & X1 & F1 & L1 & S1 & C1 & O1 & D1 & N1 & U1).
      destruct (document_and_build n1 n (cfg c) (text_of j) a (content w c) root r E4 R1 Kl) as (m & Em). rewrite Ec, E2 in Em.
      eapply others_doing; [exact S|exact H|exact Kj|exact A1|exact O1|exact D1|rewrite U1; auto|apply Hin; [exact Kj|left; rewrite Kp; exact I]|].
      intros c2 Hc2. assert (c2 = c0) by congruence. subst c2. exists c1. split; [exact X1|]. split; [congruence|]. rewrite C1. destruct r as [u|e].
      + split; [rewrite U1; exact E1|]. split; [congruence|]. eauto.
      + split; [congruence|]. split; [congruence|]. eauto.
    - pose proof (Al _ _ Kj) as [c0 Hc0]. pose proof (proj2 H i j c0 Kj Hc0) as (c & Hc & Ec & E). rewrite Kp in E. destruct E as (E1 & E2 & n & E3).
      destruct (finish_spec (by_ j) true w (into j) c (proj1 H) E1 Hc) as (w2 & F & A2 & X2 & O2 & M2 & N2 & U2). rewrite F in Kf. injection Kf as <- <-.
      eapply others_doing; [exact S|exact H|exact Kj|exact A2|exact O2|intros; unfold content; rewrite M2; reflexivity|rewrite U2; auto|apply Hin; [exact Kj|left; rewrite Kp; exact I]|].
      intros c1 Hc1. assert (c1 = c0) by congruence. subst c1. eexists. split; [exact X2|]. split; [exact Ec|]. split; [reflexivity|]. split; [discriminate|]. exists n. rewrite E3. f_equal. unfold content. cbn [home]. rewrite M2. reflexivity.
  Qed.
  Lemma goes_doing : forall w0 s l s', start w0 -> goes s l s' -> all_doing w0 (fst s) (snd s) -> all_doing w0 (fst s') (snd s').
  Proof.
    intros w0 s l s' S G. induction G as [s _|[w pc] i [w1 pc1] l s2 L T G IH]; intros H; [exact H|]. apply IH. cbn in *. eapply step_doing; [exact S|exact H|exact T|exact L|].
    inversion G; assumption.
  Qed.
  Lemma start_doing : forall w0, start w0 -> all_doing w0 w0 (fun _ => Start).
  Proof. intros w0 (A & _). split; [exact A|]. intros i j c0 Hj Hc. exists c0. auto. Qed.
End Values.
