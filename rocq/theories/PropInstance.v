(** C37 one shared parser. *)
From Verif Require Import Base Instance.

(** ** Specification *)
(** Two threads about to access instance_, one of them to write, at the same time: a data race (undefined). *)
Definition writes (p : pc) : Prop := p = Creating \/ p = Resetting.
Definition accesses (p : pc) : Prop := writes p \/ p = Reading \/ exists b, p = Entered b.
Definition racing (s : shared) : Prop := exists t u, t <> u /\ writes (pcs s t) /\ accesses (pcs s u).
(** destroy() is not being called, nor will be. *)
Definition destroying (p : pc) : Prop := p = Destroying \/ p = Resetting.
Inductive calm : shared -> list nat -> shared -> Prop :=
| ca_refl s : calm s [] s
| ca_step s t s' ts s'' : (forall u, ~ destroying (pcs s u)) -> step t s s' -> (forall u, ~ destroying (pcs s' u)) -> calm s' ts s'' -> calm s (t :: ts) s''.

(** ** Proofs *)
Lemma goto_same f t p : goto f t p t = p.
Proof. unfold goto. rewrite Nat.eqb_refl. reflexivity. Qed.
Lemma goto_other f t p u : u <> t -> goto f t p u = f u.
Proof. intros H. unfold goto. apply Nat.eqb_neq in H. rewrite H. reflexivity. Qed.
(** No parser is made and all calls that return get the parser [k]. *)
Definition settled (k : nat) (s : shared) : Prop := inst s = Some k /\ forall u, pcs s u <> Missing /\ pcs s u <> Creating.
Lemma settled_step k t s s' : settled k s -> (forall u, ~ destroying (pcs s u)) -> step t s s' -> (forall u, ~ destroying (pcs s' u)) ->
  settled k s' /\ made s' = made s /\ (results s' = results s \/ results s' = (t, Some k) :: results s).
Proof.
  intros [Hi Hp] Hd Hs Hd'. assert (Hg : forall p, p <> Missing -> p <> Creating -> forall u, goto (pcs s) t p u <> Missing /\ goto (pcs s) t p u <> Creating).
  { intros p H1 H2 u. unfold goto. destruct (Nat.eqb u t); [auto|apply Hp]. }
  destruct Hs; cbn in *; try (destruct (Hp t); congruence); try (exfalso; apply (Hd t); unfold destroying; rewrite H; tauto).
  - split; [split; [exact Hi|apply Hg; discriminate]|auto].
  - split; [split; [exact Hi|apply Hg; discriminate]|auto].
  - split; [split; [exact Hi|apply Hg; discriminate]|]. split; [reflexivity|]. right. rewrite Hi. reflexivity.
  - split; [split; [exact Hi|apply Hg; discriminate]|auto].
Qed.
(** Once there is a parser and no thread is between finding none and storing one, and while destroy() is not called, every
    call of instance() by any thread returns that parser and no other is made.
    Missing for the full property: the start, where two threads may both find no parser ([C37_same_refuted]). *)
Theorem C37_settled_partial : forall k s ts s', inst s = Some k -> (forall u, pcs s u <> Missing /\ pcs s u <> Creating) -> calm s ts s' ->
  made s' = made s /\ exists new, results s' = new ++ results s /\ forall t r, In (t, r) new -> r = Some k.
Proof.
  intros k s ts s' Hi Hp H. assert (Hs : settled k s) by (split; assumption). clear Hi Hp. induction H as [s|s t s1 ts s' Hd Hst Hd1 Hc IH]; [split; [reflexivity|]; exists []; split; [reflexivity|intros ? ? []]|].
  destruct (settled_step k t s s1 Hs Hd Hst Hd1) as (Hs1 & Em & Er). destruct (IH Hs1) as (Em1 & new & En & Hn). split; [congruence|]. destruct Er as [Er|Er]; rewrite Er in En.
  - eauto.
  - exists (new ++ [(t, Some k)]). split; [rewrite <- app_assoc; exact En|]. intros u r Hin. apply in_app_or in Hin as [Hin|[E|[]]]; [eapply Hn, Hin|congruence].
Qed.
(** One thread alone, from the start: every call returns the parser that the first one made. *)
Definition alone_inv (t : nat) (s : shared) : Prop :=
  (forall u, u <> t -> pcs s u = Idle) /\
  match inst s with
  | None => made s = 0%nat /\ (forall u r, In (u, r) (results s) -> r = None) /\ match pcs s t with Creating => holder s = Some t | Resetting | Destroying => False | _ => holder s = None end
  | Some k => k = 0%nat /\ made s = 1%nat /\ holder s = None /\ (pcs s t = Idle \/ pcs s t = Reading \/ exists b, pcs s t = Entered b) /\ (forall u r, In (u, r) (results s) -> r = None \/ r = Some 0%nat)
  end.
Theorem C37_one_thread_partial : forall t ts s, calm no_calls ts s -> Forall (fun u => u = t) ts -> (made s <= 1)%nat /\ forall u r, In (u, r) (results s) -> r = None \/ r = Some 0%nat.
Proof.
  intros t ts s H Ht. assert (Hinv : alone_inv t s).
  { assert (H0 : alone_inv t no_calls) by (split; [reflexivity|]; cbn; split; [reflexivity|]; split; [intros ? ? []|reflexivity]). revert H0 Ht. induction H as [s|s u s1 ts s' Hd Hst Hd1 Hc IH]; intros H0 Ht; [exact H0|].
    pose proof (Forall_inv Ht) as Eu. pose proof (Forall_inv_tail Ht) as Ht'. cbv beta in Eu. subst u. apply IH; [|exact Ht']. clear IH Hc Ht Ht' ts s'. destruct H0 as [Ho H0].
    assert (Hg : forall p u, u <> t -> goto (pcs s) t p u = Idle) by (intros p u Hu; rewrite goto_other by exact Hu; apply Ho, Hu).
    destruct Hst; cbn in *; try (exfalso; apply (Hd t); unfold destroying; rewrite H; tauto);
      try (exfalso; apply (Hd1 t); unfold destroying; rewrite goto_same; tauto);
      (split; [cbn; apply Hg|]); cbn; rewrite ?goto_same; rewrite H in H0.
    - destruct (inst s) as [k|]; [destruct H0 as (A & B & C & _ & D)|]; [|exact H0]. eauto 10.
    - rewrite H1 in *. tauto.
    - destruct (inst s) as [k|]; [destruct H0 as (A & B & C & _ & D); auto 10|]. tauto.
    - destruct (inst s) as [k|]; [destruct H0 as (A & B & C & D & E)|tauto]. destruct D as [D|[D|[b D]]]; discriminate D.
    - destruct (inst s) as [k|]; [destruct H0 as (A & B & C & D & E); destruct D as [D|[D|[b D]]]; discriminate D|]. destruct H0 as (A & B & C). rewrite A. repeat split; auto. intros u r Hin. left. eapply B, Hin.
    - destruct (inst s) as [k|]; [destruct H0 as (A & B & C & D & E)|destruct H0 as (A & B & C)].
      + subst k. repeat split; auto. intros u r [E1|Hin]; [right; congruence|eapply E, Hin].
      + repeat split; auto. intros u r [E1|Hin]; [congruence|eapply B, Hin]. }
  destruct Hinv as [_ Hinv]. destruct (inst s) as [k|]; [destruct Hinv as (_ & E & _ & _ & D)|destruct Hinv as (E & D & _)]; (split; [lia|]); [exact D|]. intros u r Hin. left. eapply D, Hin.
Qed.
(** The mutex: at most one thread writes at a time. *)
Theorem C37_exclusive : forall s, reachable s -> forall t u, writes (pcs s t) -> writes (pcs s u) -> t = u.
Proof.
  intros s (ts & H). assert (Hinv : forall t, writes (pcs s t) <-> holder s = Some t).
  { assert (H0 : forall t, writes (pcs no_calls t) <-> holder no_calls = Some t) by (intros t; cbn; unfold writes; split; [intros [H1|H1]; discriminate H1|discriminate]).
    revert H0. induction H as [s|s t s1 ts s' Hst Hc IH]; intros H0; [exact H0|]. apply IH. clear IH Hc. intros u. pose proof (H0 t) as Ht. pose proof (H0 u) as Hu.
    unfold writes in *. destruct Hst; cbn in *; unfold goto; destruct (Nat.eqb_spec u t) as [->|Hne]; rewrite ?H in *; split; intros Hx; try (destruct Hx; discriminate); try (apply Hu; exact Hx); try discriminate;
      try (left; congruence); try (right; congruence); auto; try congruence;
      try (apply Hu in Hx; congruence);
      try (match goal with Hx : _ \/ _ |- _ => apply Hu in Hx; assert (holder s = Some t) by (apply Ht; tauto); congruence end);
      try (assert (holder s = Some t) by (apply Ht; tauto); congruence);
      try (match goal with Hx : holder _ = Some _ |- _ => apply Ht in Hx; destruct Hx; discriminate end). }
  intros t u Ht Hu. apply Hinv in Ht, Hu. congruence.
Qed.
(** A call of instance(true) that returns while destroy() is not called returns a parser: when the thread is about to
    copy instance_ it is not null. *)
Theorem C37_create : forall t s ts s' new, calm s ts s' -> pcs s t = Entered true -> results s' = new ++ results s -> ~ In t (map fst new) -> pcs s' t = Reading -> inst s' <> None.
Proof.
  intros t s ts s' new H He. assert (G : forall s ts s', calm s ts s' -> (pcs s t = Entered true \/ pcs s t = Missing \/ pcs s t = Creating \/ (pcs s t = Reading /\ inst s <> None)) ->
    forall new, results s' = new ++ results s -> ~ In t (map fst new) -> pcs s' t = Reading -> inst s' <> None).
  { clear. intros s ts s' H. induction H as [s|s u s1 ts s' Hd Hst Hd1 Hc IH]; intros P new En Nt Er.
    - destruct P as [P|[P|[P|[_ P]]]]; congruence.
    - assert (X : exists add, results s1 = add ++ results s /\ (u = t -> add = [] \/ pcs s t = Reading /\ add = [(t, inst s)]) /\ (u <> t -> add = [] \/ exists r, add = [(u, r)])).
      { destruct Hst; cbn [results]; first [exists []; split; [reflexivity|split; intros _; left; reflexivity]|idtac]. exists [(u, inst s)]. split; [reflexivity|]. split; [intros ->; right; auto|intros _; right; eauto]. }
      destruct X as (add & Ea & A1 & A2). assert (Y : exists new', results s' = new' ++ results s1).
      { clear - Hc. induction Hc as [s|s t s1 ts s' Hd Hst Hd1 Hc IH]; [exists []; reflexivity|]. destruct IH as (n & En). destruct Hst; cbn [results] in *; first [exists n; exact En|eexists (n ++ [_]); rewrite <- app_assoc; exact En]. }
      destruct Y as (new' & En'). assert (Q : new = new' ++ add) by (apply (app_inv_tail (results s)); rewrite <- app_assoc, <- Ea, <- En'; symmetry; exact En).
      rewrite Q, map_app in Nt. apply IH with new'; [|exact En'|intros Hin; apply Nt, in_or_app; left; exact Hin|exact Er].
      destruct (Nat.eq_dec u t) as [->|Hne].
      + destruct (A1 eq_refl) as [-> | [_ ->]]; [|exfalso; apply Nt, in_or_app; right; left; reflexivity].
        destruct Hst; cbn [pcs inst results] in *; rewrite ?goto_same; try (exfalso; destruct P as [P|[P|[P|[P _]]]]; congruence).
        * right; left; reflexivity.
        * right; right; right. split; [reflexivity|]. destruct P as [P|[P|[P|[P _]]]]; [|congruence|congruence|congruence]. rewrite H in P. injection P as ->. destruct H0 as [H0|H0]; [discriminate H0|exact H0].
        * right; right; left; reflexivity.
        * right; right; right. split; [reflexivity|discriminate].
        * exfalso. apply (f_equal (@List.length _)) in Ea. cbn in Ea. lia.
      + assert (K : pcs s1 t = pcs s t) by (destruct Hst; cbn [pcs]; apply goto_other; congruence). assert (I : inst s <> None -> inst s1 <> None).
        { destruct Hst; cbn [inst]; try (intros Hi; exact Hi); try discriminate. exfalso. match goal with Hq : pcs _ ?x = Resetting |- _ => apply (Hd x); right; exact Hq end. }
        rewrite K. tauto. }
  intros En Nt Er. eapply G; eauto.
Qed.
(** Calls of instance(false) make no parser. *)
Inductive modest : shared -> list nat -> shared -> Prop :=
| mo_refl s : modest s [] s
| mo_step s t s' ts s'' : step t s s' -> (forall u, pcs s' u <> Entered true) -> modest s' ts s'' -> modest s (t :: ts) s''.
Theorem C37_no_create : forall ts s, modest no_calls ts s -> made s = 0%nat /\ forall t r, In (t, r) (results s) -> r = None.
Proof.
  assert (G : forall s ts s', modest s ts s' -> (inst s = None /\ made s = 0%nat /\ (forall u, pcs s u <> Entered true /\ pcs s u <> Missing /\ pcs s u <> Creating) /\ forall t r, In (t, r) (results s) -> r = None) ->
    made s' = 0%nat /\ forall t r, In (t, r) (results s') -> r = None).
  { intros s ts s' H. induction H as [s|s t s1 ts s' Hst He Hm IH]; intros (Hi & Hma & Hp & Hr); [split; assumption|]. apply IH. clear IH Hm ts s'.
    assert (Hg : forall p, p <> Missing -> p <> Creating -> forall u, goto (pcs s) t p u <> Missing /\ goto (pcs s) t p u <> Creating) by (intros p H1 H2 u; unfold goto; destruct (Nat.eqb u t); [auto|apply Hp]).
    destruct Hst; cbn [inst made pcs results] in *; try (exfalso; destruct (Hp t) as (A & B & C); congruence);
      (split; [first [exact Hi|reflexivity]|split; [exact Hma|split; [intros u; split; [apply He|apply Hg; discriminate]|]]]); try exact Hr.
    intros u r [Q|Hin]; [congruence|eapply Hr, Hin]. }
  intros ts s H. apply (G _ _ _ H). cbn. repeat split; try discriminate. intros t r [].
Qed.
(** A call can always go on unless it waits for the mutex, and then the thread that holds the mutex can go on. *)
Theorem C37_progress : forall s, reachable s -> forall t, pcs s t <> Idle -> (exists s', step t s s') \/
  ((pcs s t = Missing \/ pcs s t = Destroying) /\ exists u, holder s = Some u /\ u <> t /\ exists s', step u s s').
Proof.
  intros s (ts & H) t Hn. assert (Hinv : forall u, holder s = Some u -> pcs s u = Creating \/ pcs s u = Resetting).
  { assert (H0 : forall u, holder no_calls = Some u -> pcs no_calls u = Creating \/ pcs no_calls u = Resetting) by discriminate. revert H0. clear Hn t. induction H as [s|s t s1 ts s' Hst Hc IH]; intros H0; [exact H0|]. apply IH. clear IH Hc.
    intros u Hu. destruct Hst; cbn [holder pcs] in *; try discriminate Hu; unfold goto; destruct (Nat.eqb_spec u t) as [->|Hne]; try (apply H0, Hu); try (injection Hu as <-; congruence); try (destruct (H0 _ Hu); congruence); auto. }
  assert (W : forall u, holder s = Some u -> exists s', step u s s') by (intros u Hu; destruct (Hinv u Hu) as [E|E]; eexists; [apply st_create, E|apply st_reset, E]).
  destruct (pcs s t) as [|b| | | | |] eqn:E; [congruence| | | | | |].
  - left. destruct b; [destruct (inst s) eqn:I; [eexists; eapply st_present; [exact E|right; congruence]|eexists; apply st_null; assumption]|eexists; eapply st_present; [exact E|left; reflexivity]].
  - destruct (holder s) as [u|] eqn:Hh; [|left; eexists; apply st_lock; assumption]. right. split; [left; reflexivity|]. exists u. split; [reflexivity|]. split; [|apply W; reflexivity]. intros ->. destruct (Hinv t eq_refl); congruence.
  - left. eexists. apply st_create, E.
  - left. eexists. apply st_return, E.
  - destruct (holder s) as [u|] eqn:Hh; [|left; eexists; apply st_dlock; assumption]. right. split; [right; reflexivity|]. exists u. split; [reflexivity|]. split; [|apply W; reflexivity]. intros ->. destruct (Hinv t eq_refl); congruence.
  - left. eexists. apply st_reset, E.
Qed.
(** Two threads whose first calls overlap get two different parsers: both find none, and the second one to take the mutex
    replaces the parser of the first. *)
Tactic Notation "go" uconstr(c) := eapply ss_step; [eapply c; try reflexivity; try (cbn; discriminate); try (right; discriminate)|cbn [inst holder made pcs results no_calls]].
Theorem C37_same_refuted : exists s, reachable s /\ In (0%nat, Some 0%nat) (results s) /\ In (1%nat, Some 1%nat) (results s).
Proof.
  eexists. split.
  - exists [0;1;0;1;0;0;0;1;1;1]%nat. go (st_call 0 _ true). go (st_call 1 _ true). go (st_null 0). go (st_null 1). go (st_lock 0). go (st_create 0). go (st_return 0). go (st_lock 1). go (st_create 1). go (st_return 1). apply ss_refl.
  - cbn. tauto.
Qed.
(** The test and the copy of instance_ are not protected: a thread may read while another writes. *)
Theorem C37_race_refuted : exists s, reachable s /\ racing s.
Proof.
  eexists. split.
  - exists [0;0;0;1]%nat. go (st_call 0 _ true). go (st_null 0). go (st_lock 0). go (st_call 1 _ true). apply ss_refl.
  - exists 0%nat, 1%nat. split; [discriminate|]. split; [left; reflexivity|right; right; exists true; reflexivity].
Qed.
(** instance() can return null although create is asked for: destroy() runs between the test and the copy. *)
Theorem C37_null_refuted : exists s, reachable s /\ In (0%nat, None) (results s) /\ made s = 1%nat.
Proof.
  eexists. split.
  - exists [0;0;0;0;0; 0;0; 1;1;1; 0]%nat. go (st_call 0 _ true). go (st_null 0). go (st_lock 0). go (st_create 0). go (st_return 0). go (st_call 0 _ true). go (st_present 0). go (st_destroy 1). go (st_dlock 1). go (st_reset 1). go (st_return 0). apply ss_refl.
  - cbn. tauto.
Qed.
(** A settled state with two threads running. *)
Example C37_nontrivial : exists s, reachable s /\ inst s = Some 0%nat /\ (forall u, pcs s u <> Missing /\ pcs s u <> Creating) /\ pcs s 0%nat = Reading /\ pcs s 1%nat = Entered true.
Proof.
  eexists. split.
  - exists [0;0;0;0;1]%nat. go (st_call 0 _ true). go (st_null 0). go (st_lock 0). go (st_create 0). go (st_call 1 _ true). apply ss_refl.
  - cbn. split; [reflexivity|]. split; [|split; reflexivity]. intros u. unfold goto. cbn. destruct (Nat.eqb u 1); [split; discriminate|]. unfold goto. cbn. destruct (Nat.eqb u 0); split; try discriminate; unfold goto; cbn; destruct (Nat.eqb u 0); try discriminate; unfold goto; cbn; destruct (Nat.eqb u 0); discriminate.
Qed.

Print Assumptions C37_settled_partial.
Print Assumptions C37_one_thread_partial.
Print Assumptions C37_exclusive.
Print Assumptions C37_create.
Print Assumptions C37_no_create.
Print Assumptions C37_progress.
Print Assumptions C37_same_refuted.
Print Assumptions C37_race_refuted.
Print Assumptions C37_null_refuted.
