(** C78 contexts are independent; C79 success; C80 the types of a parser; C81 parsing in several threads. *)
From Verif Require Import Base Types TypeBuild Compat Mem Hash MapOps Ops Module ModList NumSpec IntSpec IntOps IdlLit IdlExpr IdlSpec Peg0 Grammar Peg IdlParse KeepRun Session SessionSpec SessionFacts SessionThreads.
Local Open Scope string_scope.

(** ** Specification *)
(** The worlds programs make. *)
Definition reachable fc flt flit (w : world) : Prop := exists n ks, w = fst (exec_all fc flt flit n ks no_objects).
(** The context a call changes. *)
Definition changes (k : call) (w : world) : option nat :=
  match k with
  | NewContext _ _ | CopyContext _ | Success _ | ContextTypes _ _ => None
  | AssignContext y _ => Some y
  | DestroyContext x | ClearContext x | Parse _ x _ | DeclareType x _ _ _ => Some x
  | ParserTypes p => cur w p
  end.
(** Two contexts hold the same Module object. *)
Definition share (w : world) (x y : nat) : Prop := exists c d m, cx w x = Some c /\ cx w y = Some d /\ home c = Some m /\ home d = Some m.
(** What a context answers. *)
Definition same_answers fc flt flit (w w' : world) (y : nat) : Prop :=
  forall n k, match k with Success _ | ContextTypes _ _ => True | _ => False end ->
  match k with Success z | ContextTypes z _ => z = y | _ => False end -> snd (exec fc flt flit n k w') = snd (exec fc flt flit n k w).

(** ** Proofs *)
Definition there (w : world) : Prop := (forall x c m, cx w x = Some c -> home c = Some m -> (m < nmd w)%nat) /\ (forall x c, cx w x = Some c -> (x < ncx w)%nat).
Lemma own_module_there : forall w x c w' m, there w -> cx w x = Some c -> own_module x c w = (w', m) ->
  there w' /\ (m < nmd w')%nat /\ cx w' x = Some (Cx (cfg c) (clear_flag c) (success c) (Some m)) /\ (forall y, y <> x -> cx w' y = cx w y) /\ (forall k, (k < nmd w)%nat -> md w' k = md w k) /\
  (home c = Some m \/ home c = None /\ m = nmd w) /\ cur w' = cur w.
Proof.
  intros w x c w' m [A B] H E. unfold own_module in E. destruct (home c) as [m0|] eqn:Eh; injection E as <- <-.
  - split; [split; assumption|]. split; [eapply A; eassumption|]. split; [rewrite H; destruct c; cbn in *; congruence|]. auto.
  - split; [split|split; [cbn; lia|split; [cbn; apply put_same|split; [intros y Hy; cbn; apply put_other, Hy|split; [|auto]]]]].
    + intros y d k Hy Hk. cbn in *. unfold put in Hy. destruct (Nat.eqb y x); [injection Hy as <-; cbn in Hk; injection Hk as <-; lia|]. specialize (A y d k Hy Hk). lia.
    + intros y d Hy. cbn in *. unfold put in Hy. destruct (Nat.eqb_spec y x) as [->|N]; [eapply B; eassumption|eapply B; eassumption].
    + intros k Hk. cbn. apply put_other. lia.
Qed.
Lemma there_set_cx : forall w x o c0, there w -> cx w x = Some c0 -> (forall c m, o = Some c -> home c = Some m -> (m < nmd w)%nat) -> there (set_cx x o w).
Proof.
  intros w x o c0 [A B] H0 H. split; intros y c; cbn; unfold put; destruct (Nat.eqb_spec y x) as [->|N]; eauto.
Qed.
(** A step changes the context it names, and the Module object of that context. *)
Lemma exec_others : forall fc flt flit n k w, there w ->
  let w' := fst (exec fc flt flit n k w) in
  there w' /\ (forall y d, cx w y = Some d -> changes k w <> Some y -> cx w' y = Some d) /\
  (forall m, (m < nmd w)%nat -> (forall x c, changes k w = Some x -> cx w x = Some c -> home c <> Some m) -> md w' m = md w m).
Proof.
  intros fc flt flit n k w T. assert (Stay : there w /\ (forall y d, cx w y = Some d -> changes k w <> Some y -> cx w y = Some d) /\ (forall m, (m < nmd w)%nat -> (forall x c, changes k w = Some x -> cx w x = Some c -> home c <> Some m) -> md w m = md w m)) by auto.
  assert (Put : forall x o c0, cx w x = Some c0 -> changes k w = Some x -> (forall c m, o = Some c -> home c = Some m -> (m < nmd w)%nat) -> let w' := set_cx x o w in
    there w' /\ (forall y d, cx w y = Some d -> changes k w <> Some y -> cx w' y = Some d) /\ (forall m, (m < nmd w)%nat -> (forall x c, changes k w = Some x -> cx w x = Some c -> home c <> Some m) -> md w' m = md w m)).
  { intros x o c0 Hx Hk Ho. split; [eapply there_set_cx; eassumption|]. split; [|auto]. intros y d Hy Hn. cbn. rewrite put_other; [exact Hy|congruence]. }
  assert (New : forall c, (forall m, home c = Some m -> (m < nmd w)%nat) -> let w' := new_cx c w in
    there w' /\ (forall y d, cx w y = Some d -> changes k w <> Some y -> cx w' y = Some d) /\ (forall m, (m < nmd w)%nat -> (forall x c, changes k w = Some x -> cx w x = Some c -> home c <> Some m) -> md w' m = md w m)).
  { intros c Hc. destruct T as [A B]. split; [split|split; [|auto]].
    - intros y d m Hy Hm. cbn in *. unfold put in Hy. destruct (Nat.eqb y (ncx w)); [injection Hy as <-; auto|eauto].
    - intros y d Hy. cbn in *. unfold put in Hy. destruct (Nat.eqb_spec y (ncx w)) as [->|N]; [lia|]. specialize (B y d Hy). lia.
    - intros y d Hy _. cbn. rewrite put_other; [exact Hy|]. specialize (B y d Hy). lia. }
  assert (Own : forall x c w1 m root, cx w x = Some c -> changes k w = Some x -> own_module x c w = (w1, m) ->
    (there w1 /\ (forall y d, cx w y = Some d -> changes k w <> Some y -> cx w1 y = Some d) /\ (forall m, (m < nmd w)%nat -> (forall x c, changes k w = Some x -> cx w x = Some c -> home c <> Some m) -> md w1 m = md w m)) /\
    let w' := set_md m root w1 in there w' /\ (forall y d, cx w y = Some d -> changes k w <> Some y -> cx w' y = Some d) /\ (forall m, (m < nmd w)%nat -> (forall x c, changes k w = Some x -> cx w x = Some c -> home c <> Some m) -> md w' m = md w m)).
  { intros x c w1 m root Hx Hk E. destruct (own_module_there w x c w1 m T Hx E) as (T1 & Lm & X1 & O1 & M1 & H1 & U1).
    assert (Oth : forall y d, cx w y = Some d -> changes k w <> Some y -> cx w1 y = Some d) by (intros y d Hy Hn; rewrite O1; [exact Hy|congruence]).
    split; [split; [exact T1|split; [exact Oth|intros m0 L0 _; apply M1, L0]]|]. split; [exact T1|]. split; [exact Oth|].
    intros m0 L0 H0. cbn. rewrite put_other; [apply M1, L0|]. intros ->. destruct H1 as [H1|[_ ->]]; [exact (H0 x c Hk Hx H1)|lia]. }
  destruct k as [o cl|x|y x|x|x|p x text|x k t rp|x|x sc|p]; cbn [exec fst].
  - apply New. discriminate.
  - destruct (cx w x) as [c|] eqn:E; [|exact Stay]. apply New. intros m Hm. eapply (proj1 T); eassumption.
  - destruct (cx w y) as [d|] eqn:Ey; [|exact Stay]. destruct (cx w x) as [c|] eqn:Ex; [|exact Stay]. apply (Put y _ d Ey eq_refl). intros c1 m H1 Hm. injection H1 as <-. eapply (proj1 T); eassumption.
  - destruct (cx w x) as [c|] eqn:E; [|exact Stay]. apply (Put x _ c E eq_refl). discriminate.
  - destruct (cx w x) as [c|] eqn:E; [|exact Stay]. destruct (clear_flag c); [|exact Stay]. apply (Put x _ c E eq_refl). intros c1 m H1 Hm. injection H1 as <-. discriminate Hm.
  - destruct (cx w x) as [c|] eqn:E; [|exact Stay]. cbn [changes] in *. unfold parse_call, build_in, finish. cbn [enter cur set_cur]. rewrite put_same. cbn [cx set_cur enter]. rewrite E.
    destruct (parse_document n text) as [[a|]|]; [| |exact Stay].
    + assert (T0 : there (enter p x w)) by exact T. destruct (own_module x c (enter p x w)) as [w1 m] eqn:Em. destruct (own_module_there (enter p x w) x c w1 m T0 E Em) as (T1 & Lm & X1 & O1 & M1 & H1 & U1).
      assert (Oth : forall y d, cx w y = Some d -> Some x <> Some y -> cx w1 y = Some d) by (intros y d Hy Hn; rewrite O1; [exact Hy|congruence]).
      assert (Md : forall root m0, (m0 < nmd w)%nat -> (forall x0 c, Some x = Some x0 -> cx w x0 = Some c -> home c <> Some m0) -> put (md w1) m root m0 = md w m0).
      { intros root m0 L0 H0. rewrite put_other; [apply M1, L0|]. intros ->. destruct H1 as [H1|[_ ->]]; [exact (H0 x c eq_refl E H1)|cbn in L0; lia]. }
      destruct (build_run fc flt flit n (cfg c) [] a (md w1 m)) as [root [u|e]]; [|split; [exact T1|split; [exact Oth|apply Md]]].
      cbn [cur set_md]. rewrite U1. cbn [cur enter set_cur]. rewrite put_same. cbn [cx set_md]. rewrite X1. cbn [fst].
      split; [eapply there_set_cx; [exact T1|exact X1|]; intros c1 k H2 Hk; injection H2 as <-; cbn in Hk; injection Hk as <-; exact Lm|]. split; [|apply Md]. intros y d Hy Hn. cbn. rewrite put_other by congruence. apply Oth; assumption.
    + cbn [fst]. apply (Put x _ c E eq_refl). intros c1 m H1 Hm. injection H1 as <-. cbn in Hm. eapply (proj1 T); eassumption.
  - destruct (cx w x) as [c|] eqn:E; [|exact Stay]. destruct (own_module x c w) as [w1 m] eqn:Em. destruct (call_register k t rp (md w1 m) []) as [[b root]|e]; cbn [fst].
    + exact (proj2 (Own x c w1 m root E eq_refl Em)).
    + exact (proj1 (Own x c w1 m root_module E eq_refl Em)).
  - destruct (cx w x) as [c|]; exact Stay.
  - destruct (cx w x) as [c|]; [|exact Stay]. destruct (home c); exact Stay.
  - destruct (cur w p) as [x|] eqn:Ep; [|exact Stay]. destruct (cx w x) as [c|] eqn:E; [|exact Stay]. destruct (own_module x c w) as [w1 m] eqn:Em. cbn [fst]. exact (proj1 (Own x c w1 m root_module E Ep Em)).
Qed.
Lemma exec_all_there : forall fc flt flit n ks w, there w -> there (fst (exec_all fc flt flit n ks w)).
Proof.
  intros fc flt flit n. induction ks as [|k ks IH]; intros w T; [exact T|]. cbn [exec_all]. pose proof (exec_others fc flt flit n k w T) as (T1 & _). destruct (exec fc flt flit n k w) as [w1 a]. cbn [fst] in T1. destruct (goes_on a); [|exact T1].
  specialize (IH w1 T1). destruct (exec_all fc flt flit n ks w1) as [w2 l]. exact IH.
Qed.
Lemma reachable_there : forall fc flt flit w, reachable fc flt flit w -> there w.
Proof. intros fc flt flit w (n & ks & ->). apply exec_all_there. split; discriminate. Qed.
(** The call of parse, for any world: the parser points at the context, whose success is the answer. *)
Lemma parse_success : forall fc flt flit n p x text w c w' r, cx w x = Some c -> parse_call fc flt flit n p x text w = (w', r) ->
  cur w' p = Some x /\ exists c', cx w' x = Some c' /\ success c' = match r with Ok b => b | Fail _ => success c end.
Proof.
  intros fc flt flit n p x text w c w' r Hx H. unfold parse_call, build_in, finish in H. cbn [cur enter set_cur] in H. rewrite put_same in H. cbn [cx enter set_cur] in H. rewrite Hx in H.
  destruct (parse_document n text) as [[a|]|].
  - destruct (own_module x c (enter p x w)) as [w1 m] eqn:Em. assert (F : cur w1 p = Some x /\ exists c1, cx w1 x = Some c1 /\ success c1 = success c).
    { unfold own_module in Em. destruct (home c); injection Em as <- <-; cbn; rewrite !put_same; eauto. }
    destruct F as [F1 (c1 & F2 & F3)]. destruct (build_run fc flt flit n (cfg c) [] a (md w1 m)) as [root [u|e]].
    + cbn [cur set_md] in H. rewrite F1 in H. cbn [cx set_md] in H. rewrite F2 in H. injection H as <- <-. cbn. split; [exact F1|]. rewrite put_same. eauto.
    + injection H as <- <-. cbn. eauto.
  - injection H as <- <-. cbn. rewrite !put_same. eauto.
  - injection H as <- <-. cbn. rewrite put_same. eauto.
Qed.
(** cur is only changed by parse. *)
Lemma exec_cur : forall fc flt flit n k w p, match k with Parse q _ _ => q <> p | _ => True end -> cur (fst (exec fc flt flit n k w)) p = cur w p.
Proof.
  intros fc flt flit n k w p Hk. assert (Ho : forall x c, cur (fst (own_module x c w)) = cur w) by (intros x c; unfold own_module; destruct (home c); reflexivity).
  destruct k as [o cl|x|y x|x|x|q x text|x k t rp|x|x sc|q]; cbn [exec fst]; try reflexivity.
  - destruct (cx w x); reflexivity.
  - destruct (cx w y); [|reflexivity]. destruct (cx w x); reflexivity.
  - destruct (cx w x); reflexivity.
  - destruct (cx w x) as [c|]; [|reflexivity]. destruct (clear_flag c); reflexivity.
  - destruct (cx w x) as [c|] eqn:E; [|reflexivity]. assert (N : forall w1, cur (fst (finish q true w1)) p = cur w1 p /\ cur (fst (finish q false w1)) p = cur w1 p) by (intros w1; unfold finish; destruct (cur w1 q) as [z|]; [destruct (cx w1 z)|]; auto).
    assert (N0 : cur (enter q x w) p = cur w p) by (cbn; apply put_other; congruence).
    assert (B : forall a, cur (fst (build_in fc flt flit n q a (enter q x w))) p = cur w p).
    { intros a. unfold build_in. cbn [cur enter set_cur]. rewrite put_same. cbn [cx set_cur enter]. rewrite E. destruct (own_module x c (enter q x w)) as [w1 m] eqn:Em. assert (cur w1 = cur (enter q x w)) by (unfold own_module in Em; destruct (home c); injection Em as <- <-; reflexivity).
      destruct (build_run fc flt flit n (cfg c) [] a (md w1 m)) as [root r]. cbn [fst cur set_md]. rewrite H. exact N0. }
    unfold parse_call. destruct (parse_document n text) as [[a|]|]; [| |exact N0].
    + specialize (B a). destruct (build_in fc flt flit n q a (enter q x w)) as [w1 [u|e]]; cbn [fst] in B; [|exact B]. destruct (N w1) as [N1 _]. destruct (finish q true w1) as [w2 [v|e]]; cbn [fst] in *; congruence.
    + destruct (N (enter q x w)) as [_ N1]. destruct (finish q false (enter q x w)) as [w2 [v|e]]; cbn [fst] in *; congruence.
  - destruct (cx w x) as [c|] eqn:E; [|reflexivity]. specialize (Ho x c). destruct (own_module x c w) as [w1 m]. cbn [fst] in Ho. destruct (call_register k t rp (md w1 m) []) as [[b root]|e]; cbn; rewrite Ho; reflexivity.
  - destruct (cx w x); reflexivity.
  - destruct (cx w x) as [c|]; [|reflexivity]. destruct (home c); reflexivity.
  - destruct (cur w q) as [x|] eqn:E0; [|reflexivity]. destruct (cx w x) as [c|] eqn:E; [|reflexivity]. specialize (Ho x c). destruct (own_module x c w) as [w1 m]. cbn [fst] in *. rewrite Ho. reflexivity.
Qed.
(** Contexts live until they are destroyed. *)
Lemma exec_alive : forall fc flt flit n k w x c, there w -> cx w x = Some c -> k <> DestroyContext x -> exists c', cx (fst (exec fc flt flit n k w)) x = Some c'.
Proof.
  intros fc flt flit n k w x c T Hx Hk. destruct (exec_others fc flt flit n k w T) as (_ & O & _).
  assert (D : changes k w <> Some x \/ changes k w = Some x) by (destruct (changes k w) as [y|]; [destruct (Nat.eq_dec y x) as [->|N]; [right; reflexivity|left; congruence]|left; discriminate]).
  destruct D as [D|D]; [exists c; apply O; assumption|]. clear O.
  assert (Ho : exists c', cx (fst (own_module x c w)) x = Some c') by (unfold own_module; destruct (home c); cbn; [eauto|rewrite put_same; eauto]).
  destruct k as [o cl|y|y z|y|y|q y text|y k t rp|y|y sc|q]; cbn [changes] in D; try discriminate D; try (injection D as ->); cbn [exec].
  - rewrite Hx. destruct (cx w z); cbn; [rewrite put_same; eauto|eauto].
  - congruence.
  - rewrite Hx. destruct (clear_flag c); cbn; [rewrite put_same; eauto|eauto].
  - rewrite Hx. destruct (parse_call fc flt flit n q x text w) as [w' r] eqn:E. destruct (parse_success fc flt flit n q x text w c w' r Hx E) as (_ & c' & H & _). destruct r; cbn; eauto.
  - rewrite Hx. destruct (own_module x c w) as [w1 m]. destruct Ho as [c' Ho]. cbn [fst] in Ho. destruct (call_register k t rp (md w1 m) []) as [[b root]|e]; cbn; eauto.
  - rewrite D, Hx. destruct (own_module x c w) as [w1 m]. destruct Ho as [c' Ho]. cbn [fst] in *. eauto.
Qed.

(** ** C78 *)
(** Programs that copy contexts only while they are untouched get from every call the answers they would get if contexts were
    independent values.  Missing for the full property: copies of contexts in use ([C78_copy_refuted]). *)
Theorem C78_values_partial : forall fc flt flit n ks, copies_untouched fc flt flit n ks no_values -> snd (exec_all fc flt flit n ks no_objects) = expect_all fc flt flit n ks no_values.
Proof. intros fc flt flit n ks H. apply rel_all; [apply rel_start|exact H]. Qed.
(** In every program: a call does not change what a context answers, unless it names it or a context that shares its Module. *)
Theorem C78_others : forall fc flt flit n k w y d, reachable fc flt flit w -> cx w y = Some d -> changes k w <> Some y -> (forall x, changes k w = Some x -> ~ share w x y) ->
  same_answers fc flt flit w (fst (exec fc flt flit n k w)) y.
Proof.
  intros fc flt flit n k w y d Re Hy Hn Hs. pose proof (reachable_there _ _ _ _ Re) as T. destruct (exec_others fc flt flit n k w T) as (_ & O & M). specialize (O y d Hy Hn).
  intros n0 k0 _ Hk0. destruct k0 as [| | | | | | |z|z sc|]; try contradiction; subst z; cbn [exec]; rewrite Hy, O; [reflexivity|]. destruct (home d) as [m|] eqn:Em; [|reflexivity]. cbn [snd]. rewrite M; [reflexivity|eapply (proj1 T); eassumption|].
  intros x c Hx Hc Hm. apply (Hs x Hx). exists c, d, m. auto.
Qed.
Definition two_texts : list call :=
  [NewContext default_ctx true; Parse 0 0 "struct A { long a; };"; CopyContext 0; Parse 0 1 "struct B { long b; };"; ContextTypes 0 false].
(** A copy of a context that was parsed into is not another context: what is parsed into the copy is in the original too. *)
Theorem C78_copy_refuted : forall fc flt flit, exists n A B,
  snd (exec_all fc flt flit n two_texts no_objects) = [Ok (Address 0); Ok (Said true); Ok (Address 1); Ok (Said true); Ok (Types [("A", A); ("B", B)])] /\
  expect_all fc flt flit n two_texts no_values = [Ok (Address 0); Ok (Said true); Ok (Address 1); Ok (Said true); Ok (Types [("A", A)])].
Proof. intros. exists 120%nat. do 2 eexists. split; vm_compute; reflexivity. Qed.
Definition three_contexts : list call :=
  [NewContext default_ctx true; CopyContext 0; Parse 0 0 "struct A { long a; };"; Parse 1 1 "module M { struct B { long b; }; };"; Parse 0 0 "struct A { long c; };"; ClearContext 0; CopyContext 0;
   Parse 1 2 "enum E { X };"; ContextTypes 0 true; ContextTypes 1 true; ContextTypes 2 true; ParserTypes 1; Success 0; DestroyContext 1; Success 2].
Example C78_nontrivial : forall fc flt flit, copies_untouched fc flt flit 120 three_contexts no_values /\
  exists B E, snd (exec_all fc flt flit 120 three_contexts no_objects) =
    [Ok (Address 0); Ok (Address 1); Ok (Said true); Ok (Said true); Fail Throw; Ok Done; Ok (Address 2); Ok (Said true);
     Ok (Types []); Ok (Types [("M::B", B)]); Ok (Types [("E", E)]); Ok (Types [("E", E)]); Ok (Said true); Ok Done; Ok (Said true)].
Proof.
  intros. split; [|do 2 eexists; vm_compute; reflexivity].
  vm_compute. repeat split; intros c H; injection H as <-; reflexivity.
Qed.

(** ** C79 *)
(** After a call of parse that returns, success is what it returned; no call on other contexts changes it.
    Missing for the full property: calls that throw ([C79_throw_refuted]). *)
Theorem C79_returns_partial : forall fc flt flit n p x text w w' b, reachable fc flt flit w -> exec fc flt flit n (Parse p x text) w = (w', Ok (Said b)) ->
  snd (exec fc flt flit n (Success x) w') = Ok (Said b) /\
  forall m ks w2 l, exec_all fc flt flit m ks w' = (w2, l) -> Forall (fun k => match k with Parse _ y _ | AssignContext y _ | DestroyContext y => y <> x | _ => True end) ks ->
    snd (exec fc flt flit n (Success x) w2) = Ok (Said b).
Proof.
  intros fc flt flit n p x text w w' b Re H. pose proof (reachable_there _ _ _ _ Re) as T0. destruct (exec_others fc flt flit n (Parse p x text) w T0) as (T & _). rewrite H in T. cbn [fst] in T. clear Re T0.
  cbn [exec] in H. destruct (cx w x) as [c|] eqn:E; [|discriminate H]. destruct (parse_call fc flt flit n p x text w) as [w1 r] eqn:Ep.
  destruct (parse_success fc flt flit n p x text w c w1 r E Ep) as (_ & c1 & C1 & S1). destruct r as [b1|e]; [|discriminate H]. injection H as <- <-.
  split; [cbn [exec]; rewrite C1; cbn; rewrite S1; reflexivity|]. intros m ks. assert (HS : exists d, cx w1 x = Some d /\ success d = b1) by eauto. clear -HS T. revert w1 HS T.
  induction ks as [|k ks IH]; intros w1 HS T w2 l H F; [injection H as <- <-; destruct HS as (d & D1 & D2); cbn; rewrite D1; cbn; congruence|].
  cbn [exec_all] in H. destruct (exec_others fc flt flit m k w1 T) as (T1 & O1 & _). assert (HS1 : exists d, cx (fst (exec fc flt flit m k w1)) x = Some d /\ success d = b1).
  { destruct HS as (d & D1 & D2). assert (D : changes k w1 <> Some x \/ changes k w1 = Some x) by (destruct (changes k w1) as [y|]; [destruct (Nat.eq_dec y x) as [->|N]; [right; reflexivity|left; congruence]|left; discriminate]).
    destruct D as [D|D]; [exists d; split; [apply O1; assumption|exact D2]|]. pose proof (Forall_inv F) as Fk. cbv beta in Fk.
    destruct k as [o cl|y|y z|y|y|q y tx|y k t rp|y|y sc|q]; cbn [changes] in D; try discriminate D; try (injection D as ->); try congruence; cbn [exec].
    - rewrite D1. destruct (clear_flag d); cbn; [rewrite put_same; eauto|eauto].
    - rewrite D1. assert (Ho : exists d', cx (fst (own_module x d w1)) x = Some d' /\ success d' = b1) by (unfold own_module; destruct (home d); cbn; rewrite ?put_same; eauto).
      destruct (own_module x d w1) as [w3 m3]. cbn [fst] in Ho. destruct (call_register k t rp (md w3 m3) []) as [[b0 root]|e0]; exact Ho.
    - rewrite D, D1. unfold own_module. destruct (home d); cbn; rewrite ?put_same; eauto. }
  destruct (exec fc flt flit m k w1) as [w3 a]. cbn [fst] in *. destruct (goes_on a); [|injection H as <- <-; destruct HS1 as (d & D1 & D2); cbn; rewrite D1; cbn; congruence].
  destruct (exec_all fc flt flit m ks w3) as [w4 l4] eqn:E4. injection H as <- <-. exact (IH w3 HS1 T1 w4 l4 E4 (Forall_inv_tail F)).
Qed.
(** A call that throws leaves success as it was: true after a parse that worked, although the last one did not. *)
Theorem C79_throw_refuted : forall fc flt flit,
  (forall n p x text w w' e, cx w x <> None -> exec fc flt flit n (Parse p x text) w = (w', Fail e) -> snd (exec fc flt flit n (Success x) w') = snd (exec fc flt flit n (Success x) w)) /\
  snd (exec_all fc flt flit 120 [NewContext default_ctx true; Parse 0 0 "struct A { long a; };"; Parse 0 0 "struct B { Unknown u; };"; Success 0] no_objects) = [Ok (Address 0); Ok (Said true); Fail Throw; Ok (Said true)].
Proof.
  intros. split; [|vm_compute; reflexivity]. intros n p x text w w' e Hx H. cbn [exec] in H. destruct (cx w x) as [c|] eqn:E; [|congruence]. destruct (parse_call fc flt flit n p x text w) as [w1 r] eqn:Ep.
  destruct (parse_success fc flt flit n p x text w c w1 r E Ep) as (_ & c1 & C1 & S1). destruct r as [b1|e1]; [discriminate H|]. injection H as <- <-. cbn [exec]. rewrite C1, E. cbn. rewrite S1. reflexivity.
Qed.
Example C79_nontrivial : forall fc flt flit, snd (exec_all fc flt flit 120 [NewContext default_ctx true; Parse 0 0 "struct A { long a; };"; Success 0; Parse 0 0 "struct {"; Success 0; ClearContext 0; Success 0] no_objects)
  = [Ok (Address 0); Ok (Said true); Ok (Said true); Ok (Said false); Ok (Said false); Ok Done; Ok (Said false)].
Proof. intros. vm_compute. reflexivity. Qed.

(** ** C80 *)
(** The types of a parser are those of the context it parsed into last, as long as that context lives.
    Missing for the full property: the time after that ([C80_dangling_refuted]). *)
Theorem C80_last_partial : forall fc flt flit n p x text w w1 a m ks w2 l, reachable fc flt flit w -> cx w x <> None -> exec fc flt flit n (Parse p x text) w = (w1, a) -> exec_all fc flt flit m ks w1 = (w2, l) ->
  Forall (fun k => match k with Parse q _ _ => q <> p | DestroyContext y => y <> x | _ => True end) ks ->
  snd (exec fc flt flit n (ParserTypes p) w2) = snd (exec fc flt flit n (ContextTypes x false) w2) /\ cx w2 x <> None.
Proof.
  intros fc flt flit n p x text w w1 a m ks w2 l Re Hx H K F. pose proof (reachable_there _ _ _ _ Re) as T. destruct (exec_others fc flt flit n (Parse p x text) w T) as (T1 & _). rewrite H in T1. cbn [fst] in T1.
  cbn [exec] in H. destruct (cx w x) as [c|] eqn:E; [|congruence]. destruct (parse_call fc flt flit n p x text w) as [w' r] eqn:Ep. destruct (parse_success fc flt flit n p x text w c w' r E Ep) as (P1 & c1 & C1 & _).
  assert (w1 = w') by (destruct r; congruence). subst w'. clear H Ep.
  assert (G : cur w2 p = Some x /\ exists c2, cx w2 x = Some c2).
  { clear -T1 P1 C1 K F. revert w1 c1 l T1 P1 C1 K. induction ks as [|k ks IH]; intros w1 c1 l T1 P1 C1 K; [injection K as <- <-; eauto|]. cbn [exec_all] in K. pose proof (Forall_inv F) as Fk. cbv beta in Fk.
    destruct (exec_others fc flt flit m k w1 T1) as (T2 & _). assert (U : cur (fst (exec fc flt flit m k w1)) p = Some x) by (rewrite exec_cur; [exact P1|destruct k; auto]).
    destruct (exec_alive fc flt flit m k w1 x c1 T1 C1 ltac:(destruct k; congruence)) as [c2 C2]. destruct (exec fc flt flit m k w1) as [w3 a]. cbn [fst] in *. destruct (goes_on a); [|injection K as <- <-; eauto].
    destruct (exec_all fc flt flit m ks w3) as [w4 l4] eqn:E4. injection K as <- <-. eapply IH; [exact (Forall_inv_tail F)|exact T2|exact U|exact C2|exact E4]. }
  destruct G as [G1 [c2 G2]]. split; [|congruence]. cbn [exec]. rewrite G1, G2. unfold own_module. destruct (home c2) as [k|]; [reflexivity|]. cbn. rewrite put_same. reflexivity.
Qed.
(** Once that context is destroyed, as the one idl::parse(text) returned at the end of its statement, get_all_types of the
    parser uses it nevertheless: undefined, whatever was parsed. *)
Theorem C80_dangling_refuted : forall fc flt flit n p x text w w1 a, cx w x <> None -> exec fc flt flit n (Parse p x text) w = (w1, a) ->
  exists w2, exec fc flt flit n (DestroyContext x) w1 = (w2, Ok Done) /\ snd (exec fc flt flit n (ParserTypes p) w2) = Fail UB.
Proof.
  intros fc flt flit n p x text w w1 a Hx H. cbn [exec] in H. destruct (cx w x) as [c|] eqn:E; [|congruence]. destruct (parse_call fc flt flit n p x text w) as [w' r] eqn:Ep. destruct (parse_success fc flt flit n p x text w c w' r E Ep) as (P1 & c1 & C1 & _).
  assert (w1 = w') by (destruct r; congruence). subst w'. eexists. cbn [exec]. rewrite C1. split; [reflexivity|]. cbn. rewrite P1, put_same. reflexivity.
Qed.
Example C80_nontrivial : forall fc flt flit, exists A, snd (exec_all fc flt flit 120 [NewContext default_ctx true; NewContext default_ctx true; Parse 0 0 "struct A { long a; };"; ParserTypes 0; ParserTypes 1; Parse 1 1 "struct A { long a; };"; DestroyContext 1; ParserTypes 0; ParserTypes 1] no_objects)
  = [Ok (Address 0); Ok (Address 1); Ok (Said true); Ok (Types [("A", A)]); Ok (Types []); Ok (Said true); Ok Done; Ok (Types [("A", A)]); Fail UB].
Proof. intros. eexists. vm_compute. reflexivity. Qed.

(** ** C81 *)
(** Under every schedule in which no two threads are inside parse of the same parser (each has its own, or they take turns):
    a call that is over has left its context exactly as it would have alone, whatever the other threads did.
    Missing for the full property: threads that share the parser ([C81_shared_refuted]). *)
Theorem C81_turns_partial : forall fc flt flit jobs w l w' pc i j c r, start jobs w -> goes fc flt flit jobs (w, fun _ => Start) l (w', pc) ->
  jobs i = Some j -> cx w (into j) = Some c -> pc i = Over r ->
  exists n c', parse_run fc flt flit n (cfg c) (text_of j) (content w c) = (content w' c', r) /\ r <> Fail Loop /\ cx w' (into j) = Some c' /\ success c' = match r with Ok b => b | Fail _ => success c end.
Proof.
  intros fc flt flit jobs w l w' pc i j c r S G Hj Hc Hp. pose proof (goes_doing fc flt flit jobs w _ _ _ S G (start_doing fc flt flit jobs w S)) as [_ H]. specialize (H i j c Hj Hc). cbn [snd fst] in H. rewrite Hp in H.
  destruct H as (c' & X & _ & Hs & Hr & n & Hn). exists n, c'. auto.
Qed.
(** With a parser for each thread this holds under every schedule. *)
Theorem C81_own_parsers : forall fc flt flit jobs w l w' pc i j c r, start jobs w -> (forall i k a b, jobs i = Some a -> jobs k = Some b -> by_ a = by_ b -> i = k) ->
  any_schedule fc flt flit jobs (w, fun _ => Start) l (w', pc) -> jobs i = Some j -> cx w (into j) = Some c -> pc i = Over r ->
  exists n c', parse_run fc flt flit n (cfg c) (text_of j) (content w c) = (content w' c', r) /\ r <> Fail Loop /\ cx w' (into j) = Some c' /\ success c' = match r with Ok b => b | Fail _ => success c end.
Proof.
  intros fc flt flit jobs w l w' pc i j c r S D G. assert (O : forall pc, one_by_one jobs pc) by (intros pc0 i0 k a b N Ha Hb _ _ E; exact (N (D i0 k a b Ha Hb E))).
  apply (C81_turns_partial fc flt flit jobs w l w' pc i j c r S). clear -G O. induction G; econstructor; eauto.
Qed.
(** Two threads that use the shared parser at the same time: the first call answers that it worked, but its context has no
    types and says that nothing worked; what it declares is in the other context. *)
Definition two_contexts fc flt flit : world := fst (exec_all fc flt flit 0 [NewContext default_ctx true; NewContext default_ctx true] no_objects).
Definition two_jobs (p : nat) (i : nat) : option job :=
  match i with 0%nat => Some (Job 0 0 "struct A { long a; };") | 1%nat => Some (Job p 1 "struct B { long b; };") | _ => None end.
Lemma two_start : forall fc flt flit p, start (two_jobs p) (two_contexts fc flt flit).
Proof.
  intros. split; [split; cbn|split].
  - intros x c m. unfold put. cbn. destruct (Nat.eqb x 1); [intros H; injection H as <-; discriminate|]. destruct (Nat.eqb x 0); [intros H; injection H as <-; discriminate|discriminate].
  - intros x y c d m. unfold put. cbn. destruct (Nat.eqb x 1); [intros H; injection H as <-; discriminate|]. destruct (Nat.eqb x 0); [intros H; injection H as <-; discriminate|discriminate].
  - intros [|[|i]] j H; try discriminate H; injection H as <-; eexists; reflexivity.
  - intros [|[|i]] [|[|k]] a b Ha Hb; try discriminate Ha; try discriminate Hb; injection Ha as <-; injection Hb as <-; intros E; try reflexivity; discriminate E.
Qed.
Ltac one_more := eapply any_step;
  [first [eapply t_enter; [reflexivity|vm_compute; reflexivity]
         |eapply t_match with (n := 120%nat); [reflexivity|vm_compute; reflexivity|vm_compute; reflexivity]
         |eapply t_build with (n := 120%nat); [reflexivity|vm_compute; reflexivity|vm_compute; reflexivity|discriminate]
         |eapply t_finish; [reflexivity|vm_compute; reflexivity|vm_compute; reflexivity]]|].
Theorem C81_shared_refuted : forall fc flt flit, exists w' pc A B,
  any_schedule fc flt flit (two_jobs 0) (two_contexts fc flt flit, fun _ => Start) [0; 1; 0; 0; 0; 1; 1; 1]%nat (w', pc) /\ pc 0%nat = Over (Ok true) /\ pc 1%nat = Over (Ok true) /\
  snd (exec fc flt flit 0 (ContextTypes 0 false) w') = Ok (Types []) /\ snd (exec fc flt flit 0 (Success 0) w') = Ok (Said false) /\
  snd (exec fc flt flit 0 (ContextTypes 1 false) w') = Ok (Types [("A", A); ("B", B)]).
Proof.
  intros. do 4 eexists. split; [do 8 one_more; apply any_end|]. repeat split; vm_compute; reflexivity.
Qed.
(** The same schedule with a parser for each. *)
Example C81_nontrivial : forall fc flt flit, start (two_jobs 1) (two_contexts fc flt flit) /\ exists w' pc A B,
  any_schedule fc flt flit (two_jobs 1) (two_contexts fc flt flit, fun _ => Start) [0; 1; 0; 0; 0; 1; 1; 1]%nat (w', pc) /\ pc 0%nat = Over (Ok true) /\ pc 1%nat = Over (Ok true) /\
  snd (exec fc flt flit 0 (ContextTypes 0 false) w') = Ok (Types [("A", A)]) /\ snd (exec fc flt flit 0 (Success 0) w') = Ok (Said true) /\
  snd (exec fc flt flit 0 (ContextTypes 1 false) w') = Ok (Types [("B", B)]).
Proof.
  intros. split; [apply two_start|]. do 4 eexists. split; [do 8 one_more; apply any_end|]. repeat split; vm_compute; reflexivity.
Qed.

Print Assumptions C78_values_partial.
Print Assumptions C78_others.
Print Assumptions C78_copy_refuted.
Print Assumptions C79_returns_partial.
Print Assumptions C79_throw_refuted.
Print Assumptions C80_last_partial.
Print Assumptions C80_dangling_refuted.
Print Assumptions C81_turns_partial.
Print Assumptions C81_own_parsers.
Print Assumptions C81_shared_refuted.
