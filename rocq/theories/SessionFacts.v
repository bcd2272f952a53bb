(** Contexts that do not share a Module object. *)
From Verif Require Import Base Types TypeBuild Compat Mem Hash MapOps Ops Module ModList NumSpec IntSpec IntOps IdlLit IdlExpr IdlSpec Peg0 Grammar Peg IdlParse KeepRun Session SessionSpec.
Local Open Scope string_scope.

Lemma put_same : forall A (f : nat -> A) i v, put f i v i = v.
Proof. intros. unfold put. rewrite Nat.eqb_refl. reflexivity. Qed.
Lemma put_other : forall A (f : nat -> A) i v j, j <> i -> put f i v j = f j.
Proof. intros A f i v j H. unfold put. apply Nat.eqb_neq in H. rewrite H. reflexivity. Qed.

(** The module a context shows. *)
Definition content (w : world) (c : context) : modl := match home c with Some m => md w m | None => root_module end.
(** Module objects exist, and no two contexts share one. *)
Record apart (w : world) : Prop := {
  ap_there : forall x c m, cx w x = Some c -> home c = Some m -> (m < nmd w)%nat;
  ap_own : forall x y c d m, cx w x = Some c -> cx w y = Some d -> home c = Some m -> home d = Some m -> x = y }.

Lemma own_module_spec : forall w x c w' m, apart w -> cx w x = Some c -> own_module x c w = (w', m) ->
  apart w' /\ (m < nmd w')%nat /\ cx w' x = Some (Cx (cfg c) (clear_flag c) (success c) (Some m)) /\ (forall y, y <> x -> cx w' y = cx w y) /\
  (forall y d, y <> x -> cx w y = Some d -> content w' d = content w d) /\ md w' m = content w c /\ ncx w' = ncx w /\ cur w' = cur w.
Proof.
  intros w x c w' m A H E. unfold own_module in E. destruct (home c) as [m0|] eqn:Eh; injection E as <- <-.
  - split; [exact A|]. split; [eapply (ap_there w A); eassumption|]. split; [rewrite H; destruct c; cbn in *; congruence|]. split; [auto|]. split; [auto|]. split; [unfold content; rewrite Eh; reflexivity|auto].
  - assert (Hother : forall y d m, y <> x -> cx w y = Some d -> home d = Some m -> m <> nmd w) by (intros y d m _ Hy Hm E; pose proof (ap_there w A y d m Hy Hm); lia).
    split; [|split; [cbn; lia|split; [cbn; apply put_same|split; [intros y Hy; cbn; apply put_other, Hy|split; [|split; [|auto]]]]]].
    + split.
      * intros y d m Hy Hm. cbn in *. unfold put in Hy. destruct (Nat.eqb y x); [injection Hy as <-; cbn in Hm; injection Hm as <-; lia|]. pose proof (ap_there w A y d m Hy Hm). lia.
      * intros y z d e m Hy Hz Hd He. cbn in *. unfold put in Hy, Hz. destruct (Nat.eqb_spec y x) as [->|Ny], (Nat.eqb_spec z x) as [->|Nz]; auto.
        -- injection Hy as <-. cbn in Hd. injection Hd as <-. exfalso. exact (Hother z e _ Nz Hz He eq_refl).
        -- injection Hz as <-. cbn in He. injection He as <-. exfalso. exact (Hother y d _ Ny Hy Hd eq_refl).
        -- exact (ap_own w A y z d e m Hy Hz Hd He).
    + intros y d Hy Hd. unfold content. destruct (home d) as [k|] eqn:Ek; [|reflexivity]. cbn. apply put_other. exact (Hother y d k Hy Hd Ek).
    + cbn. rewrite put_same. unfold content. rewrite Eh. reflexivity.
Qed.
(** Storing a module in its only context. *)
Lemma set_md_other : forall w x c m root y d, apart w -> cx w x = Some c -> home c = Some m -> y <> x -> cx w y = Some d -> content (set_md m root w) d = content w d.
Proof.
  intros w x c m root y d A Hx Hm Hy Hd. unfold content. destruct (home d) as [k|] eqn:Ek; [|reflexivity]. cbn. apply put_other. intros ->. apply Hy. exact (ap_own w A y x d c m Hd Hx Ek Hm).
Qed.
Lemma apart_set_md : forall w m root, apart w -> apart (set_md m root w).
Proof. intros w m root A. split; intros; cbn in *; [eapply (ap_there w A)|eapply (ap_own w A)]; eassumption. Qed.
(** Giving a context no new module. *)
Lemma apart_set_cx : forall w x o, apart w -> (forall c m, o = Some c -> home c = Some m -> exists c0, cx w x = Some c0 /\ home c0 = Some m) -> apart (set_cx x o w).
Proof.
  intros w x o A H. split.
  - intros y c m Hy Hm. cbn in *. unfold put in Hy. destruct (Nat.eqb_spec y x) as [->|N]; [|eapply (ap_there w A); eassumption]. destruct (H c m Hy Hm) as (c0 & H0 & H1). eapply (ap_there w A); eassumption.
  - intros y z c d m Hy Hz Hc Hd. cbn in *. unfold put in Hy, Hz. destruct (Nat.eqb_spec y x) as [->|Ny], (Nat.eqb_spec z x) as [->|Nz]; auto.
    + destruct (H c m Hy Hc) as (c0 & H0 & H1). eapply (ap_own w A); eassumption.
    + destruct (H d m Hz Hd) as (c0 & H0 & H1). eapply (ap_own w A); eassumption.
    + eapply (ap_own w A); eassumption.
Qed.
Lemma apart_new_cx : forall w c, apart w -> home c = None -> apart (new_cx c w).
Proof.
  intros w c A H. split.
  - intros y d m Hy Hm. cbn in *. unfold put in Hy. destruct (Nat.eqb y (ncx w)); [congruence|eapply (ap_there w A); eassumption].
  - intros y z d e m Hy Hz Hd He. cbn in *. unfold put in Hy, Hz. destruct (Nat.eqb y (ncx w)); [congruence|]. destruct (Nat.eqb z (ncx w)); [congruence|]. eapply (ap_own w A); eassumption.
Qed.
Lemma apart_set_cur : forall w p x, apart w -> apart (set_cur p x w).
Proof. intros w p x A. split; intros; cbn in *; [eapply (ap_there w A)|eapply (ap_own w A)]; eassumption. Qed.

Section Values.
  Variable fc : prim -> prim -> list N -> list N.
  Variable flt : arith -> prim -> list N -> list N -> list N.
  Variable flit : prim -> string -> res (list N).

  (** build_on_ast in the context of the parser. *)
  Lemma build_in_spec : forall n p a w x c w' r, apart w -> cur w p = Some x -> cx w x = Some c -> build_in fc flt flit n p a w = (w', r) ->
    apart w' /\ exists root c', build_run fc flt flit n (cfg c) [] a (content w c) = (root, r) /\
      cx w' x = Some c' /\ cfg c' = cfg c /\ clear_flag c' = clear_flag c /\ success c' = success c /\ content w' c' = root /\
      (forall y, y <> x -> cx w' y = cx w y) /\ (forall y d, y <> x -> cx w y = Some d -> content w' d = content w d) /\ ncx w' = ncx w /\ cur w' = cur w.
  Proof.
    intros n p a w x c w' r A Hp Hx H. unfold build_in in H. rewrite Hp, Hx in H. destruct (own_module x c w) as [w1 m] eqn:Eo.
    destruct (own_module_spec w x c w1 m A Hx Eo) as (A1 & Lm & X1 & O1 & C1 & M1 & N1 & U1). rewrite M1 in H.
    destruct (build_run fc flt flit n (cfg c) [] a (content w c)) as [root r0] eqn:Eb. injection H as <- <-. split; [apply apart_set_md, A1|].
    exists root, (Cx (cfg c) (clear_flag c) (success c) (Some m)). split; [reflexivity|]. split; [exact X1|]. repeat (split; [reflexivity|]). split; [cbn; apply put_same|]. split; [exact O1|]. split; [|auto].
    intros y d Hy Hd. rewrite <- (C1 y d Hy Hd). eapply (set_md_other w1 x); [exact A1|exact X1|reflexivity|exact Hy|]. rewrite O1 by exact Hy. exact Hd.
  Qed.
  Lemma finish_spec : forall p b w x c, apart w -> cur w p = Some x -> cx w x = Some c ->
    exists w', finish p b w = (w', Ok tt) /\ apart w' /\ cx w' x = Some (Cx (cfg c) (clear_flag c) b (home c)) /\ (forall y, y <> x -> cx w' y = cx w y) /\ md w' = md w /\ ncx w' = ncx w /\ cur w' = cur w.
  Proof.
    intros p b w x c A Hp Hx. unfold finish. rewrite Hp, Hx. eexists; split; [reflexivity|]. split; [apply apart_set_cx; [exact A|]; intros c0 m E Hm; injection E as <-; eauto|].
    cbn. split; [apply put_same|]. split; [intros y Hy; apply put_other, Hy|auto].
  Qed.
  (** The whole call. *)
  Lemma parse_call_spec : forall n p x text w c w' r, apart w -> cx w x = Some c -> parse_call fc flt flit n p x text w = (w', r) ->
    apart w' /\ exists root c', parse_run fc flt flit n (cfg c) text (content w c) = (root, r) /\
      cx w' x = Some c' /\ cfg c' = cfg c /\ clear_flag c' = clear_flag c /\ success c' = (match r with Ok b => b | Fail _ => success c end) /\ content w' c' = root /\
      (forall y, y <> x -> cx w' y = cx w y) /\ (forall y d, y <> x -> cx w y = Some d -> content w' d = content w d) /\ ncx w' = ncx w /\ cur w' = put (cur w) p (Some x).
  Proof.
    intros n p x text w c w' r A Hx H. unfold parse_call in H. pose proof (apart_set_cur w p x A) as A0. fold (enter p x w) in A0. assert (Hp : cur (enter p x w) p = Some x) by (cbn; apply put_same).
    assert (Hx0 : cx (enter p x w) x = Some c) by exact Hx. assert (Hc : content (enter p x w) c = content w c) by reflexivity.
    unfold parse_run. destruct (parse_document n text) as [[a|]|].
    - destruct (build_in fc flt flit n p a (enter p x w)) as [w1 r1] eqn:Eb. destruct (build_in_spec n p a _ x c w1 r1 A0 Hp Hx0 Eb) as (A1 & root & c1 & R1 & X1 & F1 & L1 & S1 & C1 & O1 & D1 & N1 & U1).
      rewrite Hc in R1. rewrite R1. destruct r1 as [u|e]; cbn [andthen].
      + assert (Hp1 : cur w1 p = Some x) by (rewrite U1; exact Hp). destruct (finish_spec p true w1 x c1 A1 Hp1 X1) as (w2 & E2 & A2 & X2 & O2 & M2 & N2 & U2). rewrite E2 in H. injection H as <- <-.
        split; [exact A2|]. exists root, (Cx (cfg c1) (clear_flag c1) true (home c1)). split; [reflexivity|]. split; [exact X2|]. repeat (split; [solve [auto]|]). split; [rewrite <- C1; unfold content; rewrite M2; reflexivity|].
        split; [intros y Hy; rewrite O2, O1 by exact Hy; reflexivity|]. split; [intros y d Hy Hd; transitivity (content w1 d); [unfold content; rewrite M2; reflexivity|exact (D1 y d Hy Hd)]|]. rewrite N2, N1, U2, U1. auto.
      + injection H as <- <-. split; [exact A1|]. exists root, c1. split; [reflexivity|]. auto 10.
    - destruct (finish_spec p false _ x c A0 Hp Hx0) as (w2 & E2 & A2 & X2 & O2 & M2 & N2 & U2). rewrite E2 in H. injection H as <- <-.
      split; [exact A2|]. eexists _, _. split; [reflexivity|]. split; [exact X2|]. repeat (split; [reflexivity|]). split; [unfold content; rewrite M2; reflexivity|]. split; [exact O2|]. split; [intros y d _ _; unfold content; rewrite M2; reflexivity|]. rewrite N2, U2. auto.
    - injection H as <- <-. split; [exact A0|]. exists (content w c), c. auto 12.
  Qed.

  (** A world shows the values. *)
  Definition shows (w : world) (c : context) (d : value) : Prop :=
    cfg c = options d /\ clear_flag c = clearable d /\ success c = worked d /\ content w c = declared d /\ (touched d = false -> home c = None).
  Record rel (w : world) (v : values) : Prop := {
    re_apart : apart w;
    re_count : ncx w = made_so_far v;
    re_last : forall p, cur w p = last v p;
    re_val : forall x, match cx w x, val v x with Some c, Some d => shows w c d | None, None => True | _, _ => False end }.
  Lemma rel_start : rel no_objects no_values.
  Proof. split; [split; cbn; discriminate|reflexivity|reflexivity|intros x; exact I]. Qed.
  Lemma rel_some : forall w v x d, rel w v -> val v x = Some d -> exists c, cx w x = Some c /\ shows w c d.
  Proof. intros w v x d R H. pose proof (re_val w v R x) as V. rewrite H in V. destruct (cx w x) as [c|]; [eauto|destruct V]. Qed.
  Lemma rel_none : forall w v x, rel w v -> val v x = None -> cx w x = None.
  Proof. intros w v x R H. pose proof (re_val w v R x) as V. rewrite H in V. destruct (cx w x); [destruct V|reflexivity]. Qed.
  (** One context has changed. *)
  Lemma rel_one : forall w v w' x c d l, rel w v -> apart w' -> cx w' x = Some c -> shows w' c d -> (forall y, y <> x -> cx w' y = cx w y) ->
    (forall y e, y <> x -> cx w y = Some e -> content w' e = content w e) -> ncx w' = ncx w -> (forall p, cur w' p = l p) ->
    rel w' (Values (put (val v) x (Some d)) (made_so_far v) l).
  Proof.
    intros w v w' x c d l R A X S O C N U. split; [exact A|cbn; rewrite N; apply (re_count w v R)|exact U|]. intros y. cbn. destruct (Nat.eq_dec y x) as [->|Hy]; [rewrite put_same, X; exact S|].
    rewrite put_other, O by exact Hy. pose proof (re_val w v R y) as V. destruct (cx w y) as [e|] eqn:E, (val v y) as [f|]; try exact V. unfold shows in *. rewrite (C y e Hy E). exact V.
  Qed.
  Lemma rel_same : forall w v x d, rel w v -> val v x = Some d -> rel w (with_val x (Some (Val (options d) (clearable d) (worked d) (declared d) true)) v).
  Proof.
    intros w v x d R H. destruct (rel_some w v x d R H) as (c & Hc & S1 & S2 & S3 & S4 & _). eapply rel_one with (w := w); [exact R|apply (re_apart w v R)|exact Hc| |auto|auto|reflexivity|apply (re_last w v R)].
    repeat split; auto. discriminate.
  Qed.
  Theorem rel_step : forall n k w v, rel w v -> match k with CopyContext x | AssignContext _ x => forall c, val v x = Some c -> touched c = false | _ => True end ->
    snd (exec fc flt flit n k w) = snd (expect fc flt flit n k v) /\ rel (fst (exec fc flt flit n k w)) (fst (expect fc flt flit n k v)).
  Proof.
    intros n k w v R T. pose proof (re_apart w v R) as A. destruct k as [o cl|x|y x|x|x|p x text|x k t rp|x|x sc|p]; cbn [exec expect].
    - rewrite (re_count w v R). split; [reflexivity|]. split; [apply apart_new_cx; [exact A|reflexivity]|cbn; rewrite (re_count w v R); reflexivity|apply (re_last w v R)|]. intros y. cbn. rewrite (re_count w v R). destruct (Nat.eq_dec y (made_so_far v)) as [->|Hy].
      + rewrite !put_same. repeat split.
      + rewrite !put_other by exact Hy. exact (re_val w v R y).
    - destruct (val v x) as [d|] eqn:E; [|rewrite (rel_none w v x R E); cbn; auto]. destruct (rel_some w v x d R E) as (c & Hc & S1 & S2 & S3 & S4 & S5). rewrite Hc. rewrite (re_count w v R). split; [reflexivity|]. specialize (S5 (T d eq_refl)).
      split; [apply apart_new_cx; [exact A|exact S5]|cbn; rewrite (re_count w v R); reflexivity|apply (re_last w v R)|]. intros y. cbn. rewrite (re_count w v R). destruct (Nat.eq_dec y (made_so_far v)) as [->|Hy].
      + rewrite !put_same. repeat split; auto.
      + rewrite !put_other by exact Hy. exact (re_val w v R y).
    - destruct (val v y) as [d0|] eqn:E0; [|rewrite (rel_none w v y R E0); cbn; auto]. destruct (rel_some w v y d0 R E0) as (c0 & Hc0 & _). rewrite Hc0.
      destruct (val v x) as [d|] eqn:E; [|rewrite (rel_none w v x R E); cbn; auto]. destruct (rel_some w v x d R E) as (c & Hc & S1 & S2 & S3 & S4 & S5). rewrite Hc. specialize (S5 (T d eq_refl)). split; [reflexivity|]. cbn [fst].
      eapply rel_one with (w := w); [exact R| |cbn; apply put_same| |intros z Hz; cbn; apply put_other, Hz|auto|reflexivity|apply (re_last w v R)].
      + apply apart_set_cx; [exact A|]. intros c1 m E1 Hm. injection E1 as <-. congruence.
      + repeat split; auto.
    - destruct (val v x) as [d|] eqn:E; [|rewrite (rel_none w v x R E); cbn; auto]. destruct (rel_some w v x d R E) as (c & Hc & _). rewrite Hc. split; [reflexivity|]. cbn [fst].
      split; [apply apart_set_cx; [exact A|discriminate]|apply (re_count w v R)|apply (re_last w v R)|]. intros y. cbn. destruct (Nat.eq_dec y x) as [->|Hy]; [rewrite !put_same; exact I|]. rewrite !put_other by exact Hy. exact (re_val w v R y).
    - destruct (val v x) as [d|] eqn:E; [|rewrite (rel_none w v x R E); cbn; auto]. destruct (rel_some w v x d R E) as (c & Hc & S1 & S2 & S3 & S4 & S5). rewrite Hc. split; [reflexivity|]. cbn [fst]. rewrite S2. destruct (clearable d) eqn:Ec; [|exact R].
      eapply rel_one with (w := w); [exact R| |cbn; apply put_same| |intros z Hz; cbn; apply put_other, Hz|auto|reflexivity|apply (re_last w v R)].
      + apply apart_set_cx; [exact A|]. intros c1 m E1 Hm. injection E1 as <-. discriminate Hm.
      + repeat split; auto.
    - destruct (val v x) as [d|] eqn:E; [|rewrite (rel_none w v x R E); cbn; auto]. destruct (rel_some w v x d R E) as (c & Hc & S1 & S2 & S3 & S4 & S5). rewrite Hc.
      destruct (parse_call fc flt flit n p x text w) as [w' r] eqn:Ep. destruct (parse_call_spec n p x text w c w' r A Hc Ep) as (A' & root & c' & P1 & X1 & F1 & L1 & W1 & C1 & O1 & D1 & N1 & U1).
      rewrite <- S1, <- S4, P1. assert (R' : rel w' (Values (put (val v) x (Some (Val (cfg c) (clearable d) match r with Ok b => b | Fail _ => worked d end root true))) (made_so_far v) (put (last v) p (Some x)))).
      { eapply rel_one with (w := w); [exact R|exact A'|exact X1| |exact O1|exact D1|exact N1|]. { repeat split; cbn; first [congruence|discriminate|destruct r; congruence]. } intros q. rewrite U1. unfold put. destruct (Nat.eqb q p); [reflexivity|apply (re_last w v R)]. }
      destruct r as [b|e]; (split; [reflexivity|exact R']).
    - destruct (val v x) as [d|] eqn:E; [|rewrite (rel_none w v x R E); cbn; auto]. destruct (rel_some w v x d R E) as (c & Hc & S1 & S2 & S3 & S4 & S5). rewrite Hc.
      destruct (own_module x c w) as [w1 m] eqn:Eo. destruct (own_module_spec w x c w1 m A Hc Eo) as (A1 & Lm & X1 & O1 & C1 & M1 & N1 & U1). rewrite M1, S4.
      destruct (call_register k t rp (declared d) []) as [[b root]|e]; (split; [reflexivity|]); cbn [fst].
      + eapply rel_one with (w := w); [exact R|apply apart_set_md, A1|exact X1| |exact O1| |exact N1|intros q; cbn; rewrite U1; apply (re_last w v R)].
        * repeat split; cbn; auto; [apply put_same|discriminate].
        * intros y e Hy He. rewrite <- (C1 y e Hy He). eapply (set_md_other w1 x); [exact A1|exact X1|reflexivity|exact Hy|]. rewrite O1 by exact Hy. exact He.
      + eapply rel_one with (w := w); [exact R|exact A1|exact X1| |exact O1|exact C1|exact N1|intros q; cbn; rewrite U1; apply (re_last w v R)]. repeat split; cbn; auto; [congruence|discriminate].
    - destruct (val v x) as [d|] eqn:E; [|rewrite (rel_none w v x R E); cbn; auto]. destruct (rel_some w v x d R E) as (c & Hc & S1 & S2 & S3 & S4 & S5). rewrite Hc, S3. auto.
    - destruct (val v x) as [d|] eqn:E; [|rewrite (rel_none w v x R E); cbn; auto]. destruct (rel_some w v x d R E) as (c & Hc & S1 & S2 & S3 & S4 & S5). rewrite Hc. unfold listing. rewrite <- S4. unfold content. destruct (home c) as [m|]; cbn; auto.
    - rewrite <- (re_last w v R p). destruct (cur w p) as [x|]; [|auto].
      destruct (val v x) as [d|] eqn:E; [|rewrite (rel_none w v x R E); cbn; auto]. destruct (rel_some w v x d R E) as (c & Hc & S1 & S2 & S3 & S4 & S5). rewrite Hc.
      destruct (own_module x c w) as [w1 m] eqn:Eo. destruct (own_module_spec w x c w1 m A Hc Eo) as (A1 & Lm & X1 & O1 & C1 & M1 & N1 & U1). rewrite M1, S4. split; [reflexivity|]. cbn [fst].
      eapply rel_one with (w := w); [exact R|exact A1|exact X1| |exact O1|exact C1|exact N1|intros q; cbn; rewrite U1; apply (re_last w v R)]. repeat split; cbn; auto; [congruence|discriminate].
  Qed.
  Theorem rel_all : forall n ks w v, rel w v -> copies_untouched fc flt flit n ks v -> snd (exec_all fc flt flit n ks w) = expect_all fc flt flit n ks v.
  Proof.
    intros n. induction ks as [|k ks IH]; intros w v R T; [reflexivity|]. cbn [exec_all expect_all]. destruct T as [T1 T2]. destruct (rel_step n k w v R T1) as [E R'].
    destruct (exec fc flt flit n k w) as [w' a], (expect fc flt flit n k v) as [v' a']. cbn [fst snd] in *. subst a'. specialize (IH w' v' R' T2). destruct (goes_on a); [|reflexivity].
    destruct (exec_all fc flt flit n ks w') as [w2 l]. cbn [snd] in *. congruence.
  Qed.
End Values.
