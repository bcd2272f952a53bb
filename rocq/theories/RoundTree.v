(** All the declarations of a module tree, in the order of its text. *)
From Verif Require Import Base Types TypeBuild Mem Hash MapOps Ops IntSpec IntOps ModuleSpec ModuleFacts Module Peg0 Grammar Peg PegRules IdlLit IdlParse IdlParseFacts GenIdl GenSpec GrowFacts EnumText ModuleText DocSpec DocText RoundCalls GenModule.
From Verif Require Import DepTree DepFacts DepGen DepSolve DepOrder RoundGen RoundText RoundSpec RoundFacts RoundStep PropDep.
From Verif Require DepSpec.
Local Open Scope string_scope.

(** ** The events of one module *)
Inductive nest (p : place) : list event -> Prop :=
| nest_nil : nest p []
| nest_decl : forall n o, n_in n = p -> nest p o -> nest p (EDecl n :: o)
| nest_module : forall x o1 o2, nest (x :: p) o1 -> nest p o2 -> nest p (EOpen (x :: p) :: o1 ++ EClose (x :: p) :: o2).
Lemma nest_split : forall len o p stk stk', (List.length o <= len)%nat -> DepSpec.stack_after (p :: stk) o = Some stk' -> (List.length stk' <= List.length stk)%nat ->
  exists o1 o2, o = (o1 ++ EClose p :: o2)%list /\ nest p o1 /\ DepSpec.stack_after stk o2 = Some stk'.
Proof.
  induction len as [|len IH]; intros o p stk stk' L H B.
  - destruct o; [|cbn in L; lia]. injection H as <-. cbn in B. lia.
  - destruct o as [|[q|q|n] r]; cbn [DepSpec.stack_after] in H; cbn [List.length] in L.
    + injection H as <-. cbn in B. lia.
    + destruct q as [|x o']; [discriminate H|]. destruct (place_eqb o' p) eqn:E; [|discriminate H]. apply place_eqb_eq in E. subst o'.
      destruct (IH r (x :: p) (p :: stk) stk' ltac:(lia) H ltac:(cbn [List.length]; lia)) as (o1 & r' & -> & N1 & H'). rewrite app_length in L. cbn [List.length] in L.
      destruct (IH r' p stk stk' ltac:(lia) H' B) as (o2 & o3 & -> & N2 & H3). exists (EOpen (x :: p) :: o1 ++ EClose (x :: p) :: o2)%list, o3. split; [cbn [app]; rewrite <- app_assoc; reflexivity|]. split; [constructor; assumption|exact H3].
    + destruct (place_eqb q p) eqn:E; [|discriminate H]. apply place_eqb_eq in E. subst q. exists [], r. split; [reflexivity|]. split; [constructor|exact H].
    + destruct (place_eqb (n_in n) p) eqn:E; [|discriminate H]. apply place_eqb_eq in E. destruct (IH r p stk stk' ltac:(lia) H B) as (o1 & o2 & -> & N1 & H'). exists (EDecl n :: o1), o2. split; [reflexivity|]. split; [constructor; assumption|exact H'].
Qed.
Lemma texts_split : forall root par o1 o2 t, texts root par (o1 ++ o2) t -> exists t1 t2, t = t1 ++ t2 /\ texts root par o1 t1 /\ texts root par o2 t2.
Proof.
  intros root par. induction o1 as [|e o1 IH]; intros o2 t H; cbn [app] in H.
  - exists "", t. split; [reflexivity|]. split; [constructor; reflexivity|exact H].
  - inversion H as [|? ? w s rest H1 H2 H3]; subst. destruct (IH _ _ H3) as (t1 & t2 & -> & T1 & T2). exists (w ++ s ++ t1), t2. rewrite !DepSolve.app_assoc_s. split; [reflexivity|]. split; [constructor; assumption|exact T2].
Qed.
Lemma texts_cons : forall root par e o t, texts root par (e :: o) t -> exists w s t', t = w ++ s ++ t' /\ all_chars is_ws w = true /\ event_text root par e = Ok s /\ texts root par o t'.
Proof. intros root par e o t H. inversion H; subst. eauto 8. Qed.
Lemma texts_none : forall root par t, texts root par [] t -> all_chars is_ws t = true.
Proof. intros root par t H. inversion H; subst. assumption. Qed.
Lemma written_all_blank : forall ds k t w, written_all k ds t -> all_chars is_ws w = true -> written_all k ds (t ++ w).
Proof.
  induction ds as [|d ds IH]; intros k t w H B; inversion H; subst.
  - constructor. apply ws_app; assumption.
  - rewrite !DepSolve.app_assoc_s. constructor; auto.
Qed.

Section Tree.
  Variable fc : prim -> prim -> list N -> list N.
  Variable root : modl.
  Variable par : node -> option ty.
  Hypothesis W : DepSpec.well_named root.
  Hypothesis RO : round_ok root par.
  Variable whole : list event.
  Hypothesis G1 : forall done n rest, whole = (done ++ EDecl n :: rest)%list -> DepSpec.wanted root n /\ ~ In (EDecl n) done /\ forall u, DepSpec.uses root par n u -> In (EDecl u) done.
  Hypothesis G2 : forall done q rest, whole = (done ++ EOpen q :: rest)%list -> exists_module root q = true /\ ~ In (EOpen q) done /\ forall rest', rest <> EClose q :: rest'.
  Lemma whole_admissible : forall done rest, whole = (done ++ rest)%list -> admissible root done.
  Proof.
    intros done rest E. split.
    - intros n I. apply in_split in I as (a & b & ->). rewrite <- app_assoc in E. apply (G1 _ _ _ E).
    - intros q I. apply in_split in I as (a & b & ->). rewrite <- app_assoc in E. apply (G2 _ _ _ E).
  Qed.
  Lemma state_close : forall done R q, state root done R -> state root (done ++ [EClose q]) R.
  Proof.
    intros done R q [S M E C En N]. assert (X : forall e, (forall p, e <> EClose p) -> (In e (done ++ [EClose q]) <-> In e done)). { intros e H. rewrite in_app_iff. cbn [In]. specialize (H q). split; [intros [Q|[Q|[]]]; [exact Q|congruence]|auto]. }
    constructor; try assumption.
    - intros p. rewrite X by discriminate. apply M.
    - intros. rewrite X by discriminate. apply E.
    - intros p y t H. rewrite X in H by discriminate. eapply C, H.
    - intros p x nm sz vals y v H. rewrite X in H by discriminate. eapply En, H.
    - intros p y H. destruct (N p y H) as [(t & D)|(x & nm & sz & vals & v & D & Av)]; [left; exists t|right; exists x, nm, sz, vals, v; split; [|exact Av]]; apply X; try discriminate; assumption.
  Qed.
  Lemma step_open : forall done R x p, state root done R -> exists_module R p = true -> exists_module root (x :: p) = true -> ~ In (EOpen (x :: p)) done ->
    exists R', enters x p R R' /\ state root (done ++ [EOpen (x :: p)]) R'.
  Proof.
    intros done R x p [S M E C En N] Ep Er Nw. assert (Ix : is_ident x = true). { pose proof (ro_modules _ _ RO _ _ Er) as P. apply andb_true_iff in P as [P _]. apply andb_true_iff in P as [P _]. exact P. }
    destruct (enters_facts x R p S Ep Ix) as (R' & H & S' & M' & E' & C'); [destruct (exists_module R (x :: p)) eqn:Q; [|reflexivity]; apply M in Q as [Q|Q]; [discriminate Q|contradiction]|].
    exists R'. split; [exact H|]. assert (X : forall e, (forall p, e <> EOpen p) -> (In e (done ++ [EOpen (x :: p)]) <-> In e done)). { intros e Hx. rewrite in_app_iff. cbn [In]. specialize (Hx (x :: p)). split; [intros [Q|[Q|[]]]; [exact Q|congruence]|auto]. }
    constructor; try assumption.
    - intros q. rewrite M', M, in_app_iff. cbn [In]. split; [intros [[Q|Q]| ->]; auto|]. intros [Q|[Q|[Q|[]]]]; [auto|auto|injection Q as Q; auto].
    - intros. rewrite X by discriminate. rewrite E'. apply E.
    - intros q y t Q. rewrite X in Q by discriminate. rewrite C'. eapply C, Q.
    - intros q z nm sz vals y v Q. rewrite X in Q by discriminate. rewrite C'. eapply En, Q.
    - intros q y Q. rewrite C' in Q. destruct (N q y Q) as [(t & D)|(z & nm & sz & vals & v & D & Av)]; [left; exists t|right; exists z, nm, sz, vals, v; split; [|exact Av]]; apply X; try discriminate; assumption.
  Qed.
  Lemma state_place : forall done more R R' p, state root done R -> state root (done ++ more) R' -> exists_module R p = true -> exists_module R' p = true.
  Proof. intros done more R R' p S S' E. apply (st_mod _ _ _ S'). apply (st_mod _ _ _ S) in E as [E|E]; [left; exact E|right; apply in_or_app; left; exact E]. Qed.
  Lemma tree_declares : forall p o, nest p o -> forall done rest R text, whole = (done ++ o ++ rest)%list -> state root done R -> exists_module R p = true -> texts root par o text ->
    exists ds R', all_declared fc p ds R R' /\ written_all (List.length p) ds text /\ state root (done ++ o) R' /\ (o <> [] -> ds <> []).
  Proof.
    intros p o N. induction N as [p|p n o I N IH|p x o1 o2 N1 IH1 N2 IH2]; intros done rest R text E S Ep T.
    - apply texts_none in T as B. exists [], R. split; [constructor|]. split; [constructor; exact B|]. split; [rewrite app_nil_r; exact S|congruence].
    - apply texts_cons in T as (w & s & t' & -> & B & Es & T'). subst p. cbn [event_text] in Es. cbn [app] in E. destruct (G1 _ _ _ E) as (Wn & Nw & Us).
      destruct (step_decl fc root par W RO done R (whole_admissible _ _ E) S n Wn Nw Ep Us) as (d & R1 & D & Wr & S1). unfold R_after in S1.
      destruct (IH (done ++ [EDecl n])%list rest R1 t') as (ds & R' & Ds & Ws & S' & _); [rewrite <- app_assoc; exact E|exact S1|exact (state_place _ _ _ _ _ S S1 Ep)|exact T'|].
      exists (d :: ds), R'. split; [econstructor; eauto|]. split; [constructor; [exact B|apply Wr, Es|exact Ws]|]. split; [rewrite <- app_assoc in S'; exact S'|discriminate].
    - apply texts_cons in T as (w & s & t' & -> & B & Es & T'). cbn [app] in E. destruct (G2 _ _ _ E) as (Xr & Nw & Ne). destruct (step_open _ _ _ _ S Ep Xr Nw) as (R1 & En & S1).
      apply texts_split in T' as (t1 & t2 & -> & T1 & T2). apply texts_cons in T2 as (w2 & s2 & t3 & -> & B2 & Es2 & T3). cbn [event_text] in Es, Es2. injection Es as <-. injection Es2 as <-.
      assert (E1 : whole = ((done ++ [EOpen (x :: p)]) ++ o1 ++ (EClose (x :: p) :: o2 ++ rest))%list) by (rewrite E, <- !app_assoc; reflexivity).
      destruct (IH1 _ _ _ t1 E1 S1) as (ds1 & R2 & D1 & W1 & S2 & F1); [apply (st_mod _ _ _ S1); right; apply in_or_app; right; left; reflexivity|exact T1|].
      assert (E2 : whole = ((((done ++ [EOpen (x :: p)]) ++ o1) ++ [EClose (x :: p)]) ++ o2 ++ rest)%list) by (rewrite E1, <- !app_assoc; reflexivity).
      pose proof (state_close _ _ (x :: p) S2) as S3. assert (Ep2 : exists_module R2 p = true). { rewrite <- app_assoc in S2. eapply state_place; [exact S|exact S2|exact Ep]. }
      destruct (IH2 _ _ _ _ E2 S3 Ep2 T3) as (ds2 & R' & D2 & W2 & S' & _).
      exists (DModule x ds1 :: ds2), R'. split; [|split; [|split; [|discriminate]]].
      + apply (ad_cons fc p _ _ _ R2); [|exact D2]. apply (db_module fc p x ds1 R R1 R2); [apply (ro_modules _ _ RO _ _ Xr)| |exact En|exact D1].
        apply F1. intros Q. apply (Ne (o2 ++ rest)%list). rewrite Q. reflexivity.
      + match goal with |- written_all _ _ ?t => replace t
          with (w ++ (indent (List.length p) ++ "module " ++ x ++ NL ++ indent (List.length p) ++ "{" ++ NL ++ (t1 ++ w2) ++ indent (List.length p) ++ "};" ++ NL) ++ t3) by (repeat (rewrite !DepSolve.app_assoc_s; cbn [append]); reflexivity) end.
        constructor; [exact B|constructor; apply written_all_blank; assumption|exact W2].
      + replace (done ++ EOpen (x :: p) :: o1 ++ EClose (x :: p) :: o2)%list with ((((done ++ [EOpen (x :: p)]) ++ o1) ++ [EClose (x :: p)]) ++ o2)%list by (rewrite <- !app_assoc; reflexivity). exact S'.
  Qed.
End Tree.

(** ** Where the events come from *)
Lemma split_unique : forall (x : event) d r d' r', (d ++ x :: r = d' ++ x :: r')%list -> ~ In x d -> ~ In x d' -> d = d'.
Proof.
  intros x. induction d as [|a d IH]; intros r d' r' E N N'; destruct d' as [|a' d']; cbn [app] in E.
  - reflexivity.
  - injection E as -> _. exfalso. apply N'. left. reflexivity.
  - injection E as -> _. exfalso. apply N. left. reflexivity.
  - injection E as -> E. f_equal. eapply IH; [exact E| |]; intros I; [apply N|apply N']; right; exact I.
Qed.
Lemma times_in : forall n o, In (EDecl n) o -> (0 < DepSpec.times n o)%nat.
Proof.
  intros n o H. unfold DepSpec.times. assert (X : In (EDecl n) (filter (fun e => match e with EDecl m => node_eqb n m | _ => false end) o)) by (apply filter_In; split; [exact H|apply node_eqb_key; reflexivity]).
  destruct (filter _ o); [contradiction|cbn; lia].
Qed.
Lemma times_once : forall n d r, DepSpec.times n (d ++ EDecl n :: r) = 1%nat -> ~ In (EDecl n) d.
Proof.
  intros n d r H I. apply times_in in I. rewrite times_app in H. pose proof (times_in n (EDecl n :: r) (or_introl eq_refl)). lia.
Qed.
Lemma in_times : forall root n o, DepSpec.well_named root -> In n (all_nodes root) -> (0 < DepSpec.times n o)%nat -> (forall m, In (EDecl m) o -> DepSpec.wanted root m) -> In (EDecl n) o.
Proof.
  intros root n o W I H D. unfold DepSpec.times in H. destruct (filter _ o) as [|e l] eqn:E; [cbn in H; lia|].
  assert (X : In e (filter (fun e => match e with EDecl m => node_eqb n m | _ => false end) o)) by (rewrite E; left; reflexivity). apply filter_In in X as [X Y]. destruct e as [q|q|m]; try discriminate Y.
  assert (n = m); [|subst; exact X]. apply (tree_key root); [exact W|apply all_in_tree, I|apply all_in_tree, (D m X)|exact Y].
Qed.
Section Order.
  Variable root : modl.
  Variable par : node -> option ty.
  Variable o : list event.
  Hypothesis W : DepSpec.well_named root.
  Hypothesis RO : round_ok root par.
  Hypothesis G : generates root par o.
  Hypothesis Order : forall n u, DepSpec.uses root par n u -> DepSpec.wanted root n -> DepSpec.before o (EDecl u) (EDecl n).
  Lemma all_in : forall n, In (EDecl n) o <-> DepSpec.wanted root n.
  Proof.
    destruct (C40_complete root par o W G) as (_ & T & D). intros n. split; [apply D|]. intros Hn. apply (in_times root); [exact W|apply Hn|rewrite (T n Hn); lia|exact D].
  Qed.
  Lemma order_decls : forall done n rest, o = (done ++ EDecl n :: rest)%list -> DepSpec.wanted root n /\ ~ In (EDecl n) done /\ forall u, DepSpec.uses root par n u -> In (EDecl u) done.
  Proof.
    intros done n rest E. destruct (C40_complete root par o W G) as (_ & T & D). assert (Wn : DepSpec.wanted root n) by (apply D; rewrite E; apply in_or_app; right; left; reflexivity).
    pose proof (T n Wn) as Tn. assert (N : ~ In (EDecl n) done) by (rewrite E in Tn; apply times_once in Tn; exact Tn). split; [exact Wn|]. split; [exact N|].
    intros u Us. destruct (Order n u Us Wn) as (a & b & c & E'). replace (a ++ EDecl u :: b ++ EDecl n :: c)%list with ((a ++ EDecl u :: b) ++ EDecl n :: c)%list in E' by (rewrite <- app_assoc; reflexivity).
    assert (N' : ~ In (EDecl n) (a ++ EDecl u :: b)) by (rewrite E' in Tn; apply times_once in Tn; exact Tn). rewrite E in E'. rewrite (split_unique _ _ _ _ _ E' N N'). apply in_or_app. right. left. reflexivity.
  Qed.
  Lemma order_modules : forall done q rest, o = (done ++ EOpen q :: rest)%list -> exists_module root q = true /\ ~ In (EOpen q) done /\ forall rest', rest <> EClose q :: rest'.
  Proof.
    intros done q rest E. destruct (C40_complete root par o W G) as (WN & _ & _). destruct (modules_once root par o W G q) as [X L].
    assert (Xq : exists_module root q = true) by (apply X; rewrite E; apply in_or_app; right; left; reflexivity). split; [exact Xq|].
    assert (O1 : (0 < opens q (EOpen q :: rest))%nat) by (apply opens_in; left; reflexivity). split.
    - intros I. apply opens_in in I. rewrite E, opens_app in L. lia.
    - intros rest' Er. subst rest. destruct (ro_filled _ _ RO q Xq) as (n & Wn & An). assert (D : In (EDecl n) (done ++ rest')%list).
      { apply all_in in Wn. rewrite E in Wn. apply in_app_iff in Wn as [H|[H|[H|H]]]; [apply in_or_app; left; exact H|discriminate H|discriminate H|apply in_or_app; right; exact H]. }
      assert (WN' : DepSpec.well_nested (done ++ rest')).
      { unfold DepSpec.well_nested in *. rewrite E, stack_after_app in WN. rewrite stack_after_app. destruct (DepSpec.stack_after [] done) as [stk|]; [|discriminate WN]. cbn [DepSpec.stack_after] in WN.
        destruct q as [|x q]; [destruct stk; [|discriminate WN]; cbn in WN; exact WN|]. destruct stk as [|q0 stk]; [discriminate WN|]. destruct (place_eqb q q0); [|discriminate WN]. rewrite place_eqb_refl in WN. exact WN. }
      destruct (nested_decl _ n q WN' D An) as (pre & post & E' & I). assert (I' : In (EOpen q) (done ++ rest')%list) by (rewrite E'; apply in_or_app; left; exact I). apply opens_in in I'. rewrite opens_app in I'.
      rewrite E, opens_app in L. change (EOpen q :: EClose q :: rest') with ([EOpen q; EClose q] ++ rest')%list in L. rewrite opens_app in L. assert (O2 : (0 < opens q [EOpen q; EClose q])%nat) by (apply opens_in; left; reflexivity). lia.
  Qed.
  Lemma root_nest : exists body, o = (EOpen [] :: body ++ [EClose []])%list /\ nest [] body /\ body <> [].
  Proof.
    destruct (C40_complete root par o W G) as (WN & _ & _). pose proof order_modules as OM. destruct (ro_filled _ _ RO [] eq_refl) as (n & Wn & _). apply all_in in Wn. unfold DepSpec.well_nested in WN. destruct (modules_once root par o W G []) as [_ L]. clear - WN Wn OM L. destruct o as [|e r]; [destruct Wn|].
    destruct e as [q|q|m]; cbn [DepSpec.stack_after] in WN; try discriminate WN. destruct q as [|x q]; [|discriminate WN].
    destruct (nest_split _ r [] [] [] (le_n _) WN (le_n _)) as (o1 & o2 & -> & N & H). exists o1. destruct o2 as [|e o2].
    - split; [reflexivity|]. split; [exact N|]. intros ->. apply (proj2 (proj2 (OM [] [] [EClose []] eq_refl)) []). reflexivity.
    - exfalso. destruct e as [q|q|m]; cbn [DepSpec.stack_after] in H; try discriminate H. destruct q as [|x q]; [|discriminate H]. change (EOpen [] :: o1 ++ EClose [] :: EOpen [] :: o2)%list with ([EOpen []] ++ o1 ++ [EClose []] ++ EOpen [] :: o2)%list in L. rewrite !opens_app in L.
      assert (0 < opens [] [EOpen []])%nat by (apply opens_in; left; reflexivity). assert (0 < opens [] (EOpen [] :: o2))%nat by (apply opens_in; left; reflexivity). lia.
  Qed.
  Lemma state_start : state root [EOpen []] root_module.
  Proof.
    assert (MA : forall q m, mod_at root_module q = Some m -> q = []).
    { induction q as [|c q IH]; intros m H; [reflexivity|]. cbn [mod_at] in H. destruct (mod_at root_module q) as [m'|] eqn:M; [|discriminate H]. rewrite (IH m' eq_refl) in M. injection M as <-. discriminate H. }
    assert (TA : forall q, tab_at root_module q = no_tables). { intros q. unfold tab_at. destruct (mod_at root_module q) as [m|] eqn:M; [|reflexivity]. pose proof (MA _ _ M). subst q. injection M as <-. reflexivity. }
    constructor.
    - split; [split|].
      + intros c q m M. pose proof (MA _ _ M). subst q. injection M as <-. discriminate.
      + intros q y D. unfold declares in D. destruct (mod_at root_module q) as [m|] eqn:M; [|discriminate D]. pose proof (MA _ _ M). subst q. injection M as <-. discriminate D.
      + intros q y. rewrite TA. reflexivity.
    - intros q. unfold exists_module. split.
      + destruct (mod_at root_module q) as [m|] eqn:M; [|discriminate]. left. exact (MA _ _ M).
      + intros [->|[H|[]]]; [reflexivity|]. injection H as <-. reflexivity.
    - intros q k y t. unfold entry. rewrite TA. split; [destruct k; discriminate|]. intros [H|[]]. discriminate H.
    - intros q y t [H|[]]. discriminate H.
    - intros q x nm sz vals y v [H|[]]. discriminate H.
    - intros q y H. unfold const_entry in H. rewrite TA in H. exfalso. apply H. reflexivity.
  Qed.
  Lemma state_same : forall r, state root o r -> same_module root r.
  Proof.
    intros r S. assert (WN : DepSpec.well_nested o) by apply (C40_complete root par o W G). constructor.
    - intros q. destruct (exists_module root q) eqn:E.
      + apply (st_mod _ _ _ S). right. destruct (ro_filled _ _ RO q E) as (n & Wn & An). apply all_in in Wn. destruct (nested_decl o n q WN Wn An) as (pre & post & E' & I). rewrite E'. apply in_or_app. left. exact I.
      + destruct (exists_module r q) eqn:E'; [|reflexivity]. apply (st_mod _ _ _ S) in E'. destruct E' as [->|I]; [discriminate E|]. destruct (modules_once root par o W G q) as [X _]. rewrite (X I) in E. discriminate E.
    - intros q k y. assert (X : forall t, entry r q k y = Some t <-> entry root q k y = Some t).
      { intros t. rewrite (st_entry _ _ _ S), all_in. unfold DepSpec.wanted. rewrite all_nodes_in, nodes_of_in. cbn [n_in n_name n_type n_kind]. split.
        - intros [[_ [_ H]] _]. unfold entry. destruct W as (_ & _ & _ & ND & _). apply in_assoc; [apply ND|]. destruct k; exact H.
        - intros H. split; [|destruct k; reflexivity]. split; [apply places_exist; [exact W|exact (entry_exists _ _ _ _ _ H)]|]. split; [reflexivity|]. unfold entry in H. apply assoc_in in H. destruct k; exact H. }
      destruct (entry root q k y) as [t|] eqn:E; [apply X; reflexivity|]. destruct (entry r q k y) as [t|]; [|reflexivity]. symmetry. apply X. reflexivity.
    - intros q y d Cd P. assert (M : exists t, In (y, t) (const_types (tab_at root q))).
      { destruct W as (_ & CP & _). specialize (CP q y). unfold const_entry in Cd. unfold mem in CP. rewrite Cd in CP. destruct (assoc y (const_types (tab_at root q))) as [t|] eqn:At; [|discriminate CP]. exists t. apply assoc_in, At. }
      destruct M as (t & M). assert (Wn : DepSpec.wanted root (Node q xCONST y t)).
      { split; [|exact P]. apply all_nodes_in. cbn [n_in]. split; [apply places_exist; [exact W|exact (const_exists _ _ _ _ Cd)]|]. apply nodes_of_in. cbn [n_in n_name n_type n_kind]. split; [reflexivity|exact M]. }
      apply all_in in Wn. destruct (st_const _ _ _ S q y t Wn) as (d1 & d' & k & z & H1 & H2 & H3 & H4). rewrite Cd in H1. injection H1 as <-. exists d', k, z. auto.
    - intros q x y v (nm & sz & vals & I & Av). assert (Wn : DepSpec.wanted root (Node q xENUM x (TEnum nm sz vals))).
      { split; [|reflexivity]. apply all_nodes_in. split; [|exact I]. apply places_exist; [exact W|]. cbn [n_in]. apply nodes_of_in in I as [_ I]. cbn in I. unfold tab_at, exists_module in *. destruct (mod_at root q); [reflexivity|destruct I]. }
      apply all_in in Wn. exact (st_enum _ _ _ S _ _ _ _ _ _ _ Wn Av).
    - intros q y d Cd. destruct (st_no_more _ _ _ S q y) as [(t & D)|(x & nm & sz & vals & v & D & Av)]; [congruence| |].
      + left. apply all_in in D. apply wanted_node in D. apply nodes_of_in in D as [_ D]. cbn [n_in n_name n_type n_kind] in D. apply mem_in in D. destruct W as (_ & CP & _). specialize (CP q y). unfold const_entry. rewrite <- CP in D || idtac. unfold mem in *. cbn in D. destruct (assoc y (consts (tab_at root q))); [discriminate|]. rewrite CP in D. discriminate D.
      + right. exists x, v, nm, sz, vals. split; [|exact Av]. apply all_in in D. apply wanted_node in D. exact D.
  Qed.
End Order.
