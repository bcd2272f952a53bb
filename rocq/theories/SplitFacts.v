(** A document whose first sentences are known, whatever follows. *)
From Verif Require Import Base Types TypeBuild Compat Mem Hash MapOps Ops Module ModuleSpec ModuleFacts NumSpec IntSpec IntOps IdlLit IdlExpr IdlSpec Peg0 Grammar Peg PegFacts PegRules IdlParse IdlParseFacts TypeText StructText StructRead DocFacts KeepRun KeepSpec KeepFacts KeepSteady.
From Verif Require Import GapSpec GapText.
Local Open Scope string_scope.

Lemma star_ends : forall s, exists ds ts r, ok (Star (Ref R_DEFINITION)) s ds ts r.
Proof.
  intros s. destruct (peg_ends (Star (Ref R_DEFINITION)) s eq_refl) as (n & o & E). destruct o as [|c ds ts r]; [|exists ds, ts, r, n, c; exact E].
  exfalso. revert s E. induction n as [|n IH]; intros s E; [discriminate E|]. rewrite peg_eq in E. destruct (peg n (Ref R_DEFINITION) s) as [[|c ns ts s']|] eqn:E1; try discriminate E.
  destruct (peg n (Star (Ref R_DEFINITION)) s') as [[|c' ns' ts' s'']|] eqn:E2; try discriminate E. eapply IH, E2.
Qed.
Lemma opt_ws_ends : forall s, exists ts r, ok (Opt (Ref R_WS)) s [] ts r.
Proof.
  intros s. destruct (peg_ends (Ref R_WS) s eq_refl) as (n & o & E). destruct o as [|c ns ts r].
  - exists [], s. apply ok_opt_none. exists n. exact E.
  - assert (ns = []). { destruct n as [|n]; [discriminate E|]. rewrite peg_eq in E. destruct (peg n (gram R_WS) s) as [[|c' ns' ts' s']|]; try discriminate E. injection E as _ <- _ _. reflexivity. }
    subst ns. exists ts, r. apply ok_opt_some. exists n, c. exact E.
Qed.
Lemma ok_one : forall e s ns ts r ns' ts' r', ok e s ns ts r -> ok e s ns' ts' r' -> ns = ns' /\ r = r'.
Proof. intros e s ns ts r ns' ts' r' (n & c & E) (n' & c' & E'). pose proof (peg_fun _ _ _ _ _ _ E E') as Q. injection Q as -> -> -> ->. auto. Qed.
Lemma ok_or_no : forall e s ns ts r, ok e s ns ts r -> no e s -> False.
Proof. intros e s ns ts r (n & c & E) (n' & E'). pose proof (peg_fun _ _ _ _ _ _ E E') as Q. discriminate Q. Qed.
Lemma definition_one_node : forall s ns ts r, ok (Ref R_DEFINITION) s ns ts r -> exists d, ns = [d].
Proof. intros s ns ts r (n & c & E). destruct n as [|n]; [discriminate E|]. rewrite peg_eq in E. destruct (peg n (gram R_DEFINITION) s) as [[|c' ns' ts' s']|]; try discriminate E. injection E as _ <- _ _. eexists. reflexivity. Qed.
Definition document_ast (ds : list ast) : ast := Ast R_DOCUMENT R_DOCUMENT "" [Ast R_SPECIFICATION R_SPECIFICATION "" ds].
(** What the grammar makes of a text that begins with a definition. *)
Lemma document_of : forall w s d ts s1 ds ts1 r, gap w -> solid s -> ok (Ref R_DEFINITION) s [d] ts s1 -> ok (Star (Ref R_DEFINITION)) s1 ds ts1 r ->
  exists r', (r' = "" -> eventually (fun n => parse_document n (w ++ s) = Some (Some (optimize (document_ast (d :: ds)))))) /\ (r' <> "" -> eventually (fun n => parse_document n (w ++ s) = Some None)) /\ exists ts', ok (Opt (Ref R_WS)) r [] ts' r'.
Proof.
  intros w s d ts s1 ds ts1 r W So Od Os. destruct (opt_ws_ends r) as (ts' & r' & Ow). exists r'.
  assert (D : ok (Ref R_DOCUMENT) (w ++ s) [document_ast (d :: ds)] [] r').
  { eapply ok_ref_node; [|reflexivity|reflexivity]. cbn [gram]. refine (ok_seq _ _ _ [] [] _ [_] _ _ (opt_gap w _ W So) _).
    refine (ok_seq _ _ _ [_] [] _ [] ts' _ _ Ow). eapply ok_ref_node; [|reflexivity|reflexivity]. cbn [gram]. exact (ok_plus _ _ [d] _ _ ds _ _ Od Os). }
  destruct D as (n0 & z & D). split; [|split; [|exists ts'; exact Ow]].
  - intros ->. exists n0. intros n L. unfold parse_document. rewrite (peg_mono n0 n _ _ _ L D). reflexivity.
  - intros NE. exists n0. intros n L. unfold parse_document. rewrite (peg_mono n0 n _ _ _ L D). destruct r'; [congruence|reflexivity].
Qed.
Lemma no_document : forall s, solid s -> no (Ref R_DEFINITION) s -> eventually (fun n => parse_document n s = Some None).
Proof.
  intros s So F. assert (D : no (Ref R_DOCUMENT) s).
  { apply no_ref. cbn [gram]. eapply no_seq_r; [apply opt_ws0, So|]. apply no_seq_l. apply no_ref. cbn [gram]. apply no_plus, F. }
  destruct D as (n0 & D). exists n0. intros n L. unfold parse_document. rewrite (peg_mono n0 n _ _ _ L D). reflexivity.
Qed.

Section Values.
  Variable fc : prim -> prim -> list N -> list N.
  Variable flt : arith -> prim -> list N -> list N -> list N.
  Variable flit : prim -> string -> res (list N).
  Notation build := (build fc flt flit).
  Notation build_run := (build_run fc flt flit).
  Notation sentences := (sentences fc flt flit).
  Fixpoint run_all (n : nat) (c : ctx) (p : place) (l : list ast) (root : modl) : run unit :=
    match l with [] => (root, Ok tt) | a :: r => andthen (build_run n c p a root) (fun _ root => run_all n c p r root) end.
  Lemma run_spec : forall n c p o k l root, build_run n c p (Ast o R_SPECIFICATION k l) root = run_all n c p l root.
  Proof.
    intros n c p o k l root. cbn [KeepRun.build_run]. revert root. induction l as [|a l IH]; intros root; [reflexivity|]. cbn [run_all]. destruct (build_run n c p a root) as [r [u|e]]; [|reflexivity]. cbn [andthen]. apply IH.
  Qed.
  Lemma run_orig : forall n c p o a root, build_run n c p (with_orig o a) root = build_run n c p a root.
  Proof.
    intros n c p o [o' t k l] root. cbn [with_orig]. destruct t; try reflexivity.
  Qed.
  Lemma run_document : forall n c d ds root, build_run n c [] (optimize (document_ast (d :: ds))) root = run_all n c [] (map optimize (d :: ds)) root.
  Proof.
    intros n c d ds root. unfold document_ast. rewrite optimize_one, run_orig. destruct ds as [|d2 ds].
    - rewrite optimize_one, run_orig. cbn [map run_all]. destruct (build_run n c [] (optimize d) root) as [r [[]|e]]; reflexivity.
    - change (optimize (Ast R_SPECIFICATION R_SPECIFICATION "" (d :: d2 :: ds))) with (Ast R_SPECIFICATION R_SPECIFICATION "" (map optimize (d :: d2 :: ds))). apply run_spec.
  Qed.
  Lemma run_app : forall n c p l l' root, run_all n c p (l ++ l') root = andthen (run_all n c p l root) (fun _ root => run_all n c p l' root).
  Proof.
    intros n c p l l'. induction l as [|a l IH]; intros root; [reflexivity|]. cbn [app run_all]. destruct (build_run n c p a root) as [r [u|e]]; [|reflexivity]. cbn [andthen]. apply IH.
  Qed.
  Lemma built_run : forall n c p a root root', build n c p a root = Ok root' -> build_run n c p a root = (root', Ok tt).
  Proof. intros n c p a root root' H. pose proof (agree_build fc flt flit n c a p root) as A. unfold agree, unit_of in A. rewrite H in A. cbn [bind] in A. destruct (build_run n c p a root) as [r [[]|e]]; congruence. Qed.
  (** The sentences come first in the tree. *)
  Lemma row_prefix : forall c p l root root1 s ds ts r, sentences c p l root root1 -> solid s -> ok (Star (Ref R_DEFINITION)) s ds ts r ->
    exists dl ts', List.length dl = List.length l /\ ok (Star (Ref R_DEFINITION)) (in_row l s) (dl ++ ds) ts' r /\ eventually (fun n => run_all n c p (map optimize dl) root = (root1, Ok tt)).
  Proof.
    intros c p l root root1 s ds ts r H So O. induction H as [root|core w l root root0 root1 H W HS IH].
    - exists [], ts. split; [reflexivity|]. split; [exact O|]. exists 0%nat. reflexivity.
    - destruct IH as (dl & ts' & L & Os & B). destruct (s_reads _ _ _ _ _ _ _ _ H w (in_row l s) W) as (d & Od & Bd); [eapply row_solid; eauto|].
      exists (d :: dl), ([] ++ ts')%list. split; [cbn; congruence|]. split; [exact (ok_star_more _ _ [d] [] _ (dl ++ ds) ts' _ Od Os)|].
      eapply ev_impl; [|apply (ev_and _ _ Bd B)]. intros n [A1 A2]. cbn [map run_all]. rewrite (built_run _ _ _ _ _ _ A1). exact A2.
  Qed.
  Lemma row_split : forall c p core w l root root1 s ds ts r, sentences c p ((core, w) :: l) root root1 -> solid s -> ok (Star (Ref R_DEFINITION)) s ds ts r ->
    exists d dl ts', ok (Ref R_DEFINITION) (in_row ((core, w) :: l) s) [d] [] (in_row l s) /\ ok (Star (Ref R_DEFINITION)) (in_row l s) (dl ++ ds) ts' r /\ eventually (fun n => run_all n c p (map optimize (d :: dl)) root = (root1, Ok tt)).
  Proof.
    intros c p core w l root root1 s ds ts r H So O. inversion H as [|? ? ? ? root0 ? H1 W1 H2]; subst. destruct (row_prefix _ _ _ _ _ _ _ _ _ H2 So O) as (dl & ts' & L & Os & B).
    destruct (s_reads _ _ _ _ _ _ _ _ H1 w (in_row l s) W1) as (d & Od & Bd); [eapply row_solid; eauto|]. exists d, dl, ts'. split; [exact Od|]. split; [exact Os|].
    eapply ev_impl; [|apply (ev_and _ _ Bd B)]. intros n [A1 A2]. cbn [map run_all]. rewrite (built_run _ _ _ _ _ _ A1). exact A2.
  Qed.
  (** The whole: the rest of the text is read on the module the sentences made. *)
  Lemma split_run : forall c w l root known s, l <> [] -> gap w -> sentences c [] l root known -> solid s -> s <> "" ->
    eventually (fun n => parse_run fc flt flit n c (w ++ in_row l s) root = match parse_run fc flt flit n c s known with (_, Ok false) => (root, Ok false) | x => x end).
  Proof.
    intros c w l root known s NE W H So NS. destruct l as [|[core w0] l]; [congruence|]. destruct (star_ends s) as (ds & ts & r & Os). destruct (row_split _ _ _ _ _ _ _ _ _ _ _ H So Os) as (d & dl & ts' & Od & Ol & B).
    assert (SL : solid (in_row ((core, w0) :: l) s)) by (eapply row_solid; eauto). destruct (document_of w _ d [] _ _ _ _ W SL Od Ol) as (r' & D1 & D2 & (tw & Ow)).
    destruct (peg_ends (Ref R_DEFINITION) s eq_refl) as (n0 & o & E). destruct o as [|z ns t1 s1].
    - assert (F : no (Ref R_DEFINITION) s) by (exists n0; exact E). assert (Q : ds = [] /\ r = s) by (eapply ok_one; [exact Os|apply ok_star_end, F]). destruct Q as [-> ->].
      assert (R' : s = r') by (eapply ok_one; [apply opt_ws0, So|exact Ow]). subst r'. specialize (D2 NS).
      eapply ev_impl; [|apply (ev_and _ _ D2 (no_document s So F))]. intros n [A1 A2]. unfold parse_run. rewrite A1, A2. reflexivity.
    - assert (Od' : ok (Ref R_DEFINITION) s ns t1 s1) by (exists n0, z; exact E). destruct (definition_one_node _ _ _ _ Od') as [d' ->]. destruct (star_ends s1) as (ds1 & ts1 & r1 & Os1).
      assert (Q : ds = ([d'] ++ ds1)%list /\ r = r1) by (eapply ok_one; [exact Os|exact (ok_star_more _ _ [d'] t1 _ ds1 ts1 _ Od' Os1)]). destruct Q as [-> <-].
      destruct (document_of "" s d' t1 _ _ _ _ gap_none So Od' Os1) as (r2 & E1 & E2 & (tw2 & Ow2)). cbn [append] in E1, E2. assert (R' : r' = r2) by (eapply ok_one; eassumption). subst r2.
      destruct (string_dec r' "") as [->|N].
      + specialize (D1 eq_refl). specialize (E1 eq_refl). eapply ev_impl; [|apply (ev_and _ _ D1 (ev_and _ _ E1 B))]. intros n (A1 & A2 & A3). unfold parse_run. rewrite A1, A2, !run_document.
        change (d :: dl ++ [d'] ++ ds1)%list with ((d :: dl) ++ (d' :: ds1))%list. rewrite map_app, run_app, A3. cbn [andthen]. destruct (run_all n c [] (map optimize (d' :: ds1)) known) as [k [u|e]]; reflexivity.
      + eapply ev_impl; [|apply (ev_and _ _ (D2 N) (E2 N))]. intros n [A1 A2]. unfold parse_run. rewrite A1, A2. reflexivity.
  Qed.
End Values.
