(** Documents: sentences one after the other, each ended by a semicolon. *)
From Verif Require Import Base Types TypeBuild Mem Hash MapOps Ops IntOps ModuleSpec ModuleFacts Module Peg0 Grammar Peg PegFacts PegRules IdlParse IdlParseFacts GenIdl GenSpec TypeText StructText StructRead NumText IdlLitFacts IdlLit IdlExpr.
From Verif Require Import GapSpec GapText.
Local Open Scope string_scope.

Section Values.
  Variable fc : prim -> prim -> list N -> list N.
  Variable flt : arith -> prim -> list N -> list N -> list N.
  Variable flit : prim -> string -> res (list N).
  Notation build := (build fc flt flit).
  Notation parse_idl := (parse_idl fc flt flit).
  Lemma build_orig : forall n c p o a root, build n c p (with_orig o a) root = build n c p a root.
  Proof. intros n c p o [o' t k l] root. cbn [with_orig]. destruct t; reflexivity. Qed.
  (** The text [core], the body of a definition, turns [root] into [root'] when it stands in the module at [p]. *)
  Record sentence (c : ctx) (p : place) (core : string) (root root' : modl) : Prop := {
    s_solid : forall s, solid (core ++ s);
    s_reads : forall w s, gap w -> solid s -> exists d, ok (Ref R_DEFINITION) (core ++ ";" ++ w ++ s) [d] [] s /\ eventually (fun n => build n c p (optimize d) root = Ok root') }.
  (** Sentences in a row. *)
  Inductive sentences (c : ctx) (p : place) : list (string * string) -> modl -> modl -> Prop :=
  | sents_nil : forall root, sentences c p [] root root
  | sents_cons : forall core w l root root1 root', sentence c p core root root1 -> gap w -> sentences c p l root1 root' -> sentences c p ((core, w) :: l) root root'.
  Fixpoint in_row (l : list (string * string)) (s : string) : string := match l with [] => s | (core, w) :: r => core ++ ";" ++ w ++ in_row r s end.
  Fixpoint build_all (n : nat) (c : ctx) (p : place) (l : list ast) (root : modl) : res modl :=
    match l with [] => Ok root | a :: r => do root <- build n c p a root; build_all n c p r root end.
  Lemma build_spec : forall n c p o k l root, build n c p (Ast o R_SPECIFICATION k l) root = build_all n c p l root.
  Proof. intros n c p o k l root. cbn [IdlParse.build]. revert root. induction l as [|a l IH]; intros root; [reflexivity|]. cbn [build_all]. destruct (build n c p a root) as [r|e]; [|reflexivity]. cbn [bind]. apply IH. Qed.
  Lemma row_solid : forall c p l root root' s, sentences c p l root root' -> solid s -> solid (in_row l s).
  Proof. intros c p l root root' s H S. destruct H; [exact S|]. cbn [in_row]. apply (s_solid _ _ _ _ _ H). Qed.
  Lemma row_reads : forall c p l root root' s, sentences c p l root root' -> solid s -> no (Ref R_DEFINITION) s -> exists ds, ok (Star (Ref R_DEFINITION)) (in_row l s) ds [] s /\
    List.length ds = List.length l /\ eventually (fun n => build_all n c p (map optimize ds) root = Ok root').
  Proof.
    intros c p l root root' s H. induction H as [root|core w l root root1 root' H W HS IH]; intros So F.
    - exists []. split; [apply ok_star_end, F|]. split; [reflexivity|]. exists O. reflexivity.
    - destruct (IH So F) as (ds & O & L & B). destruct (s_reads _ _ _ _ _ H w (in_row l s) W) as (d & Od & Bd); [eapply row_solid; eauto|].
      exists (d :: ds). split; [exact (ok_star_more _ _ [d] [] _ ds [] _ Od O)|]. split; [cbn; congruence|].
      eapply ev_impl; [|apply (ev_and _ _ Bd B)]. intros n [A1 A2]. cbn [map build_all]. rewrite A1. exact A2.
  Qed.
  Lemma no_definition_end : no (Ref R_DEFINITION) "".
  Proof. apply (no_at 40). reflexivity. Qed.
  (** The whole document. *)
  Lemma document_reads : forall c w l root root', l <> [] -> gap w -> sentences c [] l root root' ->
    eventually (fun n => parse_idl n c (w ++ in_row l "") root = Ok (true, root')).
  Proof.
    intros c w l root root' NE W H. destruct (row_reads _ _ _ _ _ "" H eq_refl no_definition_end) as (ds & O & L & B).
    assert (D : ok (Ref R_DOCUMENT) (w ++ in_row l "") [Ast R_DOCUMENT R_DOCUMENT "" [Ast R_SPECIFICATION R_SPECIFICATION "" ds]] [] "").
    { eapply ok_ref_node; [|reflexivity|reflexivity]. cbn [gram]. refine (ok_seq _ _ _ [] [] _ [_] [] _ (opt_gap w _ W _) _); [eapply row_solid; eauto; reflexivity|].
      refine (ok_seq _ _ _ [_] [] _ [] [] _ _ (opt_ws0 "" eq_refl)). eapply ok_ref_node; [|reflexivity|reflexivity]. cbn [gram].
      destruct l as [|[core w1] l]; [congruence|]. inversion H as [|? ? ? ? root1 ? H1 W1 H2]; subst.
      destruct (row_reads _ _ _ _ _ "" H2 eq_refl no_definition_end) as (ds2 & O2 & L2 & B2).
      destruct (s_reads _ _ _ _ _ H1 w1 (in_row l "") W1) as (d & Od & Bd); [eapply row_solid; eauto; reflexivity|].
      pose proof (ok_star_more _ _ [d] [] _ ds2 [] _ Od O2) as O'. destruct O as (n & z & O), O' as (n' & z' & O'). 
      assert (ds = d :: ds2).
      { pose proof (peg_mono n (n + n') _ _ _ ltac:(lia) O) as Q. pose proof (peg_mono n' (n + n') _ _ _ ltac:(lia) O') as Q'. cbn [app in_row] in Q, Q'. congruence. }
      subst ds. exact (ok_plus _ _ [d] [] _ ds2 [] _ Od O2). }
    destruct D as (n0 & z & D).
    assert (P : eventually (fun n => parse_document n (w ++ in_row l "") = Some (Some (with_orig R_DOCUMENT (optimize (Ast R_SPECIFICATION R_SPECIFICATION "" ds)))))).
    { exists n0. intros n Ln. unfold parse_document. rewrite (peg_mono n0 n (Ref R_DOCUMENT) _ _ Ln D). rewrite optimize_one. reflexivity. }
    eapply ev_impl; [|apply (ev_and _ _ P B)]. intros n [A1 A2]. unfold IdlParse.parse_idl. rewrite A1, build_orig.
    destruct ds as [|d [|d2 ds]].
    - destruct l; [congruence|discriminate L].
    - rewrite optimize_one, build_orig. cbn [map build_all] in A2. destruct (build n c [] (optimize d) root) as [r|e]; [|discriminate A2]. cbn [bind] in *. injection A2 as ->. reflexivity.
    - change (optimize (Ast R_SPECIFICATION R_SPECIFICATION "" (d :: d2 :: ds))) with (Ast R_SPECIFICATION R_SPECIFICATION "" (map optimize (d :: d2 :: ds))). rewrite build_spec, A2. reflexivity.
  Qed.
End Values.
