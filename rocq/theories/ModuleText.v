(** The sentence of a module: its declarations are made in that module. *)
From Verif Require Import Base Types TypeBuild Mem Hash MapOps Ops IntOps ModuleSpec ModuleFacts Module DepTree Peg0 Grammar Peg PegFacts PegRules IdlParse IdlParseFacts GenIdl GenSpec TypeText StructText StructRead NumText IdlLitFacts IdlLit IdlExpr GrowFacts DocFacts.
From Verif Require Import GapSpec GapText.
Local Open Scope string_scope.

Lemma definition_orig : forall q s d ts r, ok (Ref q) s [d] ts r -> a_orig (optimize d) = q.
Proof.
  intros q s d ts r (n & c & H). destruct n as [|n]; [discriminate H|]. rewrite peg_eq in H. destruct (peg n (gram q) s) as [[|c' ns ts' s']|]; try discriminate H. injection H as _ H _.
  unfold node_of in H. destruct (ignored q); [discriminate H|]. destruct (is_token_rule q); injection H as <-.
  - reflexivity.
  - destruct ns as [|a [|b ns]]; try reflexivity. cbn [optimize]. destruct (optimize a). reflexivity.
Qed.
(** create_submodule, unless it exists, and submodule. *)
Definition enters (x : string) (p : place) (root root1 : modl) : Prop :=
  exists r, (if has_submodule root p x then Ok root else call_create_submodule x root p) = Ok r /\ call_submodule x r p = Ok (true, root1).

Section Values.
  Variable fc : prim -> prim -> list N -> list N.
  Variable flt : arith -> prim -> list N -> list N -> list N.
  Variable flit : prim -> string -> res (list N).
  Notation build := (build fc flt flit).
  Notation sentence := (sentence fc flt flit).
  Notation sentences := (sentences fc flt flit).
  Lemma rows_orig : forall c p l root root' s, sentences c p l root root' -> solid s -> no (Ref R_DEFINITION) s -> exists ds, ok (Star (Ref R_DEFINITION)) (in_row l s) ds [] s /\
    List.length ds = List.length l /\ Forall (fun d => a_orig (optimize d) = R_DEFINITION) ds /\ eventually (fun n => build_all fc flt flit n c p (map optimize ds) root = Ok root').
  Proof.
    intros c p l root root' s H. induction H as [root|core w l root root1 root' H W HS IH]; intros So F.
    - exists []. split; [apply ok_star_end, F|]. split; [reflexivity|]. split; [constructor|]. exists O. reflexivity.
    - destruct (IH So F) as (ds & O & L & Fo & B). destruct (s_reads _ _ _ _ _ _ _ _ H w (in_row l s) W) as (d & Od & Bd); [eapply row_solid; eauto|].
      exists (d :: ds). split; [exact (ok_star_more _ _ [d] [] _ ds [] _ Od O)|]. split; [cbn; congruence|]. split; [constructor; [eapply definition_orig, Od|exact Fo]|].
      eapply ev_impl; [|apply (ev_and _ _ Bd B)]. intros n [A1 A2]. cbn [map build_all]. rewrite A1. exact A2.
  Qed.
  Definition module_definition (x : string) (ds : list ast) : ast := Ast R_DEFINITION R_DEFINITION "" [Ast R_MODULE_DCL R_MODULE_DCL "" (ident_node x :: ds)].
  Lemma optimize_module : forall x ds, ds <> [] -> optimize (module_definition x ds) = Ast R_DEFINITION R_MODULE_DCL "" (ident_node x :: map optimize ds).
  Proof. intros x [|d ds] NE; [congruence|]. reflexivity. Qed.
  (** The loop of module_dcl behind the name. *)
  Fixpoint module_rest (n : nat) (c : ctx) (p q : place) (l : list ast) (root : modl) : res modl :=
    match l with [] => Ok root | a :: r => do root <- build n c q a root; module_rest n c p q r root end.
  Lemma build_module : forall n c p o x l root root1, Forall (fun a => a_orig a = R_DEFINITION) l ->
    resolve_identifier n c root p x true = Ok x -> enters x p root root1 ->
    build n c p (Ast o R_MODULE_DCL "" (ident_node x :: l)) root = build_all fc flt flit n c (x :: p) l root1.
  Proof.
    intros n c p o x l root root1 F R (r & E1 & E2). cbn [IdlParse.build ident_node a_tag a_orig rule_eqb a_tok]. change (rule_eqb R_IDENTIFIER R_IDENTIFIER) with true. cbv iota. rewrite R. cbn [bind]. rewrite E1. cbn [bind]. rewrite E2. cbn [bind fst snd].
    clear R E1 E2 r. revert root1. induction F as [|a l Fa Fl IH]; intros root1; [reflexivity|]. cbn [build_all].
    assert (X : a_tag a = R_IDENTIFIER -> struct_def n c (x :: p) a root1 = build n c (x :: p) a root1) by (destruct a as [o' t k' l']; cbn [a_tag]; intros ->; reflexivity).
    rewrite Fa. change (rule_eqb R_DEFINITION R_IDENTIFIER) with false. cbv iota.
    destruct (build n c (x :: p) a root1) as [r|e] eqn:B; cbn [bind]; rewrite <- ?IH; destruct (a_tag a); first [reflexivity|rewrite (X eq_refl); reflexivity].
  Qed.
  Lemma no_definition_brace : forall s, no (Ref R_DEFINITION) ("}" ++ s).
  Proof. intros s. no_by_text. Qed.
  Definition module_core (x w1 w2 : string) (l : list (string * string)) : string := "module " ++ x ++ w1 ++ "{" ++ w2 ++ in_row l "}".
  Lemma in_row_app : forall l s s', in_row l s ++ s' = in_row l (s ++ s').
  Proof. induction l as [|[core w] l IH]; intros s s'; [reflexivity|]. cbn [in_row]. rewrite !app_assoc_s, IH. reflexivity. Qed.
  Lemma module_sentence : forall c p x w1 w2 l root root1 root', ignore_case c = false -> plain_name x = true -> w1 <> "" -> all_chars is_ws w1 = true -> gap w2 -> l <> [] ->
    enters x p root root1 -> sentences c (x :: p) l root1 root' -> sentence c p (module_core x w1 w2 l) root root'.
  Proof.
    intros c p x w1 w2 l root root1 root' IC PN NE W1 W2 NL En HS. assert (I : is_ident x = true) by (apply andb_true_iff in PN as [PN _]; apply plain_ident, PN).
    constructor; [intros s; reflexivity|]. intros w s W So.
    destruct (rows_orig c (x :: p) l root1 root' ("}" ++ ";" ++ w ++ s) HS eq_refl (no_definition_brace _)) as (ds & O & L & Fo & B).
    assert (ND : ds <> []) by (destruct ds; [destruct l; [congruence|discriminate L]|discriminate]).
    exists (module_definition x ds). split.
    - unfold module_core. rewrite !app_assoc_s, in_row_app. eapply ok_ref_node; [|reflexivity|reflexivity]. cbn [gram]. apply ok_alt_l.
      refine (ok_seq _ _ _ [_] [] _ [] [] _ _ (ok_close_gap R_SEMICOLON ";" w s ltac:(kw) eq_refl W So)). apply ok_alt_l.
      eapply ok_ref_node; [|reflexivity|reflexivity]. cbn [gram]. refine (ok_seq _ _ _ [] [] _ _ [] _ (ok_star_end _ _ _) _); [no_by_text|].
      refine (ok_seq _ _ _ [] [] _ _ [] _ (ok_keyword R_KW_MODULE "module" "" " " _ _ eq_refl eq_refl _ _) _); [kw|apply ident_solid, I|reflexivity|].
      refine (ok_seq _ _ _ [_] [] _ _ [] _ (ok_ident x _ I _) _).
      { destruct w1 as [|c1 w1]; [congruence|]. cbn [append first_is]. cbn [all_chars] in W1. apply andb_true_iff in W1 as [W1 _].
        pose proof (all_ascii (fun c => implb (is_ws c) (negb (id_char c))) eq_refl c1) as K. cbv beta in K. rewrite W1 in K. apply negb_true_iff in K. exact K. }
      refine (ok_seq _ _ _ [] [] _ _ [] _ (ok_punct_gap R_OPEN_BRACE "{" w1 w2 _ _ eq_refl W1 W2 _) _); [kw|eapply row_solid; eauto; reflexivity|].
      rewrite <- (app_nil_r ds). refine (ok_seq _ _ _ _ [] _ [] [] _ _ (ok_open R_CLOSE_BRACE "}" _ _ eq_refl _)); [|kw|reflexivity].
      destruct l as [|[core wl] l]; [congruence|]. inversion HS as [|? ? ? ? rootm ? H1 W3 H2]; subst.
      destruct (row_reads fc flt flit _ _ _ _ _ ("}" ++ ";" ++ w ++ s) H2 eq_refl (no_definition_brace _)) as (ds2 & O2 & L2 & B2).
      destruct (s_reads _ _ _ _ _ _ _ _ H1 wl (in_row l ("}" ++ ";" ++ w ++ s)) W3) as (d & Od & Bd); [eapply row_solid; eauto; reflexivity|].
      pose proof (ok_star_more _ _ [d] [] _ ds2 [] _ Od O2) as O'. pose proof (ok_plus _ _ [d] [] _ ds2 [] _ Od O2) as OP. destruct O as (n & z & O), O' as (n' & z' & O').
      assert (ds = d :: ds2).
      { pose proof (peg_mono n (n + n') _ _ _ ltac:(lia) O) as Q. pose proof (peg_mono n' (n + n') _ _ _ ltac:(lia) O') as Q'. cbn [app in_row append] in Q, Q'. congruence. }
      subst ds. exact OP.
    - rewrite (optimize_module x ds ND). eapply ev_impl; [|apply (ev_and _ _ (plain_resolves c root p x true IC PN ltac:(discriminate)) B)]. intros n [A1 A2].
      rewrite (build_module n c p R_DEFINITION x (map optimize ds) root root1); [exact A2| |exact A1|exact En].
      rewrite Forall_map. exact Fo.
  Qed.
End Values.
