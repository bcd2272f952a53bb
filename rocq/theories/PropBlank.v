(** Theorems about the layout of IDL texts: C50 (and C39 in any layout). *)
From Verif Require Import Base Types TypeBuild Compat Mem Hash MapOps Ops Module ModuleFacts IntOps IdlLit IdlLitFacts Peg0 Grammar Peg PegFacts PegRules IdlParse IdlParseFacts ModuleSpec GenIdl GenSpec DocFacts DocSpec DocText PropParse PropDoc BlankSpec BlankFacts BlankMatch.
Local Open Scope string_scope.
Local Arguments blank : simpl never.
Local Arguments loose_char : simpl never.
Local Arguments doubling : simpl never.

Lemma at_end : forall r, at_ "" r -> headed r = false -> r = "".
Proof.
  intros r A H. apply at_position in A. inversion A as [|p c s s' F|p c d w w' s s' W W' F F' Q R X E E'|w w' W W']; subst.
  - discriminate F.
  - destruct w; discriminate E.
  - apply headed_blank; assumption.
Qed.
Lemma respaced_sym : forall p c s s', respaced p c s s' -> respaced p c s' s.
Proof.
  intros p c s s' R. induction R as [|p c d w w' s s' W W' D Q G C R IH]; [apply rs_end; assumption|]. apply rs_char; try assumption; [tauto|]. intros E F. destruct (C E F). auto.
Qed.
Lemma at_sym : forall s s', at_ s s' -> at_ s' s.
Proof. intros s s' (p & c & R & F). exists p, c. split; [apply respaced_sym, R|tauto]. Qed.
(** The outcome of the grammar on two texts that differ only in their blanks. *)
Lemma documents_alike : forall s s', same_but_blanks s s' -> exists n0, forall n, (n0 <= n)%nat ->
  match parse_document n s, parse_document n s' with Some (Some a), Some (Some a') => norm a = norm a' | Some None, Some None => True | _, _ => False end.
Proof.
  intros s s' B. assert (A : any_ s s') by (eexists _, _; exact B). destruct (opt_ws_alike s s' A) as (w & w' & W & W' & O & O'). destruct (skip_any s s' A) as (A2 & _ & _).
  destruct (any_clean _ _ A) as [K K']. destruct (peg_ends (Ref R_SPECIFICATION) (skip s) eq_refl) as (m & o & E).
  destruct (alike_main m (Ref R_SPECIFICATION) (skip s) (skip s') o eq_refl A2 E) as (o' & E' & R).
  assert (G : exists n0 d d', peg n0 (Ref R_DOCUMENT) s = Some d /\ peg n0 (Ref R_DOCUMENT) s' = Some d' /\
    match d, d' with No, No => True | Yes _ ns _ r, Yes _ ns' _ r' => map norm ns = map norm ns' /\ at_ r r' /\ headed r = false /\ headed r' = false | _, _ => False end).
  { assert (Y : exists d d', yields (gram R_DOCUMENT) s d /\ yields (gram R_DOCUMENT) s' d' /\
      match d, d' with No, No => True | Yes _ ns _ r, Yes _ ns' _ r' => map norm ns = map norm ns' /\ at_ r r' /\ headed r = false /\ headed r' = false | _, _ => False end).
    { cbn [gram]. destruct o as [|c ns ts r], o' as [|c' ns' ts' r']; try contradiction R.
      - exists No, No. split; [exact (yields_seq _ _ _ _ _ _ _ No O (yields_seq_no _ _ _ (ex_intro _ _ E)))|]. split; [exact (yields_seq _ _ _ _ _ _ _ No O' (yields_seq_no _ _ _ E'))|exact I].
      - destruct R as (Rc & Rn & Rt & Ra). destruct (opt_ws_alike r r' (at_any _ _ Ra)) as (v & v' & V & V' & P & P').
        eexists _, _. split; [exact (yields_seq _ _ _ _ _ _ _ _ O (yields_seq _ _ _ _ _ _ _ _ (ex_intro _ _ E) P))|]. split; [exact (yields_seq _ _ _ _ _ _ _ _ O' (yields_seq _ _ _ _ _ _ _ _ E' P'))|].
        cbv iota beta. rewrite !map_app, Rn. split; [reflexivity|]. apply skip_any, at_any, Ra. }
    destruct Y as (d & d' & (n1 & Y1) & (n2 & Y2) & M). exists (S (n1 + n2)).
    assert (F1 : peg (n1 + n2) (gram R_DOCUMENT) s = Some d) by (eapply max_l, Y1). assert (F2 : peg (n1 + n2) (gram R_DOCUMENT) s' = Some d') by (eapply max_r, Y2).
    rewrite !peg_eq, F1, F2. destruct d as [|c1 ns1 ts1 r1], d' as [|c1' ns1' ts1' r1']; try contradiction M; eexists _, _; (split; [reflexivity|]); (split; [reflexivity|]); [exact I|].
    destruct M as (M & M2). split; [|exact M2]. change (map norm [Ast R_DOCUMENT R_DOCUMENT "" ns1] = map norm [Ast R_DOCUMENT R_DOCUMENT "" ns1']). cbn [map norm]. rewrite M. reflexivity. }
  destruct G as (n0 & d & d' & D & D' & M). exists n0. intros n L. unfold parse_document. rewrite (peg_mono _ _ _ _ _ L D), (peg_mono _ _ _ _ _ L D').
  destruct d as [|c1 ns1 ts1 r1], d' as [|c1' ns1' ts1' r1']; try contradiction M; [exact I|]. destruct M as (M & A1 & H1 & H1').
  destruct ns1 as [|a [|b ns1]], ns1' as [|a' [|b' ns1']]; try discriminate M; try exact I. cbn [map] in M. injection M as M.
  destruct r1 as [|x r1].
  - rewrite (at_end _ A1 H1'). rewrite !norm_optimize, M. reflexivity.
  - destruct r1' as [|y r1']; [|exact I]. discriminate (at_end _ (at_sym _ _ A1) H1).
Qed.

(** ** C50: the layout does not matter *)

(** The grammar accepts both texts or none. *)
Theorem C50_accepted_partial : forall s s', same_but_blanks s s' -> exists n0, forall n, (n0 <= n)%nat ->
  ((exists a, parse_document n s = Some (Some a)) <-> (exists a, parse_document n s' = Some (Some a))).
Proof.
  intros s s' B. destruct (documents_alike s s' B) as (n0 & H). exists n0. intros n L. specialize (H n L).
  destruct (parse_document n s) as [[a|]|], (parse_document n s') as [[a'|]|]; try contradiction H; split; intros (x & X); try discriminate X; eauto.
Qed.
(** parse gives the same answer and the same module, for every context and context module. *)
Theorem C50_layout_partial : forall fc flt flit c root s s' r, same_but_blanks s s' -> labels_without_blanks s -> labels_without_blanks s' ->
  parses fc flt flit c s root r <-> parses fc flt flit c s' root r.
Proof.
  assert (G : forall fc flt flit c root s s' r, same_but_blanks s s' -> labels_without_blanks s -> labels_without_blanks s' -> parses fc flt flit c s root r -> parses fc flt flit c s' root r).
  { intros fc flt flit c root s s' r B T T' (m & H). destruct (documents_alike s s' B) as (n0 & D). exists (n0 + m)%nat. intros n L. rewrite <- (H n) by lia. specialize (D n ltac:(lia)).
    unfold parse_idl. destruct (parse_document n s) as [[a|]|] eqn:E, (parse_document n s') as [[a'|]|] eqn:E'; try contradiction D; [|reflexivity].
    rewrite <- (norm_tight a' (T' _ _ E')), <- (norm_tight a (T _ _ E)), D. reflexivity. }
  intros fc flt flit c root s s' r B T T'. split; apply G; try assumption. apply respaced_sym, B.
Qed.
(** Whatever the layout of the text of a document is, parse makes the declarations of the document (C39). *)
Theorem C39_any_layout_partial : forall fc flt flit c ds root root' text text', usual c -> no_nulls root -> ident_symbols root -> ds <> [] ->
  all_declared fc [] ds root root' -> written_all 0 ds text -> same_but_blanks text text' -> labels_without_blanks text -> labels_without_blanks text' ->
  parses fc flt flit c text' root (Ok (true, root')).
Proof.
  intros fc flt flit c ds root root' text text' U N IS NE A W B T T'. apply (C50_layout_partial fc flt flit c root text text' _ B T T'). eapply C39_document_partial; eassumption.
Qed.

(** Deciding it for given texts. *)
Fixpoint check (n : nat) (p c : ascii) (s s' : string) : bool :=
  match n with
  | O => false
  | S n =>
      match skip s, skip s' with
      | EmptyString, EmptyString => true
      | String d r, String d' r' =>
          Ascii.eqb d d' && negb (one_of """'#" d) && (Bool.eqb (headed s) (headed s') || (negb (doubling c && Ascii.eqb c d) && (free_after p c || (free_before d r && free_before d r')))) &&
          (negb (Ascii.eqb c "/" && one_of "/*" d) || (headed s && headed s')) && check n c d r r'
      | _, _ => false
      end
  end.
Lemma headed_empty : forall w s, all_blank w = true -> headed s = false -> (headed (w ++ s) = false <-> w = "").
Proof. intros w s W H. split; [intros E; destruct w as [|a w]; [reflexivity|]; cbn in W, E; rewrite E in W; discriminate W|intros ->; exact H]. Qed.
Lemma check_sound : forall n p c s s', check n p c s s' = true -> respaced p c s s'.
Proof.
  induction n as [|n IH]; intros p c s s' H; [discriminate H|]. cbn [check] in H. destruct (skip_split s) as (w & W & E & F & _). destruct (skip_split s') as (w' & W' & E' & F' & _).
  destruct (skip s) as [|d r] eqn:K, (skip s') as [|d' r'] eqn:K'; try discriminate H.
  - rewrite E, E', !app_nil_s. apply rs_end; assumption.
  - apply andb_true_iff in H as [H R]. apply andb_true_iff in H as [H C]. apply andb_true_iff in H as [H G]. apply andb_true_iff in H as [H Q]. apply Ascii.eqb_eq in H; subst d'. apply negb_true_iff in Q.
    rewrite E in G, C |- *. rewrite E' in G, C |- *. pose proof (headed_empty w _ W F) as X. pose proof (headed_empty w' _ W' F') as X'.
    apply rs_char; try assumption; [| |apply IH, R].
    + apply orb_true_iff in G as [G|G].
      * left. apply Bool.eqb_prop in G. rewrite <- X, <- X', G. reflexivity.
      * right. apply andb_true_iff in G as [N G]. apply negb_true_iff in N. split; [exact N|]. apply orb_true_iff in G as [G|G]; [left; exact G|right; apply andb_true_iff, G].
    + intros -> M. rewrite M in C. cbn [Ascii.eqb andb negb orb] in C. apply andb_true_iff in C as [C C']. split; intros Z; [apply (proj2 X) in Z|apply (proj2 X') in Z]; congruence.
Qed.
Lemma checked : forall n s s', check n ";" ";" s s' = true -> same_but_blanks s s'.
Proof. intros n s s' H. eapply check_sound, H. Qed.
Lemma tight_at : forall n s, match parse_document n s with Some (Some a) => tight_labels a | Some None => true | None => false end = true -> labels_without_blanks s.
Proof.
  intros n s H m a E. destruct (parse_document n s) as [[b|]|] eqn:K; try discriminate H.
  - pose proof (document_at n (n + m) s _ K ltac:(lia)) as X. pose proof (document_at m (n + m) s _ E ltac:(lia)) as Y. congruence.
  - pose proof (document_at n (n + m) s _ K ltac:(lia)) as X. pose proof (document_at m (n + m) s _ E ltac:(lia)) as Y. congruence.
Qed.
Definition bl_wide : string := "module  M {" ++ NL ++ "  struct A : B" ++ NL ++ "  {" ++ NL ++ TAB ++ "sequence< long , 3 > x [ 2 ] , y ;" ++ NL ++ "  } ;" ++ NL ++ "  union U switch ( long )" ++ NL ++ "  { case 1 : case 2 : A a ; default: short b ; } ;" ++ NL ++ "} ; ".
Definition bl_narrow : string := "module M{struct A:B{sequence<long,3>x[2],y;};union U switch(long){case 1:case 2:A a;default:short b;};};".
Example C50_nontrivial : same_but_blanks bl_wide bl_narrow /\ labels_without_blanks bl_wide /\ labels_without_blanks bl_narrow /\
  exists a, parse_document 600 bl_wide = Some (Some a).
Proof.
  split; [apply (checked 300); vm_compute; reflexivity|]. split; [apply (tight_at 600); vm_compute; reflexivity|]. split; [apply (tight_at 600); vm_compute; reflexivity|].
  eexists. vm_compute. reflexivity.
Qed.

(** A comment that follows a tab is not accepted after a comma, one that follows a space is. *)
Definition after_comma (blank_before : string) : string := "enum E { A," ++ blank_before ++ "// the first" ++ NL ++ "B };".
Theorem C50_comment_after_tab_refuted : forall fc flt flit, parses fc flt flit default_ctx (after_comma TAB) root_module (Ok (false, root_module)) /\
  exists root' t, parses fc flt flit default_ctx (after_comma " ") root_module (Ok (true, root')) /\ assoc "E" (enums (tab_at root' [])) = Some t.
Proof. intros fc flt flit. split; [parsed|]. eexists _, _. split; [parsed|]. vm_compute. reflexivity. Qed.
(** A blank between default and the colon: the default case becomes the case of the label 0. *)
Definition default_text (blank_before : string) : string := "union U switch (long) { case 1: long a; default" ++ blank_before ++ ": long b; };".
Theorem C50_default_refuted : forall fc flt flit, exists r1 r2 u1 u2, parses fc flt flit default_ctx (default_text "") root_module (Ok (true, r1)) /\
  parses fc flt flit default_ctx (default_text " ") root_module (Ok (true, r2)) /\ assoc "U" (unions (tab_at r1 [])) = Some u1 /\ assoc "U" (unions (tab_at r2 [])) = Some u2 /\ u1 <> u2.
Proof. intros fc flt flit. eexists _, _, _, _. split; [parsed|]. split; [parsed|]. split; [vm_compute; reflexivity|]. split; [vm_compute; reflexivity|]. discriminate. Qed.
(** C49: a case label that is an expression is not evaluated: case 1+2 is the case of the label 1. *)
Theorem C49_label_expression_refuted : forall fc flt flit, exists root a b c o p sz,
  parses fc flt flit default_ctx "union U switch (long) { case 1+2: long x; case 4: long y; };" root_module (Ok (true, root)) /\
  assoc "U" (unions (tab_at root [])) = Some (TUnion "U" sz [("discriminator", 0%N, TPrim PI32); ("x", o, TPrim PI32); ("y", p, TPrim PI32)] [(1%Z, "x"); (4%Z, "y")] a b c).
Proof. intros fc flt flit. do 7 eexists. split; [parsed|]. vm_compute. reflexivity. Qed.

Print Assumptions C50_accepted_partial.
Print Assumptions C50_layout_partial.
Print Assumptions C39_any_layout_partial.
Print Assumptions C50_comment_after_tab_refuted.
Print Assumptions C50_default_refuted.
Print Assumptions C49_label_expression_refuted.
