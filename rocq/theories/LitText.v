(** Literals other than numbers as constant expressions, and character literals. *)
From Verif Require Import Base Types Peg0 Grammar Peg PegFacts PegRules TypeText ExprSpec ExprText GenSpec IdlLitFacts GenIdl UnionSpec UnionText.
Local Open Scope string_scope.

Lemma lift_level : forall l s a t, (l < 6)%nat -> stops 0 "" t -> ok (Ref (rule_of (S l))) s [a] [] t -> ok (Ref (rule_of l)) s [Ast (rule_of l) (rule_of l) "" [a]] [] t.
Proof.
  intros l s a t H St O. destruct (gram_level l H) as (G & I & Tk). eapply ok_ref_node; [|exact I|exact Tk]. rewrite G. apply ok_alt_r; [|exact O].
  eapply no_seq_r; [exact O|]. apply no_seq_l. apply (st_ops _ _ _ St l "" ltac:(lia) eq_refl).
Qed.
Definition literal_tree (a : ast) : ast :=
  let up q x := Ast q q "" [x] in
  up R_CONST_EXPR (up R_XOR_EXPR (up R_AND_EXPR (up R_SHIFT_EXPR (up R_ADD_EXPR (up R_MULT_EXPR (up R_UNARY_EXPR (up R_PRIMARY_EXPR (up R_SCOPED_OR_LITERAL (up R_LITERAL a))))))))).
(** A text read as a literal is read as a constant expression. *)
Lemma literal_expr : forall s a t, stops 0 "" t -> no (Ref R_OPEN_PARENTHESES) s -> no (Ref R_UNARY_OP) s -> ok (gram R_LITERAL) s [a] [] t -> ok (Ref R_CONST_EXPR) s [literal_tree a] [] t.
Proof.
  intros s a t St NP NU O. unfold literal_tree. apply (lift_level 0 s); [lia|exact St|]. apply (lift_level 1 s); [lia|exact St|]. apply (lift_level 2 s); [lia|exact St|]. apply (lift_level 3 s); [lia|exact St|]. apply (lift_level 4 s); [lia|exact St|]. apply (lift_level 5 s); [lia|exact St|]. change (rule_of 6) with R_UNARY_EXPR.
  eapply ok_ref_node; [|reflexivity|reflexivity]. cbn [gram]. apply ok_alt_r; [apply no_seq_l, NU|].
  eapply ok_ref_node; [|reflexivity|reflexivity]. cbn [gram]. apply ok_alt_r; [apply no_seq_l, NP|].
  eapply ok_ref_node; [|reflexivity|reflexivity]. cbn [gram]. apply ok_alt_l. eapply ok_ref_node; [exact O|reflexivity|reflexivity].
Qed.

(** *** Characters *)
Lemma ok_char_literal : forall ch t, quotable ch = true -> ok (Ref R_CHAR_LITERAL) ("'" ++ String ch ("'" ++ t)) [Ast R_CHAR_LITERAL R_CHAR_LITERAL ("'" ++ String ch "'") []] [] t.
Proof.
  intros ch t Q. eapply ok_ref_token; [|reflexivity|reflexivity]. cbn [gram]. apply ok_alt_l. change ("'" ++ String ch ("'" ++ t)) with (("'" ++ String ch "'") ++ t).
  refine (ok_tok _ ("'" ++ String ch "'") [] [] _ _). change (("'" ++ String ch "'") ++ t) with (String "'" (String ch (String "'" t))).
  refine (ok_seq _ _ _ [] [] _ [] [] _ (ok_lit "'" (String "'" (String ch (String "'" t))) (String ch (String "'" t)) eq_refl) _). refine (ok_seq _ _ _ [] [] _ [] [] _ (ok_plus _ _ [] [] _ [] [] _ _ (ok_star_end _ _ _)) (ok_lit "'" (String "'" t) t eq_refl)).
  - refine (ok_seq _ _ _ [] [] _ [] [] _ (ok_not _ _ _) (ok_any ch _)). apply no_cls. intros c r [= <- _].
    pose proof (all_ascii (fun c => implb (quotable c) (negb (in_class c [(""""%char, """"%char); ("'"%char, "'"%char); (""""%char, """"%char); ("\"%char, "\"%char)]))) eq_refl ch) as K. cbv beta in K. rewrite Q in K. apply negb_true_iff in K. exact K.
  - no_by_text.
Qed.
Lemma spells_char : forall ch, quotable ch = true -> spells ("'" ++ String ch "'") /\ spells ("L'" ++ String ch "'").
Proof.
  intros ch Q. split; (split; [intros s; reflexivity|]; intros s FC).
  - eexists. apply literal_expr; [apply stops_case, FC|no_by_text|no_by_text|]. cbn [gram]. apply ok_alt_r; [no_by_text|]. apply ok_alt_r; [no_by_text|]. apply ok_alt_r; [no_by_text|]. apply ok_alt_l. apply (ok_char_literal ch (":" ++ s) Q).
  - eexists. apply literal_expr; [apply stops_case, FC|no_by_text|no_by_text|]. cbn [gram]. apply ok_alt_r; [no_by_text|]. apply ok_alt_r; [no_by_text|]. apply ok_alt_r; [no_by_text|]. apply ok_alt_r; [no_by_text|]. apply ok_alt_l.
    eapply ok_ref_token; [|reflexivity|reflexivity]. cbn [gram]. change (("L'" ++ String ch "'") ++ ":" ++ s) with ((("L'" ++ String ch "'")) ++ (":" ++ s)).
    refine (ok_tok _ ("L'" ++ String ch "'") _ _ _ _). exact (ok_seq _ _ _ [] [] _ _ _ _ (ok_lit "L" (String "L" ("'" ++ String ch ("'" ++ ":" ++ s))) ("'" ++ String ch ("'" ++ ":" ++ s)) eq_refl) (ok_char_literal ch (":" ++ s) Q)).
Qed.
