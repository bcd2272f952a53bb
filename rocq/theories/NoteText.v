(** The text of annotations is read, and leaves nothing but blanks. *)
From Verif Require Import Base Types IntOps ModuleSpec NumText Peg0 Grammar Peg PegFacts PegRules IdlLit IdlExpr IdlSpec IdlFacts IdlLitFacts GenSpec TypeText StructText ExprSpec ExprText LitText NoteSpec.
Local Open Scope string_scope.

(** *** What stands behind a value: a comma, a parenthesis or a semicolon *)
Definition closer (c : ascii) : bool := in_class c [(")", ")"); (",", ","); (";", ";")]%char.
Lemma closer_impl : forall (P : ascii -> bool) c, forallb (fun c => implb (closer c) (P c)) (map ascii_of_nat (seq 0 256)) = true -> closer c = true -> P c = true.
Proof. intros P c H C. pose proof (all_ascii _ H c) as K. cbv beta in K. rewrite C in K. exact K. Qed.
Lemma closer_solid : forall c r, closer c = true -> solid (String c r).
Proof. intros c r H. unfold solid. cbn [first_is]. apply negb_true_iff. apply (closer_impl (fun c => negb (is_ws c || Ascii.eqb c "/"))); [reflexivity|exact H]. Qed.
Lemma closer_no_op : forall c k w r, closer c = true -> all_chars is_ws w = true -> (k < 6)%nat -> no (Ref (op_rule k)) (w ++ String c r).
Proof. intros c k w r H W L. apply no_op_char; [exact W| |exact L]. exact (closer_impl (fun c => in_class c [(";", ";"); (":", ":"); (")", ")"); (",", ",")]%char) c eq_refl H). Qed.
Lemma closer_stops : forall c w r, closer c = true -> all_chars is_ws w = true -> stops 0 w (String c r).
Proof.
  intros c w r H W. constructor; [exact W|apply solid_firm, closer_solid, H| | |].
  - exact (closer_impl stop_char c eq_refl H).
  - cbn [after]. pose proof (closer_impl (fun c => negb (Ascii.eqb ":" c)) c eq_refl H) as K. apply negb_true_iff in K. rewrite K. reflexivity.
  - intros k w' K W'. apply closer_no_op; [exact H|exact W'|lia].
Qed.
Lemma lift_any : forall l s a t, (l < 6)%nat -> (forall k, (k < 6)%nat -> no (Ref (op_rule k)) t) -> ok (Ref (rule_of (S l))) s [a] [] t -> ok (Ref (rule_of l)) s [Ast (rule_of l) (rule_of l) "" [a]] [] t.
Proof.
  intros l s a t H St O. destruct (gram_level l H) as (G & I & Tk). eapply ok_ref_node; [|exact I|exact Tk]. rewrite G. apply ok_alt_r; [|exact O].
  eapply no_seq_r; [exact O|]. apply no_seq_l. apply St, H.
Qed.
Lemma literal_any : forall s a t, (forall k, (k < 6)%nat -> no (Ref (op_rule k)) t) -> no (Ref R_OPEN_PARENTHESES) s -> no (Ref R_UNARY_OP) s -> ok (gram R_LITERAL) s [a] [] t -> ok (Ref R_CONST_EXPR) s [literal_tree a] [] t.
Proof.
  intros s a t St NP NU O. unfold literal_tree. apply (lift_any 0 s); [lia|exact St|]. apply (lift_any 1 s); [lia|exact St|]. apply (lift_any 2 s); [lia|exact St|]. apply (lift_any 3 s); [lia|exact St|]. apply (lift_any 4 s); [lia|exact St|]. apply (lift_any 5 s); [lia|exact St|]. change (rule_of 6) with R_UNARY_EXPR.
  eapply ok_ref_node; [|reflexivity|reflexivity]. cbn [gram]. apply ok_alt_r; [apply no_seq_l, NU|].
  eapply ok_ref_node; [|reflexivity|reflexivity]. cbn [gram]. apply ok_alt_r; [apply no_seq_l, NP|].
  eapply ok_ref_node; [|reflexivity|reflexivity]. cbn [gram]. apply ok_alt_l. eapply ok_ref_node; [exact O|reflexivity|reflexivity].
Qed.
Lemma blank_not_id : forall w c r, all_chars is_ws w = true -> id_char c = false -> first_is id_char (w ++ String c r) = false.
Proof.
  intros [|d w] c r W H; [exact H|]. cbn [append first_is]. cbn [all_chars] in W. apply andb_true_iff in W as [W _].
  pose proof (all_ascii (fun c => implb (is_ws c) (negb (id_char c))) eq_refl d) as K. cbv beta in K. rewrite W in K. apply negb_true_iff in K. exact K.
Qed.
Lemma closer_not_id : forall c, closer c = true -> id_char c = false.
Proof. intros c H. apply negb_true_iff. exact (closer_impl (fun c => negb (id_char c)) c eq_refl H). Qed.
Lemma closer_not_equal : forall c r, closer c = true -> after "=" (String c r) = None.
Proof. intros c r H. cbn [after]. pose proof (closer_impl (fun c => negb (Ascii.eqb "=" c)) c eq_refl H) as K. apply negb_true_iff in K. rewrite K. reflexivity. Qed.

(** *** Values *)
(** The value is read as a constant expression, and not as the name of a parameter. *)
Definition named_start : exp rule := Seq (Ref R_IDENTIFIER) (Seq (Ref R_EQUAL_OP) (Ref R_CONST_EXPR)).
Lemma no_equal : forall w s, all_chars is_ws w = true -> firm s -> after "=" s = None -> no (Seq (Ref R_EQUAL_OP) (Ref R_CONST_EXPR)) (w ++ s).
Proof. intros w s W F A. apply no_seq_l. apply (no_operator R_EQUAL_OP "=" w s); [repeat split|exact W|exact F|exact A]. Qed.
Lemma no_ident_start : forall s, first_is id_first s = false -> no named_start s.
Proof. intros s H. apply no_seq_l, no_ident, H. Qed.
(** Behind a name at the beginning of an expression an operator follows, and an operand. *)
Lemma second_token : forall l e ts, rderives l e ts -> match ts with KName _ :: k :: r => exists o t r', k = KOp o /\ r = t :: r' /\ first_token t | _ => True end.
Proof.
  induction 1 as [l e ts Hl H IH|o a b ts ts1 H1 IH1 H2 IH2|u e ts H IH|e ts H IH|x s|x]; try exact Logic.I; try assumption.
  - pose proof (first_tokens _ _ _ H2) as F2. destruct ts as [|t ts]; [destruct (rderives_nonempty _ _ _ H1 eq_refl)|]. destruct t; cbn [app]; try exact Logic.I. destruct ts as [|t ts]; cbn [app].
    + destruct ts1 as [|t ts1]; [contradiction|]. exists o, t, ts1. auto.
    + destruct IH1 as (o' & t' & r' & -> & -> & F). cbn [app]. exists o', t', (r' ++ KOp o :: ts1)%list. auto.
  - destruct u; exact Logic.I.
Qed.
Lemma op_not_equal : forall o s, after "=" (op_text o ++ s) = None.
Proof. intros [] s; reflexivity. Qed.
Lemma text_begin : forall t r s, first_token t -> text_of (t :: r) s -> first_is start_char s = true.
Proof.
  intros t r s F T. assert (X : forall x, token_text t x -> first_is start_char x = true).
  { intros x Tk. destruct Tk as [l base z L|qs y Hy _ _|o| | | ]; try reflexivity; try contradiction.
    - apply (first_impl digit); [reflexivity|]. eapply literal_start, L.
    - apply (first_impl id_first); [reflexivity|]. apply qualified_start, Hy.
    - destruct o; try contradiction; reflexivity. }
  inversion T; subst; [apply X; assumption|apply first_app, X; assumption].
Qed.
Lemma expr_no_name : forall e ts s w c r, rderives 0 e ts -> text_of ts s -> all_chars is_ws w = true -> closer c = true -> no named_start (s ++ w ++ String c r).
Proof.
  intros e ts s w c r D T W C. pose proof (first_tokens _ _ _ D) as Ft. pose proof (second_token _ _ _ D) as Sd.
  assert (Q : forall qs y u, Forall (fun y => is_ident y = true) (qs ++ [y]) -> first_is id_char u = false -> no (Seq (Ref R_EQUAL_OP) (Ref R_CONST_EXPR)) u -> no named_start (qualified qs y ++ u)).
  { intros [|q qs] y u Hy Fu Nu; cbn [qualified app] in *; inversion Hy as [|? ? Hq _]; subst.
    - eapply no_seq_r; [apply ok_ident; [exact Hq|exact Fu]|exact Nu].
    - rewrite app_assoc_s. eapply no_seq_r; [apply ok_ident; [exact Hq|reflexivity]|]. rewrite app_assoc_s. apply (no_equal ""); [reflexivity|apply solid_firm; reflexivity|reflexivity]. }
  inversion T as [t0 x Tx E0|t0 x w0 ts0 s0 Tx W0 H0 E0]; subst.
  - destruct Tx as [l base z L|qs y Hy B1 B2|o| | | ]; try (apply no_ident_start; reflexivity); try contradiction.
    + apply no_ident_start. pose proof (literal_start _ _ _ L) as F. destruct l as [|d l]; [discriminate F|]. cbn [append first_is] in *. pose proof (all_ascii (fun c => implb (digit c) (negb (id_first c))) eq_refl d) as K. cbv beta in K. rewrite F in K. apply negb_true_iff in K. exact K.
    + apply Q; [exact Hy|apply blank_not_id; [exact W|apply closer_not_id, C]|]. apply no_equal; [exact W|apply solid_firm, closer_solid, C|apply closer_not_equal, C].
    + destruct o; try contradiction; apply no_ident_start; reflexivity.
  - rewrite !app_assoc_s. destruct Tx as [l base z L|qs y Hy B1 B2|o| | | ]; try (apply no_ident_start; reflexivity); try contradiction.
    + apply no_ident_start. pose proof (literal_start _ _ _ L) as F. destruct l as [|d l]; [discriminate F|]. cbn [append first_is] in *. pose proof (all_ascii (fun c => implb (digit c) (negb (id_first c))) eq_refl d) as K. cbv beta in K. rewrite F in K. apply negb_true_iff in K. exact K.
    + destruct ts0 as [|k ts0]; [inversion H0|]. destruct Sd as (o & t & r' & -> & -> & F).
      change (KOp o :: t :: r') with ([KOp o] ++ (t :: r'))%list in H0. destruct (text_split [KOp o] (t :: r') s0 ltac:(discriminate) ltac:(discriminate) H0) as (so & w2 & s3 & -> & To & T3 & W2).
      apply text_one in To. inversion To; subst so. rewrite !app_assoc_s. destruct (start_solid s3 (w ++ String c r) (text_begin _ _ _ F T3)) as [So St].
      apply Q; [exact Hy| |].
      * destruct o; apply blank_not_id; (exact W0 || reflexivity).
      * apply no_equal; [exact W0|apply op_firm; assumption|apply op_not_equal].
    + destruct o; try contradiction; apply no_ident_start; reflexivity.
Qed.
(** Texts. *)
Lemma ok_quoted : forall s w t, all_chars in_quotes s = true -> all_chars is_ws w = true -> solid t -> first_is (Ascii.eqb """") t = false -> first_is (Ascii.eqb "'") t = false ->
  exists a, ok (Ref R_STRING_LITERAL) (String """" (s ++ String """" (w ++ t))) [a] [] t.
Proof.
  intros s w t Q W S F F'. 
  assert (B : forall s, all_chars in_quotes s = true -> forall u, ok (Star (Alt (Ref R_ESCAPE_SEQUENCE) (Seq (Not (Cls [(""""%char, """"%char); ("\"%char, "\"%char)])) Any))) (s ++ String """" u) [] [] (String """" u)).
  { clear. induction s as [|c s IH]; intros Q u.
    - apply ok_star_end. apply no_alt; [no_by_text|]. apply no_seq_l. eapply no_not, ok_cls. reflexivity.
    - cbn [all_chars] in Q. apply andb_true_iff in Q as [Qc Q]. refine (ok_star_more _ _ [] [] _ [] [] _ _ (IH Q u)). unfold in_quotes in Qc. apply andb_true_iff in Qc as [Q1 Q2]. apply negb_true_iff in Q1, Q2.
      cbn [append]. apply ok_alt_r.
      + rewrite Ascii.eqb_sym in Q2. repeat first [apply no_alt|apply no_ref; cbn [gram]|apply no_seq_l|apply no_tok|apply no_lit; cbn [after]; rewrite Q2; reflexivity].
      + refine (ok_seq _ _ _ [] [] _ [] [] _ (ok_not _ _ _) (ok_any c _)). apply no_cls. intros d r' [= <- _]. pose proof (all_ascii (fun c => Ascii.eqb c """" || Ascii.eqb c "\" || negb (in_class c [(""""%char, """"%char); ("\"%char, "\"%char)])) eq_refl c) as K. cbv beta in K. rewrite Q1, Q2 in K. apply negb_true_iff in K. exact K. }
  assert (OS : ok (Ref R_SUBSTRING_LITERAL) (String """" (s ++ String """" (w ++ t))) [Ast R_SUBSTRING_LITERAL R_SUBSTRING_LITERAL ("""" ++ s ++ """") []] [] t).
  { eapply ok_ref_token; [|reflexivity|reflexivity]. cbn [gram]. refine (ok_seq _ _ _ [] [_] (w ++ t) [] [] _ _ _).
    - replace (String """" (s ++ String """" (w ++ t))) with (("""" ++ s ++ """") ++ w ++ t) by (rewrite !app_assoc_s; reflexivity). apply ok_tok. rewrite !app_assoc_s. apply ok_alt_l.
      refine (ok_seq _ _ _ [] [] (s ++ """" ++ w ++ t) [] [] _ (ok_lit """" _ _ (after_self """" _)) _). exact (ok_seq _ _ _ [] [] _ [] [] _ (B s Q (w ++ t)) (ok_lit """" _ _ (after_self """" _))).
    - eapply ok_ref_ignored; [|reflexivity]. cbn [gram]. apply ok_alt_r; [|apply opt_ws; assumption]. apply no_seq_l, no_lit. destruct w as [|c w]; cbn [append].
      + destruct t as [|c t]; [reflexivity|]. cbn [after first_is] in *. rewrite F. reflexivity.
      + cbn [all_chars] in W. apply andb_true_iff in W as [W _]. cbn [after]. pose proof (all_ascii (fun c => implb (is_ws c) (negb (Ascii.eqb """" c))) eq_refl c) as K. cbv beta in K. rewrite W in K. apply negb_true_iff in K. rewrite K. reflexivity. }
  eexists. eapply ok_ref_node; [|reflexivity|reflexivity]. cbn [gram]. refine (ok_plus _ _ [_] [] _ [] [] _ OS (ok_star_end _ _ _)).
  apply no_ref. cbn [gram]. apply no_seq_l, no_tok. destruct t as [|c t]; [apply no_alt; no_by_text|]. cbn [first_is] in F, F'. apply no_alt; apply no_seq_l, no_lit; cbn [after]; rewrite ?F, ?F'; reflexivity.
Qed.
Lemma ok_value : forall v w c r, value_text v -> all_chars is_ws w = true -> closer c = true ->
  (solid (v ++ w ++ String c r) /\ no named_start (v ++ w ++ String c r)) /\
  exists a w', all_chars is_ws w' = true /\ ok (Ref R_CONST_EXPR) (v ++ w ++ String c r) [a] [] (w' ++ String c r).
Proof.
  intros v w c r V W C. destruct V as [e ts s D T| | |s Q].
  - pose proof (derives_rderives _ _ _ D) as R. destruct (start_solid s (w ++ String c r) (text_start _ _ _ _ R T)) as [So _]. split; [split; [exact So|eapply expr_no_name; eassumption]|].
    destruct (ok_expr 0 _ _ R s w (String c r) T (closer_stops c w r C W)) as (a & w' & Hw & O & _). exists a, w'. split; [destruct Hw as [-> | ->]; [exact W|reflexivity]|exact O].
  - assert (N : no named_start ("TRUE" ++ w ++ String c r)).
    { eapply no_seq_r; [apply ok_ident; [reflexivity|apply blank_not_id; [exact W|apply closer_not_id, C]]|]. apply no_equal; [exact W|apply solid_firm, closer_solid, C|apply closer_not_equal, C]. }
    split; [split; [reflexivity|exact N]|]. eexists. exists w. split; [exact W|]. apply literal_any; [intros k L; apply closer_no_op; assumption|no_by_text|no_by_text|]. cbn [gram].
    do 5 (apply ok_alt_r; [no_by_text|]). apply ok_alt_l. eapply ok_ref_token; [|reflexivity|reflexivity]. cbn [gram]. apply ok_tok. apply ok_alt_l, ok_lit, after_self.
  - assert (N : no named_start ("FALSE" ++ w ++ String c r)).
    { eapply no_seq_r; [apply ok_ident; [reflexivity|apply blank_not_id; [exact W|apply closer_not_id, C]]|]. apply no_equal; [exact W|apply solid_firm, closer_solid, C|apply closer_not_equal, C]. }
    split; [split; [reflexivity|exact N]|]. eexists. exists w. split; [exact W|]. apply literal_any; [intros k L; apply closer_no_op; assumption|no_by_text|no_by_text|]. cbn [gram].
    do 5 (apply ok_alt_r; [no_by_text|]). apply ok_alt_l. eapply ok_ref_token; [|reflexivity|reflexivity]. cbn [gram]. apply ok_tok. apply ok_alt_r; [no_by_text|]. apply ok_lit, after_self.
  - split; [split; [reflexivity|apply no_ident_start; reflexivity]|].
    assert (X : first_is (Ascii.eqb """") (String c r) = false /\ first_is (Ascii.eqb "'") (String c r) = false).
    { cbn [first_is]. split; apply negb_true_iff; [exact (closer_impl (fun c => negb (Ascii.eqb """" c)) c eq_refl C)|exact (closer_impl (fun c => negb (Ascii.eqb "'" c)) c eq_refl C)]. }
    destruct (ok_quoted s w (String c r) Q W (closer_solid _ _ C) (proj1 X) (proj2 X)) as (a & O). rewrite !app_assoc_s. eexists. exists "". split; [reflexivity|].
    apply literal_any; [intros k L; apply (closer_no_op c k ""); [exact C|reflexivity|exact L]|no_by_text|no_by_text|]. cbn [gram].
    do 6 (apply ok_alt_r; [no_by_text|]). apply ok_alt_l. exact O.
Qed.

(** *** Parameters *)
Lemma ok_param : forall v w c r, param_text v -> all_chars is_ws w = true -> closer c = true -> solid (v ++ w ++ String c r) /\
  exists a w', all_chars is_ws w' = true /\ ok (Ref R_ANNOTATION_APPL_PARAM) (v ++ w ++ String c r) [a] [] (w' ++ String c r).
Proof.
  intros v w c r V W C. destruct V as [v V|x w0 w1 v I W0 W1 V].
  - destruct (ok_value v w c r V W C) as [[So N] (a & w' & W' & O)]. split; [exact So|]. eexists. exists w'. split; [exact W'|]. eapply ok_ref_node; [|reflexivity|reflexivity]. cbn [gram]. apply ok_alt_r; [exact N|exact O].
  - destruct (ok_value v w c r V W C) as [[So N] (a & w' & W' & O)]. rewrite !app_assoc_s. split; [apply ident_solid, I|]. eexists. exists w'. split; [exact W'|]. eapply ok_ref_node; [|reflexivity|reflexivity]. cbn [gram]. apply ok_alt_l.
    refine (ok_seq _ _ _ [_] [] _ [_; _] [] _ (ok_ident x _ I _) _); [apply (blank_not_id w0 "="); [exact W0|reflexivity]|].
    refine (ok_seq _ _ _ [_] [] _ [_] [] _ (ok_operator R_EQUAL_OP "=" w0 w1 _ _ W0 W1 _ _) O); [repeat split|apply solid_firm; reflexivity|apply solid_firm, So].
Qed.
Lemma ok_params : forall s, params_text s -> forall w r, all_chars is_ws w = true -> solid (s ++ w ++ ")" ++ r) /\
  exists a w' q, all_chars is_ws w' = true /\ ok (Seq (Ref R_ANNOTATION_APPL_PARAM) (Star (Seq (Ref R_COMMA) (Ref R_ANNOTATION_APPL_PARAM)))) (s ++ w ++ ")" ++ r) (a :: q) [] (w' ++ ")" ++ r).
Proof.
  assert (E : forall w r, all_chars is_ws w = true -> ok (Star (Seq (Ref R_COMMA) (Ref R_ANNOTATION_APPL_PARAM))) (w ++ ")" ++ r) [] [] (w ++ ")" ++ r)).
  { intros w r W. apply ok_star_end, no_seq_l. apply (no_punct R_COMMA "," w); [kw|exact W|reflexivity|reflexivity]. }
  intros s H. induction H as [v V|v w0 w1 s V W0 W1 H IH]; intros w r W.
  - destruct (ok_param v w ")" r V W eq_refl) as [So (a & w' & W' & O)]. split; [exact So|]. exists a, w', []. split; [exact W'|]. exact (ok_seq _ _ _ [a] [] _ [] [] _ O (E w' r W')).
  - destruct (IH w r W) as [So (a & w' & q & W' & O)]. destruct (ok_param v w0 "," (w1 ++ s ++ w ++ ")" ++ r) V W0 eq_refl) as [So' (a' & w0' & W0' & O')]. rewrite !app_assoc_s. split; [exact So'|].
    assert (Inv : exists n1 t1 m n2 t2, ok (Ref R_ANNOTATION_APPL_PARAM) (s ++ w ++ ")" ++ r) n1 t1 m /\ ok (Star (Seq (Ref R_COMMA) (Ref R_ANNOTATION_APPL_PARAM))) m n2 t2 (w' ++ ")" ++ r) /\ (n1 ++ n2 = a :: q)%list /\ (t1 ++ t2 = [])%list).
    { destruct O as (n & c & O). destruct n as [|n]; [discriminate O|]. rewrite peg_eq in O. destruct (peg n (Ref R_ANNOTATION_APPL_PARAM) _) as [[|c1 n1 t1 m]|] eqn:E1; try discriminate O.
      destruct (peg n (Star _) m) as [[|c2 n2 t2 m2]|] eqn:E2; try discriminate O. injection O as Oc On Ot Or. exists n1, t1, m, n2, t2. split; [exists n, c1; exact E1|]. assert (Or' : m2 = w' ++ ")" ++ r) by exact Or. split; [exists n, c2; rewrite <- Or'; exact E2|]. split; assumption. }
    destruct Inv as (n1 & t1 & m & n2 & t2 & O1 & O2 & En & Et). exists a', w', (a :: q). split; [exact W'|].
    apply app_eq_nil in Et as [-> ->]. refine (ok_seq _ _ _ [a'] [] _ (a :: q) [] _ O' _). rewrite <- En. refine (ok_star_more _ _ n1 [] m n2 [] _ _ O2).
    refine (ok_seq _ _ _ [] [] _ n1 [] _ (ok_punct R_COMMA "," w0' w1 _ _ eq_refl W0' W1 So) O1). kw.
Qed.

(** *** Annotations *)
(** What the parser makes of an annotation: build_on_ast and member_def pass over it. *)
Definition note_node (a : ast) : Prop := exists t k l, optimize a = Ast R_ANNOTATION_APPL t k l /\ (t = R_ANNOTATION_APPL \/ (t = R_SCOPED_NAME /\ l = [])).
Lemma blank_not_colon : forall w s, all_chars is_ws w = true -> w <> "" -> after "::" (w ++ s) = None.
Proof.
  intros [|c w] s W N; [congruence|]. cbn [all_chars] in W. apply andb_true_iff in W as [W _]. cbn [append after].
  pose proof (all_ascii (fun c => implb (is_ws c) (negb (Ascii.eqb ":" c))) eq_refl c) as K. cbv beta in K. rewrite W in K. apply negb_true_iff in K. rewrite K. reflexivity.
Qed.
Lemma notes_solid : forall a s, notes a -> solid s -> solid (a ++ s).
Proof. intros a s [|abs qs x w I W N|abs qs x w0 w1 s' w2 w r I W0 W1 P W2 W H] S; [exact S|reflexivity|reflexivity]. Qed.
Lemma blank_head : forall (P : ascii -> bool) w s, forallb (fun c => implb (is_ws c) (negb (P c))) (map ascii_of_nat (seq 0 256)) = true -> all_chars is_ws w = true -> w <> "" -> first_is P (w ++ s) = false.
Proof. intros P [|c w] s H W N; [congruence|]. cbn [append first_is all_chars] in *. apply andb_true_iff in W as [W _]. pose proof (all_ascii _ H c) as K. cbv beta in K. rewrite W in K. apply negb_true_iff in K. exact K. Qed.
Lemma ok_note_bare : forall abs qs x w s, ident_path qs x -> all_chars is_ws w = true -> w <> "" -> solid s -> first_is (Ascii.eqb "(") s = false ->
  exists a, ok (Ref R_ANNOTATION_APPL) ("@" ++ render abs qs x ++ w ++ s) [a] [] (w ++ s) /\ note_node a.
Proof.
  intros abs qs x w s I W N S F. exists (Ast R_ANNOTATION_APPL R_ANNOTATION_APPL "" [name_node (render abs qs x)]). split; [|do 3 eexists; split; [reflexivity|]; right; split; reflexivity].
  eapply ok_ref_node; [|reflexivity|reflexivity]. cbn [gram]. refine (ok_seq _ _ _ [] [] (render abs qs x ++ w ++ s) [_] [] _ (ok_lit "@" _ _ (after_self "@" _)) _).
  refine (ok_seq _ _ _ [_] [] _ [] [] _ (ok_absolute abs qs x (w ++ s) I (blank_head id_char w s eq_refl W N) (blank_not_colon w s W N)) (ok_opt_none _ _ _)).
  apply no_seq_l. apply (no_punct R_OPEN_PARENTHESES "(" w s); [kw|exact W|exact S|exact F].
Qed.
Lemma ok_note_with : forall abs qs x w0 w1 p w2 w s, ident_path qs x -> all_chars is_ws w0 = true -> all_chars is_ws w1 = true -> params_text p -> all_chars is_ws w2 = true -> all_chars is_ws w = true -> solid s ->
  exists a, ok (Ref R_ANNOTATION_APPL) ("@" ++ render abs qs x ++ w0 ++ "(" ++ w1 ++ p ++ w2 ++ ")" ++ w ++ s) [a] [] s /\ note_node a.
Proof.
  intros abs qs x w0 w1 p w2 w s I W0 W1 P W2 W S. destruct (ok_params p P w2 (w ++ s) W2) as [So (q & w2' & ql & W2' & Oq)].
  exists (Ast R_ANNOTATION_APPL R_ANNOTATION_APPL "" [name_node (render abs qs x); Ast R_ANNOTATION_APPL_PARAMS R_ANNOTATION_APPL_PARAMS "" (q :: ql)]). split; [|do 3 eexists; split; [reflexivity|]; left; reflexivity].
  eapply ok_ref_node; [|reflexivity|reflexivity]. cbn [gram].
  refine (ok_seq _ _ _ [] [] (render abs qs x ++ w0 ++ "(" ++ w1 ++ p ++ w2 ++ ")" ++ w ++ s) [_; _] [] _ (ok_lit "@" _ _ (after_self "@" _)) _).
  refine (ok_seq _ _ _ [_] [] _ [_] [] _ (ok_absolute abs qs x _ I _ _) (ok_opt_some _ _ _ _ _ _)).
  - apply (blank_not_id w0 "("); [exact W0|reflexivity].
  - destruct w0 as [|c w0]; [reflexivity|]. apply blank_not_colon; [exact W0|discriminate].
  - refine (ok_seq _ _ _ [] [] _ [_] [] _ (ok_punct R_OPEN_PARENTHESES "(" w0 w1 _ _ eq_refl W0 W1 So) _); [kw|].
    refine (ok_seq _ _ _ [_] [] _ [] [] _ _ (ok_punct R_CLOSE_PARENTHESES ")" w2' w _ _ eq_refl W2' W S)); [|kw].
    eapply ok_ref_node; [|reflexivity|reflexivity]. cbn [gram]. apply ok_alt_l. exact Oq.
Qed.
Lemma ok_notes : forall a, notes a -> forall s, solid s -> first_is (Ascii.eqb "@") s = false -> first_is (Ascii.eqb "(") s = false ->
  exists l w, all_chars is_ws w = true /\ ok (Star (Ref R_ANNOTATION_APPL)) (a ++ s) l [] (w ++ s) /\ Forall note_node l.
Proof.
  intros a H. induction H as [|abs qs x w I W N|abs qs x w0 w1 p w2 w r I W0 W1 P W2 W H IH]; intros s S F1 F2.
  - exists [], "". split; [reflexivity|]. split; [apply ok_star_end, no_annotation, F1|constructor].
  - destruct (ok_note_bare abs qs x w s I W N S F2) as (a & O & Na). exists [a], w. split; [exact W|]. split; [|repeat constructor; exact Na].
    rewrite !app_assoc_s. exact (ok_star_more _ _ [_] [] (w ++ s) [] [] _ O (ok_star_end _ _ (no_annotation _ (blank_head (Ascii.eqb "@") w s eq_refl W N)))).
  - destruct (IH s S F1 F2) as (l & w' & W' & O & Fl). destruct (ok_note_with abs qs x w0 w1 p w2 w (r ++ s) I W0 W1 P W2 W (notes_solid r s H S)) as (a & Oa & Na).
    exists (a :: l), w'. split; [exact W'|]. split; [rewrite !app_assoc_s; exact (ok_star_more _ _ [_] [] _ l [] _ Oa O)|constructor; assumption].
Qed.
(** Where blanks may stand between the annotations ([(ANNOTATION_APPL WS?)*], the flags of a bitmask). *)
Lemma ok_notes_ws : forall a, notes a -> forall s, solid s -> first_is (Ascii.eqb "@") s = false -> first_is (Ascii.eqb "(") s = false ->
  exists l, ok (Star (Seq (Ref R_ANNOTATION_APPL) (Opt (Ref R_WS)))) (a ++ s) l [] s.
Proof.
  intros a H. induction H as [|abs qs x w I W N|abs qs x w0 w1 p w2 w r I W0 W1 P W2 W H IH]; intros s S F1 F2.
  - exists []. apply ok_star_end, no_seq_l, no_ref. cbn [gram]. apply no_seq_l, no_lit. destruct s as [|c s]; [reflexivity|]. cbn [first_is append after] in *. rewrite F1. reflexivity.
  - destruct (ok_note_bare abs qs x w s I W N S F2) as (a & O & _). exists [a]. rewrite !app_assoc_s.
    refine (ok_star_more _ _ [_] [] s [] [] _ (ok_seq _ _ _ [a] [] _ [] [] _ O (opt_ws w s W S)) (ok_star_end _ _ _)). apply no_seq_l, no_ref. cbn [gram]. apply no_seq_l, no_lit. destruct s as [|c s]; [reflexivity|]. cbn [first_is append after] in *. rewrite F1. reflexivity.
  - destruct (IH s S F1 F2) as (l & O). pose proof (notes_solid r s H S) as Sr. destruct (ok_note_with abs qs x w0 w1 p w2 w (r ++ s) I W0 W1 P W2 W Sr) as (a & Oa & _).
    exists (a :: l). rewrite !app_assoc_s. exact (ok_star_more _ _ [_] [] _ l [] _ (ok_seq _ _ _ [a] [] _ [] [] _ Oa (opt_ws0 _ Sr)) O).
Qed.
