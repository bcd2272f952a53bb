(** Declarations of constants of any spelling of their types, texts and booleans are read. *)
From Verif Require Import Base Types TypeBuild TypeSpec Mem MemSpec MemFacts ValueSpec OpsSpec DataSpec DataFacts Hash MapOps Ops IntOps ModuleSpec ModuleFacts Module IntSpec IntFacts Peg0 Grammar Peg PegFacts PegRules IdlParse IdlParseFacts GenIdl GenSpec TypeText StructText StructRead NumText IdlLitFacts IdlLit IdlExpr IdlSpec IdlFacts GrowFacts DocFacts ExprSpec ExprText LitText EnumText EnumFacts ConstText NoteSpec NoteText FreeSpec FreeText TokenFacts TextSpec.
From Verif Require PropData TyInd DocText ConstructFacts ConstructFacts.
From Verif Require Import GapSpec GapText.
Local Open Scope string_scope.

(** *** The grammar *)
Lemma ok_const_spelled : forall x p w s, In (x, p) base_names -> x <> "octet" -> ends w s -> exists a, ok (Ref R_CONST_TYPE) (x ++ w ++ s) [a] [] s /\ optimize a = const_type_node p.
Proof.
  intros x p w s H NO E. pose proof (e_follows _ _ E) as F. pose proof (not_first _ (f_id _ _ F)) as NI.
  assert (K : forall q k, keyword q k -> ok (Ref q) (k ++ w ++ s) [] [] s).
  { intros q k Hk. exact (ok_keyword q k "" w s Hk eq_refl (f_ws _ _ F) (f_solid _ _ F) NI). }
  unfold base_names in H. cbn [In] in H.
  repeat (destruct H as [H|H]; [injection H as <- <-|]); [..|destruct H].
  1: eexists; split; [drill' E; apply (K R_KW_BOOLEAN "boolean"); kw|reflexivity].
  1: congruence.
  1: eexists; split; [drill' E; apply (K R_KW_INT8 "int8"); kw|reflexivity].
  1: eexists; split; [drill' E; apply (K R_KW_UINT8 "uint8"); kw|reflexivity].
  1: eexists; split; [drill' E; apply (K R_KW_SHORT "short"); kw|reflexivity].
  1: eexists; split; [drill' E; apply (K R_KW_INT16 "int16"); kw|reflexivity].
  1: eexists; split; [drill' E; eapply (ok_words R_KW_UNSIGNED_SHORT _ "unsigned short"); [kw|two_words; apply ok_lit; reflexivity|reflexivity|exact F]|reflexivity].
  1: eexists; split; [drill' E; apply (K R_KW_UINT16 "uint16"); kw|reflexivity].
  1: eexists; split; [drill' E; apply (K R_KW_LONG "long"); kw|reflexivity].
  1: eexists; split; [drill' E; apply (K R_KW_INT32 "int32"); kw|reflexivity].
  1: eexists; split; [drill' E; eapply (ok_words R_KW_UNSIGNED_LONG _ "unsigned long"); [kw|two_words; apply ok_lit; reflexivity|reflexivity|exact F]|reflexivity].
  1: eexists; split; [drill' E; apply (K R_KW_UINT32 "uint32"); kw|reflexivity].
  1: eexists; split; [drill' E; eapply (ok_words R_KW_LONG_LONG _ "long long"); [kw|two_words; apply ok_lit; reflexivity|reflexivity|exact F]|reflexivity].
  1: eexists; split; [drill' E; apply (K R_KW_INT64 "int64"); kw|reflexivity].
  1: eexists; split; [drill' E; eapply (ok_words R_KW_UNSIGNED_LONG_LONG _ "unsigned long long"); [kw|two_words; two_words; apply ok_lit; reflexivity|reflexivity|exact F]|reflexivity].
  1: eexists; split; [drill' E; apply (K R_KW_UINT64 "uint64"); kw|reflexivity].
  1: eexists; split; [drill' E; apply (K R_KW_FLOAT "float"); kw|reflexivity].
  1: eexists; split; [drill' E; apply (K R_KW_DOUBLE "double"); kw|reflexivity].
  1: eexists; split; [drill' E; apply (ok_long_double w s (f_ws _ _ F) (f_solid _ _ F) NI)|reflexivity].
  1: eexists; split; [drill' E; apply (K R_KW_CHAR "char"); kw|reflexivity].
  1: eexists; split; [drill' E; apply (K R_KW_WCHAR "wchar"); kw|reflexivity].
Qed.
Lemma name_follows : forall x r, is_ident x = true -> follows " " (x ++ r).
Proof.
  intros x r I. constructor; try reflexivity; [apply ident_solid, I|]. destruct x as [|c x]; [discriminate I|]. apply andb_true_iff in I as [I _]. cbn [append first_is] in *.
  pose proof (all_ascii (fun c => implb (id_first c) (negb (Ascii.eqb "<" c))) eq_refl c) as K. cbv beta in K. rewrite I in K. apply negb_true_iff in K. exact K.
Qed.
Lemma name_ends : forall x r, plain x = true -> first_is id_char r = false -> ends " " (x ++ r).
Proof. intros x r P F. constructor; [apply name_follows, plain_ident, P|right; eauto]. Qed.
Lemma ok_const_text : forall q x s r, int_kind q = true -> const_type_text q x s -> is_ident x = true -> first_is id_char r = false ->
  exists a, ok (Ref R_CONST_TYPE) (s ++ " " ++ x ++ r) [a] [] (x ++ r) /\ optimize a = const_type_node q.
Proof.
  intros q x s r K [->|(H & N & P)] I F; [apply ok_const_type; [exact K|apply ident_solid, I]|]. apply ok_const_spelled; [exact H|exact N|apply name_ends; assumption].
Qed.
Definition text_type_node : ast := Ast R_CONST_TYPE R_STRING_TYPE "" [].
Lemma ok_const_string : forall x r, is_ident x = true -> exists a, ok (Ref R_CONST_TYPE) ("string" ++ " " ++ x ++ r) [a] [] (x ++ r) /\ optimize a = text_type_node.
Proof.
  intros x r I. eexists. split; [drill; exact (ok_string R_KW_STRING R_STRING_SIZE "string" " " (x ++ r) ltac:(kw) eq_refl (name_follows x r I))|reflexivity].
Qed.
Lemma ok_const_boolean : forall x r, is_ident x = true -> exists a, ok (Ref R_CONST_TYPE) ("boolean" ++ " " ++ x ++ r) [a] [] (x ++ r) /\ optimize a = const_type_node PBool.
Proof.
  intros x r I. pose proof (name_follows x r I) as F. eexists. split; [drill; exact (ok_keyword R_KW_BOOLEAN "boolean" "" " " (x ++ r) ltac:(kw) eq_refl eq_refl (f_solid _ _ F) (not_first _ (f_id _ _ F)))|reflexivity].
Qed.

(** A text in quotes. *)
Definition piece (s : string) : ast := Ast R_SUBSTRING_LITERAL R_SUBSTRING_LITERAL ("""" ++ s ++ """") [].
Lemma ok_piece : forall s w t, all_chars in_quotes s = true -> all_chars is_ws w = true -> solid t -> w <> "" \/ first_is (Ascii.eqb """") t = false ->
  ok (Ref R_SUBSTRING_LITERAL) (String """" (s ++ String """" (w ++ t))) [piece s] [] t.
Proof.
  intros s w t Q W S F.
  assert (B : forall s, all_chars in_quotes s = true -> forall u, ok (Star (Alt (Ref R_ESCAPE_SEQUENCE) (Seq (Not (Cls [(""""%char, """"%char); ("\"%char, "\"%char)])) Any))) (s ++ String """" u) [] [] (String """" u)).
  { clear. induction s as [|c s IH]; intros Q u.
    - apply ok_star_end. apply no_alt; [no_by_text|]. apply no_seq_l. eapply no_not, ok_cls. reflexivity.
    - cbn [all_chars] in Q. apply andb_true_iff in Q as [Qc Q]. refine (ok_star_more _ _ [] [] _ [] [] _ _ (IH Q u)). unfold in_quotes in Qc. apply andb_true_iff in Qc as [Q1 Q2]. apply negb_true_iff in Q1, Q2.
      cbn [append]. apply ok_alt_r.
      + rewrite Ascii.eqb_sym in Q2. repeat first [apply no_alt|apply no_ref; cbn [gram]|apply no_seq_l|apply no_tok|apply no_lit; cbn [after]; rewrite Q2; reflexivity].
      + refine (ok_seq _ _ _ [] [] _ [] [] _ (ok_not _ _ _) (ok_any c _)). apply no_cls. intros d r' [= <- _]. pose proof (all_ascii (fun c => Ascii.eqb c """" || Ascii.eqb c "\" || negb (in_class c [(""""%char, """"%char); ("\"%char, "\"%char)])) eq_refl c) as K. cbv beta in K. rewrite Q1, Q2 in K. apply negb_true_iff in K. exact K. }
  eapply ok_ref_token; [|reflexivity|reflexivity]. cbn [gram]. refine (ok_seq _ _ _ [] [_] (w ++ t) [] [] _ _ _).
  - replace (String """" (s ++ String """" (w ++ t))) with (("""" ++ s ++ """") ++ w ++ t) by (rewrite !app_assoc_s; reflexivity). apply ok_tok. rewrite !app_assoc_s. apply ok_alt_l.
    refine (ok_seq _ _ _ [] [] (s ++ """" ++ w ++ t) [] [] _ (ok_lit """" _ _ (after_self """" _)) _). exact (ok_seq _ _ _ [] [] _ [] [] _ (B s Q (w ++ t)) (ok_lit """" _ _ (after_self """" _))).
  - eapply ok_ref_ignored; [|reflexivity]. cbn [gram]. apply ok_alt_r; [|apply opt_ws; assumption]. apply no_seq_l, no_lit. destruct w as [|c w]; cbn [append].
    + destruct F as [F|F]; [congruence|]. destruct t as [|c t]; [reflexivity|]. cbn [after first_is] in *. rewrite F. reflexivity.
    + cbn [all_chars] in W. apply andb_true_iff in W as [W _]. cbn [after]. pose proof (all_ascii (fun c => implb (is_ws c) (negb (Ascii.eqb """" c))) eq_refl c) as K. cbv beta in K. rewrite W in K. apply negb_true_iff in K. rewrite K. reflexivity.
Qed.
Lemma strings_start : forall s v, strings_text s v -> exists r, s = String """" r.
Proof. intros s v [x _|x w r u _ _ _ _]; eexists; reflexivity. Qed.
(** The pieces of the text. *)
Fixpoint joined (l : list string) : string := match l with [] => "" | s :: r => s ++ joined r end.
Lemma ok_pieces : forall s v, strings_text s v -> exists x l, Forall (fun s => all_chars in_quotes s = true) (x :: l) /\ joined (x :: l) = v /\
  forall w c r, all_chars is_ws w = true -> closer c = true -> exists t, ok (Ref R_SUBSTRING_LITERAL) (s ++ w ++ String c r) [piece x] [] t /\ ok (Star (Ref R_SUBSTRING_LITERAL)) t (map piece l) [] (String c r).
Proof.
  intros s v H. induction H as [s Q|s w0 r0 v Q W0 NE H IH].
  - exists s, []. split; [repeat constructor; exact Q|]. split; [apply app_nil_s|]. intros w c r W C. rewrite !app_assoc_s. assert (X : first_is (Ascii.eqb """") (String c r) = false /\ first_is (Ascii.eqb "'") (String c r) = false).
    { cbn [first_is]. split; apply negb_true_iff; [exact (closer_impl (fun c => negb (Ascii.eqb """" c)) c eq_refl C)|exact (closer_impl (fun c => negb (Ascii.eqb "'" c)) c eq_refl C)]. }
    destruct X as [F F'].
    exists (String c r). split; [exact (ok_piece s w (String c r) Q W (closer_solid _ _ C) (or_intror F))|]. apply ok_star_end.
    apply no_ref. cbn [gram]. apply no_seq_l, no_tok. cbn [first_is] in F, F'. apply no_alt; apply no_seq_l, no_lit; cbn [after]; rewrite ?F, ?F'; reflexivity.
  - destruct IH as (x & l & Fl & J & IH). exists s, (x :: l). split; [constructor; assumption|]. split; [cbn [joined]; rewrite <- J; reflexivity|]. intros w c r W C. destruct (IH w c r W C) as (t & O & O'). rewrite !app_assoc_s.
    assert (So : solid (r0 ++ w ++ String c r)) by (destruct (strings_start _ _ H) as (r1 & ->); reflexivity).
    exists (r0 ++ w ++ String c r). split; [exact (ok_piece s w0 (r0 ++ w ++ String c r) Q W0 So (or_introl NE))|]. exact (ok_star_more _ _ [_] [] _ _ [] _ O O').
Qed.

(** The tree of a text, optimised. *)
Definition strings_node (x : string) (l : list string) : ast := match l with [] => Ast R_CONST_EXPR R_SUBSTRING_LITERAL ("""" ++ x ++ """") [] | _ => Ast R_CONST_EXPR R_STRING_LITERAL "" (piece x :: map piece l) end.
Lemma optimize_pieces : forall l, map optimize (map piece l) = map piece l.
Proof. induction l as [|x l IH]; [reflexivity|]. cbn [map]. rewrite IH. reflexivity. Qed.
Lemma ok_strings : forall s v, strings_text s v -> exists x l, Forall (fun s => all_chars in_quotes s = true) (x :: l) /\ joined (x :: l) = v /\
  forall w c r, all_chars is_ws w = true -> closer c = true -> exists b, ok (Ref R_CONST_EXPR) (s ++ w ++ String c r) [b] [] (String c r) /\ optimize b = strings_node x l.
Proof.
  intros s v H. destruct (ok_pieces s v H) as (x & l & F & J & P). exists x, l. split; [exact F|]. split; [exact J|]. intros w c r W C. destruct (P w c r W C) as (t & O & O').
  assert (Q : ok (Ref R_STRING_LITERAL) (s ++ w ++ String c r) [Ast R_STRING_LITERAL R_STRING_LITERAL "" (piece x :: map piece l)] [] (String c r)).
  { eapply ok_ref_node; [|reflexivity|reflexivity]. cbn [gram]. exact (ok_plus _ _ [_] [] _ _ [] _ O O'). }
  destruct (strings_start _ _ H) as (s1 & E). rewrite E in Q |- *. cbn [append] in *. eexists. split.
  - apply literal_any; [intros k L; apply (closer_no_op c k "" r); [exact C|reflexivity|exact L]|no_by_text|no_by_text|]. cbn [gram]. do 6 (apply ok_alt_r; [no_by_text|]). apply ok_alt_l. exact Q.
  - unfold literal_tree. destruct l as [|y l]; [reflexivity|]. cbn [optimize map]. rewrite optimize_pieces. reflexivity.
Qed.
Lemma ok_boolean : forall t w c r, all_chars is_ws w = true -> closer c = true ->
  exists b, ok (Ref R_CONST_EXPR) (boolean_text t ++ w ++ String c r) [b] [] (w ++ String c r) /\ optimize b = Ast R_CONST_EXPR R_BOOLEAN_LITERAL (boolean_text t) [].
Proof.
  intros t w c r W C. destruct t; cbn [boolean_text]; (eexists; split; [apply literal_any; [intros k L; apply closer_no_op; assumption|no_by_text|no_by_text|]; cbn [gram]; do 5 (apply ok_alt_r; [no_by_text|]); apply ok_alt_l; eapply ok_ref_token; [|reflexivity|reflexivity]; cbn [gram]; apply ok_tok|]).
  - apply ok_alt_l, ok_lit, after_self.
  - reflexivity.
  - apply ok_alt_r; [no_by_text|]. apply ok_lit, after_self.
  - reflexivity.
Qed.

(** *** Any constant *)
Section Values.
  Variable fc : prim -> prim -> list N -> list N.
  Variable flt : arith -> prim -> list N -> list N -> list N.
  Variable flit : prim -> string -> res (list N).
  Lemma any_const : forall c q root root' ts x w1 w2 s w3 a b t r v d y, is_ident x = true -> all_chars is_ws w1 = true -> all_chars is_ws w2 = true -> all_chars is_ws w3 = true ->
    (forall u, solid (s ++ u)) -> (forall u, solid (ts ++ " " ++ u)) ->
    (forall u, first_is id_char u = false -> exists a' w', all_chars is_ws w' = true /\ ok (Ref R_CONST_TYPE) (ts ++ " " ++ x ++ u) [a'] [] (w' ++ x ++ u) /\ optimize a' = a) ->
    (forall u, exists b' w', all_chars is_ws w' = true /\ ok (Ref R_CONST_EXPR) (s ++ w3 ++ ";" ++ u) [b'] [] (w' ++ ";" ++ u) /\ optimize b' = b) ->
    eventually (fun n => type_spec n c root q a = Ok t) -> new_data t = Ok r -> eventually (fun n => solve_expr fc flt flit n root q t b = Ok v) ->
    assign_data fc r v = Ok d -> d_type d <> TPrim PWC -> call_create_constant fc x d false false root q = Ok (y, root') ->
    sentence fc flt flit c q ("const " ++ ts ++ " " ++ x ++ w1 ++ "=" ++ w2 ++ s ++ w3) root root'.
  Proof.
    intros c q root root' ts x w1 w2 s w3 a b t r v d y I W1 W2 W3 Ss St Oa Ob Et Er Ev Ed Nw CC. constructor; [intros u; reflexivity|]. intros w u W So.
    destruct (Oa (w1 ++ "=" ++ w2 ++ s ++ w3 ++ ";" ++ w ++ u)) as (a' & w4 & W4 & Oa' & Ea).
    { destruct w1 as [|c1 w1]; [reflexivity|]. cbn [append first_is]. cbn [all_chars] in W1. apply andb_true_iff in W1 as [W1 _].
      pose proof (all_ascii (fun c => implb (is_ws c) (negb (id_char c))) eq_refl c1) as K. cbv beta in K. rewrite W1 in K. apply negb_true_iff in K. exact K. }
    destruct (Ob (w ++ u)) as (b' & w' & W' & Ob' & Eb). exists (Ast R_DEFINITION R_DEFINITION "" [Ast R_CONST_DCL R_CONST_DCL "" [a'; ident_node x; b']]). split.
    - rewrite !app_assoc_s. eapply ok_ref_node; [|reflexivity|reflexivity]. cbn [gram]. apply ok_alt_l.
      refine (ok_seq _ _ _ [_] [] _ [] [] _ _ (ok_punct_gap R_SEMICOLON ";" w' w u ltac:(kw) eq_refl W' W So)).
      apply ok_alt_r; [no_by_text|]. apply ok_alt_l. eapply ok_ref_node; [|reflexivity|reflexivity]. cbn [gram].
      refine (ok_seq _ _ _ [] [] _ _ [] _ (ok_keyword R_KW_CONST "const" "" " " _ _ eq_refl eq_refl _ _) _); [kw|apply St|reflexivity|].
      refine (ok_seq _ _ _ [a'] [] _ _ [] _ Oa' _). refine (ok_seq _ _ _ [] [] _ _ [] _ (opt_ws w4 _ W4 (ident_solid _ _ I)) _).
      refine (ok_seq _ _ _ [_] [] _ _ [] _ (ok_ident x _ I _) _).
      { destruct w1 as [|c1 w1]; [reflexivity|]. cbn [append first_is]. cbn [all_chars] in W1. apply andb_true_iff in W1 as [W1 _].
        pose proof (all_ascii (fun c => implb (is_ws c) (negb (id_char c))) eq_refl c1) as K. cbv beta in K. rewrite W1 in K. apply negb_true_iff in K. exact K. }
      refine (ok_seq _ _ _ [] [] _ [b'] [] _ (ok_ign _ _ _ _ _ (ok_ref_token R_EQUAL_OP _ _ _ _ _ (ok_punct_exp R_EQUAL_OP "=" w1 w2 _ _ W1 W2 _) eq_refl eq_refl)) Ob'); [kw|apply Ss].
    - change (optimize _) with (Ast R_DEFINITION R_CONST_DCL "" [optimize a'; ident_node x; optimize b']). rewrite Ea, Eb.
      eapply ev_impl; [|exact (ev_and _ _ Et Ev)]. intros n [T V]. cbn [IdlParse.build]. change (IdlParse.const_dcl fc flt flit n c q (Ast R_DEFINITION R_CONST_DCL "" [a; ident_node x; b]) root = Ok root').
      unfold IdlParse.const_dcl. cbn [a_sub]. rewrite T. cbn [bind]. rewrite Er. cbn [bind]. rewrite V. cbn [bind]. rewrite Ed. cbn [bind].
      replace (assert_ _) with (Ok tt) by (destruct (d_type d) as [[]| | | | | | | | |]; congruence || reflexivity). cbn [bind ident_node a_tok]. rewrite CC. reflexivity.
  Qed.
  (** The type of a constant. *)
  Lemma scoped_const : forall abs qs y x, ident_path qs y -> abs = true \/ plain (hd y qs) = true ->
    forall r, ok (Ref R_CONST_TYPE) (render abs qs y ++ " " ++ x ++ r) [Ast R_CONST_TYPE R_CONST_TYPE "" [name_node (render abs qs y)]] [] (" " ++ x ++ r).
  Proof.
    intros abs qs y x I P r. pose proof (ok_absolute abs qs y (" " ++ x ++ r) I eq_refl eq_refl) as O. eapply ok_ref_node; [|reflexivity|reflexivity]. cbn [gram].
    assert (N : forall e, e = Ref R_FLOAT_TYPE \/ e = Ref R_DOUBLE_TYPE \/ e = Ref R_LONG_DOUBLE_TYPE \/ e = Ref R_FIXED_PT_CONST_TYPE \/ e = Ref R_INTEGER_TYPE \/ e = Ref R_CHAR_TYPE \/ e = Ref R_WIDE_CHAR_TYPE \/ e = Ref R_BOOLEAN_TYPE \/ e = Ref R_STRING_TYPE \/ e = Ref R_WIDE_STRING_TYPE -> no e (render abs qs y ++ " " ++ x ++ r)).
    { destruct abs; cbn [render].
      - intros e H. repeat destruct H as [->|H]; try no_by_text. subst e. no_by_text.
      - destruct P as [P|P]; [discriminate P|]. destruct (qualified_first qs y (" " ++ x ++ r)) as (u & E & Hr). specialize (Hr eq_refl). rewrite E. intros e H. repeat destruct H as [->|H]; try (no_words P Hr). subst e. no_words P Hr. }
    do 10 (apply ok_alt_r; [apply N; tauto|]). exact O.
  Qed.
  Lemma type_reads : forall c q root x ts T, const_type_says (names_type root q) x ts T -> is_ident x = true -> exists a t, rget t = T /\ (forall u, solid (ts ++ " " ++ u)) /\
    (forall u, first_is id_char u = false -> exists a' w', all_chars is_ws w' = true /\ ok (Ref R_CONST_TYPE) (ts ++ " " ++ x ++ u) [a'] [] (w' ++ x ++ u) /\ optimize a' = a) /\
    eventually (fun n => type_spec n c root q a = Ok t).
  Proof.
    intros c q root x ts T H I. destruct H as [p s Hk CT| | |s t T (abs & qs & y & -> & Iy & P) Nm R].
    - exists (const_type_node p), (TPrim p). split; [reflexivity|]. split; [|split].
      + intros k. destruct CT as [->|(In_ & _)]; [destruct p; reflexivity|]. clear - In_. unfold base_names in In_. cbn [In] in In_. repeat (destruct In_ as [H|In_]; [injection H as <- <-; reflexivity|]). destruct In_.
      + intros u F. destruct (ok_const_text p x s u Hk CT I F) as (a & O & E). exists a, "". auto.
      + exists 0%nat. intros m _. apply prim_type, Hk.
    - exists text_type_node, (TStr SK8 0). split; [reflexivity|]. split; [reflexivity|]. split.
      + intros u F. destruct (ok_const_string x u I) as (a & O & E). exists a, "". auto.
      + exists 0%nat. intros n _. reflexivity.
    - exists (const_type_node PBool), (TPrim PBool). split; [reflexivity|]. split; [reflexivity|]. split.
      + intros u F. destruct (ok_const_boolean x u I) as (a & O & E). exists a, "". auto.
      + exists 0%nat. intros n _. reflexivity.
    - exists (Ast R_CONST_TYPE R_SCOPED_NAME (render abs qs y) []), t. split; [exact R|]. split; [|split].
      + intros u. destruct abs; cbn [render]; [reflexivity|]. destruct P as [P|P]; [discriminate P|]. destruct (qualified_first qs y (" " ++ u)) as (u' & E & _). rewrite E. apply ident_solid, plain_ident, P.
      + intros u F. eexists. exists " ". split; [reflexivity|]. split; [apply (scoped_const abs qs y x Iy P)|reflexivity].
      + assert (Ev : eventually (fun n => type_named n root q (render abs qs y) = Ok (Some t))) by (apply ev_steady; [apply steady_type_named|exact Nm|discriminate]).
        eapply ev_impl; [|exact Ev]. intros n E. cbn [type_spec]. rewrite E. reflexivity.
  Qed.
  Lemma new_data_rget : forall t, new_data t = new_data (rget t).
  Proof. intros t. unfold new_data. rewrite TyInd.rget_idem, TyInd.msize_rget. reflexivity. Qed.
  Lemma solve_rget : forall n root q t a, solve_expr fc flt flit n root q t a = solve_expr fc flt flit n root q (rget t) a.
  Proof.
    intros n root q t. assert (A : forall v, assign_new fc t v = assign_new fc (rget t) v) by (intros v; unfold assign_new; rewrite (new_data_rget t); reflexivity).
    assert (L : forall a, literal_value fc flit t a = literal_value fc flit (rget t) a) by (intros a; unfold literal_value; rewrite TyInd.rget_idem; reflexivity).
    intros a. induction a as [o g k l IH] using ast_rect'. cbn [IdlParse.solve_expr].
    assert (F : forall x, In x l -> solve_expr fc flt flit n root q t x = solve_expr fc flt flit n root q (rget t) x) by (rewrite Forall_forall in IH; exact IH).
    destruct g; rewrite ?L; try reflexivity; try apply new_data_rget;
      try (destruct l as [|x [|y l]]; try reflexivity; rewrite ?(F y) by (cbn; tauto); destruct (solve_expr fc flt flit n root q (rget t) y); [|reflexivity]; cbn [bind]; rewrite A; reflexivity);
      try (destruct l as [|x [|y [|z l]]]; try reflexivity; rewrite ?(F x), ?(F z) by (cbn; tauto); destruct (solve_expr fc flt flit n root q (rget t) x); [|reflexivity]; destruct (solve_expr fc flt flit n root q (rget t) z); [|reflexivity]; cbn [bind]; destruct (arith_of _); [|apply new_data_rget]; destruct (binary _ _ _ _ _); [|reflexivity]; cbn [bind]; apply A).
    destruct (find_in n root q consts k) as [[d|]|]; [| |reflexivity]; cbn [bind]; [apply A|]. destruct (new_data (TPrim PBool)); [|reflexivity]. cbn [bind]. apply A.
  Qed.
  (** Texts. *)
  Lemma holds_text : forall d v, d_type d = TStr SK8 0 -> holds d (VStr v) -> at_ (d_mem d) 0 = CStr SK8 v /\ intact (d_mem d) 0 SZ_STRING = true.
  Proof.
    intros d v T (_ & _ & _ & _ & R). rewrite T in R. cbn [read] in R. destruct (at_ (d_mem d) 0); try discriminate R. destruct (skind_eqb SK8 k) eqn:K; [|discriminate R]. cbn [andb] in R.
    destruct (intact (d_mem d) 0 SZ_STRING); [|discriminate R]. injection R as ->. destruct k; try discriminate K. auto.
  Qed.
  Lemma same_text : forall x d d' v r fe root p, is_text d v -> is_text d' v -> call_create_constant fc x d r fe root p = call_create_constant fc x d' r fe root p.
  Proof.
    intros x d d' v r fe root p [T H] [T' H']. unfold call_create_constant, on_tables. destruct (mod_at root p) as [m|]; [|reflexivity].
    assert (Q : forall tab, create_constant fc x d r fe tab = create_constant fc x d' r fe tab); [|rewrite Q; reflexivity].
    intros tab. unfold create_constant. rewrite T, T'. destruct (split_scope x); [reflexivity|]. destruct (if (r && mem x (consts tab))%bool then _ else _) as [tab1|]; [|reflexivity]. cbn [bind]. destruct (mem x (const_types tab1)); [reflexivity|].
    destruct (new_data (TStr SK8 0)) as [t|] eqn:Nd; [|reflexivity]. cbn [bind]. assert (Tt : d_type t = TStr SK8 0).
    { unfold new_data in Nd. apply bind_ok_iff in Nd as (b & _ & Nd). injection Nd as <-. reflexivity. }
    assert (A : assign_data fc t d = assign_data fc t d').
    { destruct (holds_text d _ T H) as [A1 A2]. destruct (holds_text d' _ T' H') as [B1 B2]. unfold assign_data, assign_from. rewrite T, T', Tt. cbn [copy]. unfold copy_str. rewrite ?A1, ?B1, ?A2, ?B2. reflexivity. }
    rewrite A. reflexivity.
  Qed.
  Lemma same_boolean : forall x d d' v r fe root p, is_boolean d v -> is_boolean d' v -> call_create_constant fc x d r fe root p = call_create_constant fc x d' r fe root p.
  Proof.
    intros x d d' v r fe root p [T H] [T' H']. unfold call_create_constant, on_tables. destruct (mod_at root p) as [m|]; [|reflexivity].
    assert (Q : forall tab, create_constant fc x d r fe tab = create_constant fc x d' r fe tab); [|rewrite Q; reflexivity].
    intros tab. unfold create_constant. rewrite T, T'. destruct (split_scope x); [reflexivity|]. destruct (if (r && mem x (consts tab))%bool then _ else _) as [tab1|]; [|reflexivity]. cbn [bind]. destruct (mem x (const_types tab1)); [reflexivity|].
    destruct (new_data (TPrim PBool)) as [t|] eqn:Nd; [|reflexivity]. cbn [bind]. assert (Tt : d_type t = TPrim PBool).
    { unfold new_data in Nd. apply bind_ok_iff in Nd as (b & _ & Nd). injection Nd as <-. reflexivity. }
    assert (A : assign_data fc t d = assign_data fc t d').
    { destruct H as (_ & _ & _ & _ & R). destruct H' as (_ & _ & _ & _ & R'). rewrite T in R. rewrite T' in R'. cbn [read] in R, R'.
      apply bind_ok_iff in R as (b & R & E). injection E as ->. apply bind_ok_iff in R' as (b & R' & E). injection E as ->.
      unfold assign_data, assign_from. rewrite T, T', Tt. cbn [copy]. unfold memcpy. rewrite R, R'. reflexivity. }
    rewrite A. reflexivity.
  Qed.
  (** A datum of a type without pointers that a constant is made of. *)
  Lemma stored_any : forall root p e d w fe, exists_module root p = true -> is_ident e = true -> holds d w -> copy_ok (d_type d) -> vselected (d_type d) w ->
    exists b root', call_create_constant fc e d false fe root p = Ok (b, root') /\ exists_module root' p = true.
  Proof.
    intros root p e d w fe E I Hh C V. destruct (constant_stored fc d w Hh C V) as (t & t1 & d' & N1 & N2 & N3 & _).
    assert (Q : exists b tab', create_constant fc e d false fe (tab_at root p) = Ok (b, tab')).
    { unfold create_constant. rewrite (ident_split e I). cbn [andb bind]. destruct (mem e (const_types (tab_at root p))); [eauto|].
      rewrite N1. cbn [bind]. rewrite N2. cbn [bind]. destruct (mem e (consts (tab_at root p))); [eauto|]. rewrite N3. cbn [bind]. eauto. }
    destruct Q as (b & tab' & Q). destruct (with_tables_ok root p tab' E) as (root' & W). exists b, root'. unfold call_create_constant.
    rewrite (on_tables_with bool root p _ b tab' E Q), W. split; [reflexivity|]. eapply with_tables_here; eauto.
  Qed.
  Lemma codes_char : forall s, codes s = char_codes s.
  Proof. induction s as [|c s IH]; [reflexivity|]. cbn [codes char_codes list_ascii_of_string map]. fold (char_codes s). rewrite IH. reflexivity. Qed.
  Lemma find_char_none : forall c s, existsb (Ascii.eqb c) (list_ascii_of_string s) = false -> find_char c s = None /\ rfind_char c s = None.
  Proof.
    induction s as [|d s IH]; intros H; [split; reflexivity|]. cbn [list_ascii_of_string existsb] in H. apply orb_false_iff in H as [H1 H2]. destruct (IH H2) as [A B]. cbn [find_char rfind_char]. rewrite A, B, H1. split; reflexivity.
  Qed.
  Lemma rfind_end : forall s, rfind_char """" (s ++ """") = Some (String.length s).
  Proof. induction s as [|d s IH]; [reflexivity|]. cbn [append rfind_char String.length]. rewrite IH. reflexivity. Qed.
  Lemma substring_start : forall s u, substring 0 (String.length s) (s ++ u) = s.
  Proof. induction s as [|d s IH]; intros u; [destruct u; reflexivity|]. cbn [append String.length substring]. rewrite IH. reflexivity. Qed.
  Lemma unquote_quoted : forall s, unquote ("""" ++ s ++ """") = s.
  Proof.
    intros s. unfold unquote. cbn [append find_char]. change (Ascii.eqb """" """") with true. cbv iota. cbn [rfind_char]. rewrite rfind_end. cbn [substring]. apply substring_start.
  Qed.
  Lemma unquote_pieces : forall l s, fold_left (fun s x => s ++ unquote (a_tok x)) (map piece l) s = s ++ joined l.
  Proof.
    induction l as [|x l IH]; intros s; [cbn [map fold_left joined]; rewrite app_nil_s; reflexivity|]. cbn [map fold_left joined]. rewrite IH. unfold piece at 1. cbn [a_tok]. rewrite unquote_quoted, app_assoc_s. reflexivity.
  Qed.
  Lemma text_value : forall n root q x l, exists v, solve_expr fc flt flit n root q (TStr SK8 0) (strings_node x l) = Ok v /\ is_text v (joined (x :: l)).
  Proof.
    intros n root q x l. assert (L : forall a, (match a_sub a with [] => unquote (a_tok a) = joined (x :: l) | _ => fold_left (fun s x => s ++ unquote (a_tok x)) (a_sub a) (unquote (a_tok a)) = joined (x :: l) end) ->
      exists v, literal_value fc flit (TStr SK8 0) a = Ok v /\ is_text v (joined (x :: l))).
    { intros a Ha. unfold literal_value. cbn [rget]. assert (X : fold_left (fun s x => s ++ unquote (a_tok x)) (a_sub a) (unquote (a_tok a)) = joined (x :: l)) by (destruct (a_sub a); exact Ha). rewrite X, codes_char.
      destruct (new_holds (TStr SK8 0)) as (d & E & T & H & _); [apply at_str; reflexivity|exact I|]. destruct H as (W & O & R & Li & _). rewrite T in *. cbn [rget] in *. rewrite E. cbn [bind].
      destruct (PropData.C41_set_checked_partial fc (ScStr SK8 (char_codes (joined (x :: l)))) (TStr SK8 0) (d_mem d) 0 Li (conj W O) eq_refl eq_refl) as (K & _).
      destruct K as (b & Eb & L' & R'); [reflexivity|reflexivity|]. rewrite Eb. cbn [bind]. eexists. split; [reflexivity|]. split; [reflexivity|]. repeat split; try assumption. }
    destruct l as [|y l].
    - apply L. cbn [strings_node a_sub a_tok joined]. rewrite unquote_quoted, app_nil_s. reflexivity.
    - apply L. cbn [strings_node a_sub a_tok]. change (fold_left (fun s x => s ++ unquote (a_tok x)) (map piece (x :: y :: l)) "" = joined (x :: y :: l)). rewrite unquote_pieces. reflexivity.
  Qed.
  Lemma new_is : forall t, api_type t -> ok_ty t -> rget t = t -> exists r, new_data t = Ok r /\ d_type r = t /\ holds r (default_value t).
  Proof. intros t A O R. destruct (new_holds t A O) as (r & E & T & H & _). rewrite R in T. eauto. Qed.
  Lemma text_sentence : forall c q root ts x w1 w2 s v w3, exists_module root q = true -> const_type_says (names_type root q) x ts (TStr SK8 0) -> is_ident x = true -> all_chars is_ws w1 = true -> all_chars is_ws w2 = true -> all_chars is_ws w3 = true ->
    strings_text s v -> exists d b root', is_text d v /\ call_create_constant fc x d false false root q = Ok (b, root') /\
      sentence fc flt flit c q ("const " ++ ts ++ " " ++ x ++ w1 ++ "=" ++ w2 ++ s ++ w3) root root'.
  Proof.
    intros c q root ts x w1 w2 s v w3 E CT I W1 W2 W3 H. destruct (type_reads c q root x ts _ CT I) as (ta & t0 & Et & St & Ot & Ev0). destruct (ok_strings s v H) as (y & l & F & J & O).
    destruct (new_is (TStr SK8 0)) as (r & Nr & Tr & Hr); [apply at_str; reflexivity|exact Logic.I|reflexivity|].
    destruct (text_value 0 root q y l) as (lv & _ & [Tl Hl]). rewrite J in Hl.
    assert (Ev : exists lv, (forall n, solve_expr fc flt flit n root q (TStr SK8 0) (strings_node y l) = Ok lv) /\ is_text lv v).
    { destruct (text_value 0 root q y l) as (u & Eu & Hu). rewrite J in Hu. exists u. split; [|exact Hu]. intros n. rewrite <- Eu. destruct l; reflexivity. }
    destruct Ev as (u & Eu & [Tu Hu]). destruct (assign_holds fc r u _ _ Hr Hu) as (d & Ed & Td & Hd); [congruence|rewrite Tr; exact Logic.I|rewrite Tr; exact Logic.I|]. rewrite Tr in Td.
    destruct (stored_any root q x d _ false E I Hd) as (b & root' & CC & _); [rewrite Td; exact Logic.I|rewrite Td; exact Logic.I|]. exists d, b, root'. split; [split; assumption|]. split; [exact CC|].
    eapply (any_const c q root root' ts x w1 w2 s w3 ta (strings_node y l) t0 r u d b); try assumption.
    - intros t. destruct (strings_start _ _ H) as (s1 & ->). reflexivity.
    - intros t. destruct (O w3 ";"%char t W3 eq_refl) as (b' & O' & E'). exists b', "". split; [reflexivity|]. split; [exact O'|exact E'].
    - rewrite new_data_rget, Et. exact Nr.
    - exists 0%nat. intros n _. rewrite solve_rget, Et. apply Eu.
    - rewrite Td. discriminate.
  Qed.
  Lemma boolean_value : forall t, exists v, literal_value fc flit (TPrim PBool) (Ast R_CONST_EXPR R_BOOLEAN_LITERAL (boolean_text t) []) = Ok v /\ is_boolean v t.
  Proof.
    intros t. destruct (new_is (TPrim PBool)) as (r & Nr & Tr & Hr); [apply at_prim|exact Logic.I|reflexivity|].
    destruct (set_prim_holds fc r PBool _ [if t then 1%N else 0%N] Hr Tr eq_refl) as (m & Em & Hm); [constructor; [destruct t; reflexivity|constructor]|].
    exists (mkData (TPrim PBool) m). split; [|split; [reflexivity|exact Hm]]. unfold literal_value. cbn [rget int_kind a_tok]. unfold result. rewrite Nr. cbn [bind]. replace (if String.eqb (boolean_text t) "TRUE" then 1%N else 0%N) with (if t then 1%N else 0%N) by (destruct t; reflexivity).
    rewrite Em. reflexivity.
  Qed.
  Lemma boolean_sentence : forall c q root ts x w1 w2 t w3, exists_module root q = true -> const_type_says (names_type root q) x ts (TPrim PBool) -> is_ident x = true -> all_chars is_ws w1 = true -> all_chars is_ws w2 = true -> all_chars is_ws w3 = true ->
    exists d b root', is_boolean d t /\ call_create_constant fc x d false false root q = Ok (b, root') /\
      sentence fc flt flit c q ("const " ++ ts ++ " " ++ x ++ w1 ++ "=" ++ w2 ++ boolean_text t ++ w3) root root'.
  Proof.
    intros c q root ts x w1 w2 t w3 E CT I W1 W2 W3. destruct (type_reads c q root x ts _ CT I) as (ta & t0 & Et & St & Ot & Ev0).
    destruct (new_is (TPrim PBool)) as (r & Nr & Tr & Hr); [apply at_prim|exact Logic.I|reflexivity|].
    destruct (boolean_value t) as (u & Eu & [Tu Hu]). destruct (assign_holds fc r u _ _ Hr Hu) as (d & Ed & Td & Hd); [congruence|rewrite Tr; exact Logic.I|rewrite Tr; exact Logic.I|]. rewrite Tr in Td.
    destruct (stored_any root q x d _ false E I Hd) as (b & root' & CC & _); [rewrite Td; exact Logic.I|rewrite Td; exact Logic.I|]. exists d, b, root'. split; [split; assumption|]. split; [exact CC|].
    eapply (any_const c q root root' ts x w1 w2 (boolean_text t) w3 ta (Ast R_CONST_EXPR R_BOOLEAN_LITERAL (boolean_text t) []) t0 r u d b); try assumption.
    - intros k. destruct t; reflexivity.
    - intros k. destruct (ok_boolean t w3 ";"%char k W3 eq_refl) as (b' & O' & E'). exists b', w3. split; [exact W3|]. split; [exact O'|exact E'].
    - rewrite new_data_rget, Et. exact Nr.
    - exists 0%nat. intros n _. rewrite solve_rget, Et. exact Eu.
    - rewrite Td. discriminate.
  Qed.
  (** Enumerators. *)
  Lemma enum_wf : forall e vals, Forall (fun p => snd p < 2 ^ 32)%N vals -> wf_ty (TEnum e 4 vals).
  Proof. intros e vals F. split; [right; right; reflexivity|exact F]. Qed.
  Lemma enum_memory : forall T d v e vals, Forall (fun p => snd p < 2 ^ 32)%N vals -> enumerator_type T -> is_enum T d v -> is_enum (TEnum e 4 vals) (mkData (TEnum e 4 vals) (d_mem d)) v /\ (forall r, d_type r = TEnum e 4 vals -> assign_data fc r d = assign_data fc r (mkData (TEnum e 4 vals) (d_mem d))).
  Proof.
    intros T d v e vals Fv ET (Td & bs & Hh & Hn). split.
    - split; [reflexivity|]. exists bs. split; [|exact Hn]. destruct Hh as (_ & _ & _ & L & R). rewrite Td in L, R. destruct ET; (split; [apply enum_wf, Fv|]; split; [exact Logic.I|]; split; [reflexivity|]; split; [exact L|exact R]).
    - intros r Tr. unfold assign_data. rewrite Td, Tr. destruct ET; reflexivity.
  Qed.
  Lemma int_memory : forall T d v, enumerator_type T -> is_enum T d v -> is_int (mkData (TPrim PU32) (d_mem d)) PU32 v.
  Proof.
    intros T d v ET (Td & bs & Hh & Hn). split; [reflexivity|]. exists bs. split; [|exact Hn]. destruct Hh as (_ & _ & _ & L & R). rewrite Td in L, R. destruct ET; (split; [exact Logic.I|]; split; [exact Logic.I|]; split; [reflexivity|]; split; [exact L|exact R]).
  Qed.
  Lemma new_enum : forall e vals, Forall (fun p => snd p < 2 ^ 32)%N vals -> exists r, new_data (TEnum e 4 vals) = Ok r /\ d_type r = TEnum e 4 vals /\ holds r (default_value (TEnum e 4 vals)).
  Proof.
    intros e vals F. pose proof (enum_wf e vals F) as W. destruct (ConstructFacts.construct_spec (TEnum e 4 vals) (conj W Logic.I) (fresh 4) 0) as (b & E & A & L & R); [apply ConstructFacts.fresh_alloc|]. exists (mkData (TEnum e 4 vals) b).
    unfold new_data. cbn [rget msize]. rewrite E. cbn [bind]. split; [reflexivity|]. split; [reflexivity|]. split; [exact W|]; split; [exact Logic.I|]; split; [reflexivity|]; split; [exact L|exact R].
  Qed.
  Lemma same_enum : forall T x d d' v r fe root p, enumerator_type T -> is_enum T d v -> is_enum T d' v -> call_create_constant fc x d r fe root p = call_create_constant fc x d' r fe root p.
  Proof.
    intros T x d d' v r fe root p ET H H'. unfold call_create_constant, on_tables. destruct (mod_at root p) as [m|]; [|reflexivity].
    assert (Q : forall tab, create_constant fc x d r fe tab = create_constant fc x d' r fe tab); [|rewrite Q; reflexivity].
    assert (R4 : read_bytes (d_mem d) 0 4 = read_bytes (d_mem d') 0 4).
    { apply (DocText.same_bytes PU32 (mkData (TPrim PU32) (d_mem d)) (mkData (TPrim PU32) (d_mem d')) v eq_refl).
      - exact (int_memory T d v ET H).
      - exact (int_memory T d' v ET H'). }
    destruct H as (T0 & _). destruct H' as (T' & _).
    intros tab. unfold create_constant. rewrite T0, T'. destruct (split_scope x); [reflexivity|]. destruct (if (r && mem x (consts tab))%bool then _ else _) as [tab1|]; [|reflexivity]. cbn [bind]. destruct (mem x (const_types tab1)); [reflexivity|].
    destruct (new_data T) as [t|] eqn:Nd; [|reflexivity]. cbn [bind]. assert (Tt : d_type t = rget T).
    { unfold new_data in Nd. apply bind_ok_iff in Nd as (b & _ & Nd). injection Nd as <-. reflexivity. }
    assert (A : assign_data fc t d = assign_data fc t d').
    { unfold assign_data, assign_from. rewrite T0, T', Tt. destruct ET; cbn [rget copy]; unfold memcpy; cbn [prim_size]; rewrite R4; reflexivity. }
    rewrite A. reflexivity.
  Qed.
  Lemma chosen_sentence : forall c q root env ts x w1 w2 y s w3 e vals T d0 v, exists_module root q = true -> Forall (fun p => snd p < 2 ^ 32)%N vals -> const_type_says (names_type root q) x ts (TEnum e 4 vals) -> is_ident x = true ->
    all_chars is_ws w1 = true -> all_chars is_ws w2 = true -> all_chars is_ws w3 = true -> token_text (KName y) s -> sees root q env -> env y = Some d0 -> enumerator_type T -> is_enum T d0 v ->
    exists d b root', is_enum (TEnum e 4 vals) d v /\ call_create_constant fc x d false false root q = Ok (b, root') /\ sentence fc flt flit c q ("const " ++ ts ++ " " ++ x ++ w1 ++ "=" ++ w2 ++ s ++ w3) root root'.
  Proof.
    intros c q root env ts x w1 w2 y s w3 e vals T d0 v E Fv CT I W1 W2 W3 Tk Se Ey ET H0. destruct (type_reads c q root x ts _ CT I) as (ta & t0 & Et & St & Ot & Ev0).
    set (TE := TEnum e 4 vals). destruct (new_enum e vals Fv) as (r & Nr & Tr & Hr). fold TE in Nr, Tr.
    destruct (enum_memory T d0 v e vals Fv ET H0) as [H1 As1]. fold TE in H1, As1. destruct H1 as (_ & bs & Hh & Hn).
    destruct (assign_holds fc r _ _ _ Hr Hh) as (d1 & E1 & T1 & Hd1); [exact Tr|rewrite Tr; exact Logic.I|rewrite Tr; exact Logic.I|]. rewrite Tr in T1.
    assert (E1' : assign_data fc r d0 = Ok d1) by (rewrite As1 by exact Tr; exact E1).
    destruct (assign_holds fc r d1 _ _ Hr Hd1) as (d & Ed & Td & Hd); [congruence|rewrite Tr; exact Logic.I|rewrite Tr; exact Logic.I|]. rewrite Tr in Td.
    destruct (stored_any root q x d _ false E I Hd) as (b & root' & CC & _); [rewrite Td; exact Logic.I|rewrite Td; exact Logic.I|].
    exists d, b, root'. split; [split; [exact Td|eauto]|]. split; [exact CC|].
    assert (De : idl_expr (EName y) [KName y]) by (exact (derives_up 7 0 _ _ ltac:(lia) (de_name y))).
    pose proof (derives_rderives _ _ _ De) as Dr.
    assert (Tx : text_of [KName y] s) by (constructor; exact Tk).
    eapply (any_const c q root root' ts x w1 w2 s w3 ta (tree R_CONST_EXPR (EName y)) t0 r d1 d b); try assumption.
    - intros k. apply (start_solid s k (text_start _ _ _ _ Dr Tx)).
    - intros k. assert (Sp : stops 0 w3 (";" ++ k)).
      { constructor; try assumption; try reflexivity; [apply solid_firm; reflexivity|]. intros j w' K W'. apply (no_op_char ";" j w'); [exact W'|reflexivity|lia]. }
      destruct (ok_expr 0 (EName y) [KName y] Dr s w3 (";" ++ k) Tx Sp) as (b' & w3' & Hw3 & Ob & Eb). exists b', w3'. split; [destruct Hw3 as [-> | ->]; [exact W3|reflexivity]|]. split; [exact Ob|exact Eb].
    - rewrite new_data_rget, Et. exact Nr.
    - assert (EV : eventually (fun n => find_in n root q consts y = Ok (Some d0))) by (apply ev_steady; [apply steady_find|apply Se, Ey|discriminate]).
      eapply ev_impl; [|exact EV]. intros n F. rewrite solve_rget, Et. cbn [tree IdlParse.solve_expr]. rewrite F. cbn [bind]. unfold assign_new. fold TE. rewrite Nr. cbn [bind]. exact E1'.
    - rewrite Td. discriminate.
  Qed.
  (** Integers. *)
  Lemma spelled_sentence : forall c q root env p n x w1 w2 e ts s w3 z, exists_module root q = true -> int_kind p = true -> const_type_says (names_type root q) x n (TPrim p) -> is_ident x = true ->
    all_chars is_ws w1 = true -> all_chars is_ws w2 = true -> all_chars is_ws w3 = true -> idl_expr e ts -> text_of ts s -> sees root q env ->
    evaluates p env e z -> right_safe p env e -> unary_safe p e ->
    exists d b root', is_int d p z /\ call_create_constant fc x d false false root q = Ok (b, root') /\ sentence fc flt flit c q ("const " ++ n ++ " " ++ x ++ w1 ++ "=" ++ w2 ++ s ++ w3) root root'.
  Proof.
    intros c q root env p n x w1 w2 e ts s w3 z E Hk CT I W1 W2 W3 De T Se Ev Rs Us. destruct (type_reads c q root x n _ CT I) as (ta & t0 & Et & St0 & Ot & Ev0). pose proof (derives_rderives _ _ _ De) as Dr.
    assert (Er : evaluates p env (regroup e) z) by (apply regroup_evaluates; [eapply derives_leftish, De|exact Rs|exact Ev]).
    destruct (tree_sound fc flt flit root q env p (regroup e) z Hk Se Er (regroup_unary_safe _ _ Us)) as (n0 & X). destruct (X n0 (Nat.le_refl _) R_CONST_EXPR) as (d & Ed & Hd).
    assert (ED : eventually (fun n => solve_expr fc flt flit n root q (TPrim p) (tree R_CONST_EXPR (regroup e)) = Ok d)).
    { apply ev_steady; [apply steady_solve_expr|exists n0; exact Ed|discriminate]. }
    destruct (assign_new_int fc p d z Hd) as (d1 & E1 & H1). destruct (const_new fc root q x d1 p z false E I H1) as (b & root' & CC & _).
    exists d1, b, root'. split; [exact H1|]. split; [exact CC|]. unfold assign_new in E1. destruct (new_data (TPrim p)) as [r|] eqn:Nr; [|discriminate E1]. cbn [bind] in E1.
    eapply (any_const c q root root' n x w1 w2 s w3 ta (tree R_CONST_EXPR (regroup e)) t0 r d d1 b); try assumption.
    - intros k. apply (start_solid s k (text_start _ _ _ _ Dr T)).
    - intros k. assert (St : stops 0 w3 (";" ++ k)).
      { constructor; try assumption; try reflexivity; [apply solid_firm; reflexivity|]. intros j w' K W'. apply (no_op_char ";" j w'); [exact W'|reflexivity|lia]. }
      destruct (ok_expr 0 (regroup e) ts Dr s w3 (";" ++ k) T St) as (b' & w3' & Hw3 & Ob & Eb). exists b', w3'. split; [destruct Hw3 as [-> | ->]; [exact W3|reflexivity]|]. split; [exact Ob|exact Eb].
    - rewrite new_data_rget, Et. exact Nr.
    - eapply ev_impl; [|exact ED]. intros n0' A. rewrite solve_rget, Et. exact A.
    - rewrite (proj1 H1). intros Q. injection Q as ->. discriminate Hk.
  Qed.
End Values.
