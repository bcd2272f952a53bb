(** The texts of BitSpec are matched by the grammar, and the parser's actions do nothing with them. *)
From Verif Require Import Base Types TypeBuild Mem Hash MapOps Ops IntOps ModuleSpec ModuleFacts Module IntSpec IntFacts Peg0 Grammar Peg PegFacts PegRules IdlParse IdlParseFacts GenIdl GenSpec TypeText StructText StructRead NumText IdlLitFacts IdlLit IdlExpr IdlSpec IdlFacts GrowFacts DocFacts ExprSpec ExprText LitText EnumText NoteSpec NoteText FreeSpec FreeText TokenFacts BitSpec.
Local Open Scope string_scope.

(** *** Basic types in other places *)
Lemma ok_const_name : forall x p w s, In (x, p) base_names -> x <> "octet" -> ends w s -> exists a, ok (Ref R_CONST_TYPE) (x ++ w ++ s) [a] [] s.
Proof.
  intros x p w s H NO E. pose proof (e_follows _ _ E) as F. pose proof (not_first _ (f_id _ _ F)) as NI.
  assert (K : forall q k, keyword q k -> ok (Ref q) (k ++ w ++ s) [] [] s).
  { intros q k Hk. exact (ok_keyword q k "" w s Hk eq_refl (f_ws _ _ F) (f_solid _ _ F) NI). }
  unfold base_names in H. cbn [In] in H.
  repeat (destruct H as [H|H]; [injection H as <- <-|]); [..|destruct H].
  1: eexists; drill' E; apply (K R_KW_BOOLEAN "boolean"); kw.
  1: congruence.
  1: eexists; drill' E; apply (K R_KW_INT8 "int8"); kw.
  1: eexists; drill' E; apply (K R_KW_UINT8 "uint8"); kw.
  1: eexists; drill' E; apply (K R_KW_SHORT "short"); kw.
  1: eexists; drill' E; apply (K R_KW_INT16 "int16"); kw.
  1: eexists; drill' E; eapply (ok_words R_KW_UNSIGNED_SHORT _ "unsigned short"); [kw|two_words; apply ok_lit; reflexivity|reflexivity|exact F].
  1: eexists; drill' E; apply (K R_KW_UINT16 "uint16"); kw.
  1: eexists; drill' E; apply (K R_KW_LONG "long"); kw.
  1: eexists; drill' E; apply (K R_KW_INT32 "int32"); kw.
  1: eexists; drill' E; eapply (ok_words R_KW_UNSIGNED_LONG _ "unsigned long"); [kw|two_words; apply ok_lit; reflexivity|reflexivity|exact F].
  1: eexists; drill' E; apply (K R_KW_UINT32 "uint32"); kw.
  1: eexists; drill' E; eapply (ok_words R_KW_LONG_LONG _ "long long"); [kw|two_words; apply ok_lit; reflexivity|reflexivity|exact F].
  1: eexists; drill' E; apply (K R_KW_INT64 "int64"); kw.
  1: eexists; drill' E; eapply (ok_words R_KW_UNSIGNED_LONG_LONG _ "unsigned long long"); [kw|two_words; two_words; apply ok_lit; reflexivity|reflexivity|exact F].
  1: eexists; drill' E; apply (K R_KW_UINT64 "uint64"); kw.
  1: eexists; drill' E; apply (K R_KW_FLOAT "float"); kw.
  1: eexists; drill' E; apply (K R_KW_DOUBLE "double"); kw.
  1: eexists; drill' E; apply (ok_long_double w s (f_ws _ _ F) (f_solid _ _ F) NI).
  1: eexists; drill' E; apply (K R_KW_CHAR "char"); kw.
  1: eexists; drill' E; apply (K R_KW_WCHAR "wchar"); kw.
Qed.
Lemma ok_destination : forall x p w s, In (x, p) base_names -> of_bits p = true -> ends w s -> exists a, ok (Ref R_DESTINATION_TYPE) (x ++ w ++ s) [a] [] s.
Proof.
  intros x p w s H B E. pose proof (e_follows _ _ E) as F. pose proof (not_first _ (f_id _ _ F)) as NI.
  assert (K : forall q k, keyword q k -> ok (Ref q) (k ++ w ++ s) [] [] s).
  { intros q k Hk. exact (ok_keyword q k "" w s Hk eq_refl (f_ws _ _ F) (f_solid _ _ F) NI). }
  unfold base_names in H. cbn [In] in H.
  repeat (destruct H as [H|H]; [injection H as <- <-|]); [..|destruct H]; try discriminate B.
  1: eexists; drill' E; apply (K R_KW_BOOLEAN "boolean"); kw.
  1: eexists; drill' E; apply (K R_KW_OCTET "octet"); kw.
  1: eexists; drill' E; apply (K R_KW_INT8 "int8"); kw.
  1: eexists; drill' E; apply (K R_KW_UINT8 "uint8"); kw.
  1: eexists; drill' E; apply (K R_KW_SHORT "short"); kw.
  1: eexists; drill' E; apply (K R_KW_INT16 "int16"); kw.
  1: eexists; drill' E; eapply (ok_words R_KW_UNSIGNED_SHORT _ "unsigned short"); [kw|two_words; apply ok_lit; reflexivity|reflexivity|exact F].
  1: eexists; drill' E; apply (K R_KW_UINT16 "uint16"); kw.
  1: eexists; drill' E; apply (K R_KW_LONG "long"); kw.
  1: eexists; drill' E; apply (K R_KW_INT32 "int32"); kw.
  1: eexists; drill' E; eapply (ok_words R_KW_UNSIGNED_LONG _ "unsigned long"); [kw|two_words; apply ok_lit; reflexivity|reflexivity|exact F].
  1: eexists; drill' E; apply (K R_KW_UINT32 "uint32"); kw.
  1: eexists; drill' E; eapply (ok_words R_KW_LONG_LONG _ "long long"); [kw|two_words; apply ok_lit; reflexivity|reflexivity|exact F].
  1: eexists; drill' E; apply (K R_KW_INT64 "int64"); kw.
  1: eexists; drill' E; eapply (ok_words R_KW_UNSIGNED_LONG_LONG _ "unsigned long long"); [kw|two_words; two_words; apply ok_lit; reflexivity|reflexivity|exact F].
  1: eexists; drill' E; apply (K R_KW_UINT64 "uint64"); kw.
Qed.

Definition node (q : rule) (n : ast) : Prop := exists l, n = Ast q q "" l.
Lemma ok_ref_orig : forall q s ns ts r, ok (gram q) s ns ts r -> ignored q = false -> is_token_rule q = false -> exists n, ok (Ref q) s [n] [] r /\ node q n.
Proof. intros q s ns ts r O I T. eexists. split; [eapply ok_ref_node; eassumption|eexists; reflexivity]. Qed.
(** *** Bitmasks *)
Lemma ident_paren : forall x s, is_ident x = true -> first_is (Ascii.eqb "(") (x ++ s) = false.
Proof. intros [|c x] s I; [discriminate I|]. apply andb_true_iff in I as [I _]. cbn [append first_is] in *. pose proof (all_ascii (fun c => implb (id_first c) (negb (Ascii.eqb "(" c))) eq_refl c) as K. cbv beta in K. rewrite I in K. apply negb_true_iff in K. exact K. Qed.
Lemma ok_flag : forall a e s, notes a -> is_ident e = true -> first_is id_char s = false -> exists n, ok (Ref R_BIT_VALUE) (a ++ e ++ s) [n] [] s /\ node R_BIT_VALUE n.
Proof.
  intros a e s H I F. destruct (ok_notes_ws a H (e ++ s) (ident_solid _ _ I) (ident_at _ _ I) (ident_paren _ _ I)) as (l & O). 
  eapply (ok_ref_orig R_BIT_VALUE); [|reflexivity|reflexivity]. cbn [gram]. pose proof (ok_seq _ _ _ _ _ _ _ _ _ O (ok_ident e s I F)) as Q. exact Q.
Qed.
Definition passed (n : ast) : Prop := exists q, q <> R_IDENTIFIER /\ node q n.
Lemma ok_flags : forall f, flags_text f -> forall w r, all_chars is_ws w = true -> solid (f ++ w ++ "}" ++ r) /\
  exists n l, ok (Seq (Ref R_BIT_VALUE) (Star (Seq (Ref R_COMMA) (Ref R_BIT_VALUE)))) (f ++ w ++ "}" ++ r) (n :: l) [] (w ++ "}" ++ r) /\ Forall passed (n :: l).
Proof.
  intros f H. induction H as [a e Ha I|a e w0 w1 s Ha I W0 W1 H IH]; intros w r W.
  - rewrite app_assoc_s. split; [apply notes_solid, ident_solid, I; exact Ha|].
    destruct (ok_flag a e (w ++ "}" ++ r) Ha I (blank_not_id w "}" r W eq_refl)) as (n & O & E). exists n, []. split.
    + refine (ok_seq _ _ _ [n] [] _ [] [] _ O (ok_star_end _ _ _)). apply no_seq_l. apply (no_punct R_COMMA "," w); [kw|exact W|reflexivity|reflexivity].
    + repeat constructor. eexists. split; [|exact E]. discriminate.
  - rewrite !app_assoc_s. destruct (IH w r W) as [So (n1 & l1 & O1 & F1)]. split; [apply notes_solid, ident_solid, I; exact Ha|].
    destruct (ok_flag a e (w0 ++ "," ++ w1 ++ s ++ w ++ "}" ++ r) Ha I (blank_not_id w0 "," _ W0 eq_refl)) as (n & O & E). exists n, (n1 :: l1). split.
    + refine (ok_seq _ _ _ [n] [] _ _ [] _ O _).
      assert (Inv : exists n1' t1 m n2 t2, ok (Ref R_BIT_VALUE) (s ++ w ++ "}" ++ r) n1' t1 m /\ ok (Star (Seq (Ref R_COMMA) (Ref R_BIT_VALUE))) m n2 t2 (w ++ "}" ++ r) /\ (n1' ++ n2 = n1 :: l1)%list /\ (t1 ++ t2 = [])%list).
      { destruct O1 as (k & c & O1). destruct k as [|k]; [discriminate O1|]. rewrite peg_eq in O1. destruct (peg k (Ref R_BIT_VALUE) _) as [[|c1 a1 t1 m]|] eqn:E1; try discriminate O1.
        destruct (peg k (Star _) m) as [[|c2 a2 t2 m2]|] eqn:E2; try discriminate O1. injection O1 as Oc On Ot Or. exists a1, t1, m, a2, t2. split; [exists k, c1; exact E1|]. assert (Or' : m2 = w ++ "}" ++ r) by exact Or. split; [exists k, c2; rewrite <- Or'; exact E2|]. split; assumption. }
      destruct Inv as (b1 & t1 & m & b2 & t2 & P1 & P2 & En & Et). apply app_eq_nil in Et as [-> ->]. rewrite <- En. refine (ok_star_more _ _ b1 [] m b2 [] _ _ P2).
      refine (ok_seq _ _ _ [] [] _ b1 [] _ (ok_punct R_COMMA "," w0 w1 _ _ eq_refl W0 W1 So) P1). kw.
    + constructor; [eexists; split; [|exact E]; discriminate|exact F1].
Qed.
(** *** Bitsets *)
Lemma ok_opt_destination : forall d r, destination_text d -> exists l, ok (Opt (Seq (Ref R_COMMA) (Ref R_DESTINATION_TYPE))) (d ++ ">" ++ r) l [] (">" ++ r).
Proof.
  intros d r [|s p Hs B].
  - exists []. apply ok_opt_none, no_seq_l. apply (no_punct R_COMMA "," ""); [kw|reflexivity|reflexivity|reflexivity].
  - assert (E : ends "" (">" ++ r)) by (constructor; [constructor; reflexivity|left; reflexivity]). destruct (ok_destination s p "" (">" ++ r) Hs B E) as (b & Ob).
    exists [b]. refine (ok_opt_some _ _ _ _ _ (ok_seq _ _ _ [] [] _ [b] [] _ _ Ob)). rewrite !app_assoc_s. apply (ok_close R_COMMA "," " "); [kw|reflexivity|reflexivity|].
    unfold base_names in Hs. cbn [In] in Hs. repeat (destruct Hs as [Hs|Hs]; [injection Hs as <- <-; reflexivity|]). destruct Hs.
Qed.
Lemma ok_field : forall a n d x w r, notes a -> destination_text d -> field_name_text x -> all_chars is_ws w = true -> solid r ->
  exists b, ok (Ref R_BITFIELD) (a ++ "bitfield<" ++ to_string n ++ d ++ ">" ++ x ++ ";" ++ w ++ r) [b] [] r /\ node R_BITFIELD b.
Proof.
  intros a n d x w r Ha Hd Hx W So. destruct (ok_notes a Ha ("bitfield<" ++ to_string n ++ d ++ ">" ++ x ++ ";" ++ w ++ r) eq_refl eq_refl eq_refl) as (l & w0 & W0 & On & _).
  enough (Q : exists q, ok (gram R_BITFIELD) (a ++ "bitfield<" ++ to_string n ++ d ++ ">" ++ x ++ ";" ++ w ++ r) q [] r) by (destruct Q as (q & Q); eapply (ok_ref_orig R_BITFIELD); [exact Q|reflexivity|reflexivity]).
  cbn [gram]. set (rest := ">" ++ x ++ ";" ++ w ++ r) in *.
  assert (Os : exists b u, ok (Ref R_BITFIELD_SPEC) (w0 ++ "bitfield<" ++ to_string n ++ d ++ rest) [b] [] u /\ (x = "" /\ u = ";" ++ w ++ r \/ exists y, is_ident y = true /\ x = " " ++ y /\ u = y ++ ";" ++ w ++ r)).
  { assert (Ou : exists wx u, all_chars is_ws wx = true /\ solid u /\ rest = ">" ++ wx ++ u /\ (x = "" /\ u = ";" ++ w ++ r \/ exists y, is_ident y = true /\ x = " " ++ y /\ u = y ++ ";" ++ w ++ r)).
    { destruct Hx as [|y I]; [exists "", (";" ++ w ++ r); repeat split; left; split; reflexivity|exists " ", (y ++ ";" ++ w ++ r)].
      split; [reflexivity|]. split; [apply ident_solid, I|]. split; [unfold rest; rewrite !app_assoc_s; reflexivity|]. right. exists y. auto. }
    destruct Ou as (wx & u & Wx & Su & -> & Hu). 
    assert (X : exists l1, ok (gram R_BITFIELD_SPEC) (w0 ++ "bitfield<" ++ to_string n ++ d ++ ">" ++ wx ++ u) l1 [] u); [|destruct X as (l1 & X); eexists; exists u; split; [eapply ok_ref_node; [exact X|reflexivity|reflexivity]|exact Hu]].
    clear On Hu.
    destruct (ok_opt_destination d (wx ++ u) Hd) as (l2 & O2). eexists. cbn [gram]. refine (ok_seq _ _ _ [] [] _ _ [] _ (ok_keyword R_KW_BITFIELD "bitfield" w0 "" ("<" ++ to_string n ++ d ++ ">" ++ wx ++ u) _ W0 eq_refl eq_refl eq_refl) _); [kw|].
    refine (ok_seq _ _ _ [] [] _ _ [] _ (ok_open R_OPEN_ANG_BRACKET "<" _ _ eq_refl _) _); [kw|apply number_solid|].
    assert (NE : num_end (d ++ ">" ++ wx ++ u)) by (destruct Hd; reflexivity).
    refine (ok_seq _ _ _ [_] [] _ _ [] _ (ok_positive n _ NE) _).
    exact (ok_seq _ _ _ l2 [] _ [] [] _ O2 (ok_close R_CLOSE_ANG_BRACKET ">" wx u ltac:(kw) eq_refl Wx Su)). }
  destruct Os as (b & u & Os & Hu). assert (Z : exists q, ok (Seq (Star (Ref R_IDENTIFIER)) (Ref R_SEMICOLON)) u q [] r).
  { destruct Hu as [[-> ->]|(y & I & -> & ->)].
    - eexists. refine (ok_seq _ _ _ [] [] _ [] [] _ (ok_star_end _ _ (no_ident (";" ++ w ++ r) eq_refl)) (ok_close R_SEMICOLON ";" w r _ eq_refl W So)). kw.
    - eexists. refine (ok_seq _ _ _ [_] [] _ [] [] _ (ok_star_more _ _ [_] [] _ [] [] _ (ok_ident y (";" ++ w ++ r) I eq_refl) (ok_star_end _ _ (no_ident (";" ++ w ++ r) eq_refl))) (ok_close R_SEMICOLON ";" w r _ eq_refl W So)). kw. }
  destruct Z as (q & Z). eexists. exact (ok_seq _ _ _ l [] _ _ [] _ On (ok_seq _ _ _ [b] [] _ q [] _ Os Z)).
Qed.
Lemma fields_solid : forall f s, fields_text f -> solid s -> solid (f ++ s).
Proof. intros f s [|a n d x w r Ha _ _ _ _] S; [exact S|]. rewrite app_assoc_s. apply notes_solid; [exact Ha|reflexivity]. Qed.
Lemma ok_fields : forall f, fields_text f -> forall r, exists l, ok (Star (Ref R_BITFIELD)) (f ++ "}" ++ r) l [] ("}" ++ r) /\ Forall passed l /\ (f <> "" -> l <> []).
Proof.
  intros f H. induction H as [|a n d x w f Ha Hd Hx W H IH]; intros r.
  - exists []. split; [|split; [constructor|congruence]]. apply ok_star_end. no_by_text.
  - destruct (IH r) as (l & O & F & _). rewrite !app_assoc_s. destruct (ok_field a n d x w (f ++ "}" ++ r) Ha Hd Hx W (fields_solid f ("}" ++ r) H eq_refl)) as (b & Ob & E).
    exists (b :: l). split; [exact (ok_star_more _ _ [b] [] _ l [] _ Ob O)|]. split; [|discriminate]. constructor; [eexists; split; [|exact E]; discriminate|exact F].
Qed.
(** *** Annotation types *)
Definition value_start (s : string) : Prop := forall r, solid (s ++ r) /\ first_is (Ascii.eqb "}") (s ++ r) = false.
Lemma value_type_start : forall s, value_type s -> value_start s.
Proof.
  intros s [x p H| | |z (abs & qs & y & -> & I & P)] r; [|split; reflexivity|split; reflexivity|].
  - unfold base_names in H. cbn [In] in H. repeat (destruct H as [H|H]; [injection H as <- <-; split; reflexivity|]). destruct H.
  - destruct abs; cbn [render]; [split; reflexivity|]. destruct P as [P|P]; [discriminate P|]. destruct (qualified_first qs y r) as (u & E & _). rewrite E.
    apply plain_ident in P. split; [apply ident_solid, P|]. destruct (hd y qs) as [|c h]; [discriminate P|]. apply andb_true_iff in P as [P _]. cbn [append first_is] in *.
    pose proof (all_ascii (fun c => implb (id_first c) (negb (Ascii.eqb "}" c))) eq_refl c) as K. cbv beta in K. rewrite P in K. apply negb_true_iff in K. exact K.
Qed.
Lemma values_solid : forall v s, values_text v -> solid s -> solid (v ++ s).
Proof. intros v s [|x y d w r H _ _ _ _] S; [exact S|]. rewrite app_assoc_s. apply (value_type_start x H). Qed.
Lemma ok_scoped_type : forall abs qs y r, ident_path qs y -> abs = true \/ plain (hd y qs) = true -> first_is id_char r = false -> after "::" r = None ->
  exists a, ok (Ref R_CONST_TYPE) (render abs qs y ++ r) [a] [] r.
Proof.
  intros abs qs y r I P F C. pose proof (ok_absolute abs qs y r I F C) as O. eexists. eapply ok_ref_node; [|reflexivity|reflexivity]. cbn [gram].
  assert (N : forall e, e = Ref R_FLOAT_TYPE \/ e = Ref R_DOUBLE_TYPE \/ e = Ref R_LONG_DOUBLE_TYPE \/ e = Ref R_FIXED_PT_CONST_TYPE \/ e = Ref R_INTEGER_TYPE \/ e = Ref R_CHAR_TYPE \/ e = Ref R_WIDE_CHAR_TYPE \/ e = Ref R_BOOLEAN_TYPE \/ e = Ref R_STRING_TYPE \/ e = Ref R_WIDE_STRING_TYPE -> no e (render abs qs y ++ r)).
  { destruct abs; cbn [render].
    - intros e H. repeat destruct H as [->|H]; try no_by_text. subst e. no_by_text.
    - destruct P as [P|P]; [discriminate P|]. destruct (qualified_first qs y r) as (u & E & Hr). specialize (Hr F). rewrite E. intros e H. repeat destruct H as [->|H]; try (no_words P Hr). subst e. no_words P Hr. }
  do 10 (apply ok_alt_r; [apply N; tauto|]). exact O.
Qed.
Lemma ok_word_type : forall s r, s = "any" \/ s = "octet" -> exists a, ok (Ref R_CONST_TYPE) (s ++ " " ++ r) [a] [] (" " ++ r).
Proof.
  intros s r H. eexists. eapply ok_ref_node; [|reflexivity|reflexivity]. cbn [gram].
  destruct H as [->| ->]; do 10 (apply ok_alt_r; [no_by_text|]); [apply (ok_absolute false [] "any")|apply (ok_absolute false [] "octet")]; repeat constructor; reflexivity.
Qed.
(** A type, a blank and a name. *)
Lemma ok_value_type : forall s x r, value_type s -> plain x = true -> first_is id_char r = false ->
  exists a w, all_chars is_ws w = true /\ ok (Ref R_ANNOTATION_MEMBER_TYPE) (s ++ " " ++ x ++ r) [a] [] (w ++ x ++ r).
Proof.
  intros s x r H P F. pose proof (plain_ident _ P) as I.
  assert (Q : exists a w, all_chars is_ws w = true /\ ok (Ref R_CONST_TYPE) (s ++ " " ++ x ++ r) [a] [] (w ++ x ++ r)).
  { assert (Fo : follows " " (x ++ r)).
    { constructor; try reflexivity; [apply ident_solid, I|]. destruct x as [|c x]; [discriminate I|]. apply andb_true_iff in I as [I _]. cbn [append first_is] in *.
      pose proof (all_ascii (fun c => implb (id_first c) (negb (Ascii.eqb "<" c))) eq_refl c) as K. cbv beta in K. rewrite I in K. apply negb_true_iff in K. exact K. }
    assert (E : ends " " (x ++ r)) by (constructor; [exact Fo|right; eauto]).
    destruct H as [s p H| | |z (abs & qs & y & -> & Iy & Py)].
    - destruct (string_dec s "octet") as [->|NO].
      + destruct (ok_word_type "octet" (x ++ r)) as (a & O); [auto|]. exists a, " ". auto.
      + destruct (ok_const_name s p " " (x ++ r) H NO E) as (a & O). exists a, "". auto.
    - eexists. exists "". split; [reflexivity|]. drill. exact (ok_string R_KW_STRING R_STRING_SIZE "string" " " (x ++ r) ltac:(kw) eq_refl Fo).
    - destruct (ok_word_type "any" (x ++ r)) as (a & O); [auto|]. exists a, " ". auto.
    - destruct (ok_scoped_type abs qs y (" " ++ x ++ r) Iy Py eq_refl eq_refl) as (a & O). exists a, " ". auto. }
  destruct Q as (a & w & W & O). eexists. exists w. split; [exact W|]. eapply ok_ref_node; [|reflexivity|reflexivity]. cbn [gram]. apply ok_alt_l, O.
Qed.
Lemma ok_annotation_member : forall s x d w r, value_type s -> plain x = true -> default_text d -> all_chars is_ws w = true -> solid r ->
  exists b, ok (Ref R_ANNOTATION_MEMBER) (s ++ " " ++ x ++ d ++ ";" ++ w ++ r) [b] [] r.
Proof.
  intros s x d w r H P D W So. pose proof (plain_ident _ P) as I.
  assert (Fd : first_is id_char (d ++ ";" ++ w ++ r) = false) by (destruct D; reflexivity).
  destruct (ok_value_type s x _ H P Fd) as (a & w0 & W0 & Oa).
  assert (Z : exists q w', all_chars is_ws w' = true /\ ok (Opt (Seq (Ref R_KW_DEFAULT) (Ref R_CONST_EXPR))) (d ++ ";" ++ w ++ r) q [] (w' ++ ";" ++ w ++ r)).
  { destruct D as [|v wv V Wv].
    - exists [], "". split; [reflexivity|]. apply ok_opt_none. no_by_text.
    - destruct (ok_value v wv ";" (w ++ r) V Wv eq_refl) as [[Sv _] (b & w' & W' & Ob)]. exists [b], w'. split; [exact W'|]. rewrite !app_assoc_s.
      exact (ok_opt_some _ _ _ _ _ (ok_seq _ _ _ [] [] _ [b] [] _ (ok_keyword R_KW_DEFAULT "default" " " " " _ ltac:(kw) eq_refl eq_refl Sv eq_refl) Ob)). }
  destruct Z as (q & w' & W' & Oq). eexists. eapply ok_ref_node; [|reflexivity|reflexivity]. cbn [gram].
  refine (ok_seq _ _ _ [] [] _ _ [] _ (opt_ws0 _ (proj1 (value_type_start s H _))) _).
  refine (ok_seq _ _ _ [a] [] _ _ [] _ Oa _). refine (ok_seq _ _ _ [] [] _ _ [] _ (opt_ws w0 _ W0 (ident_solid _ _ I)) _).
  refine (ok_seq _ _ _ [_] [] _ _ [] _ (ok_ref_node R_SIMPLE_DECLARATOR _ _ _ _ (ok_ident x _ I Fd) eq_refl eq_refl) _).
  refine (ok_seq _ _ _ q [] _ [] [] _ Oq (ok_punct R_SEMICOLON ";" w' w r _ eq_refl W' W So)). kw.
Qed.
Lemma ok_values : forall v, values_text v -> forall r, exists l, ok (Ref R_ANNOTATION_BODY) (v ++ "}" ++ r) [Ast R_ANNOTATION_BODY R_ANNOTATION_BODY "" l] [] ("}" ++ r).
Proof.
  intros v H r. enough (Q : exists l, ok (gram R_ANNOTATION_BODY) (v ++ "}" ++ r) l [] ("}" ++ r)) by (destruct Q as (l & Q); exists l; eapply ok_ref_node; [exact Q|reflexivity|reflexivity]).
  cbn [gram]. induction H as [|s x d w v Hs Hx Hd W H IH].
  - exists []. apply ok_star_end. no_by_text.
  - destruct IH as (l & O). rewrite !app_assoc_s. destruct (ok_annotation_member s x d w (v ++ "}" ++ r) Hs Hx Hd W (values_solid v ("}" ++ r) H eq_refl)) as (b & Ob).
    exists (b :: l). refine (ok_star_more _ _ [b] [] _ l [] _ _ O). apply ok_alt_l, Ob.
Qed.
