(** The texts of FreeSpec are matched by the grammar. *)
From Verif Require Import Base Types TypeBuild Mem Hash MapOps Ops IntOps ModuleSpec ModuleFacts Module IntSpec IntFacts Peg0 Grammar Peg PegFacts PegRules IdlParse IdlParseFacts GenIdl GenSpec TypeText StructText StructRead NumText IdlLitFacts IdlLit IdlExpr GrowFacts FreeSpec.
Local Open Scope string_scope.

(** *** Keywords of several words *)
Record ends (w s : string) : Prop := {
  e_follows :> follows w s; e_word : first_is id_first s = false \/ exists y r, s = y ++ r /\ plain y = true /\ first_is id_char r = false }.
Lemma ok_tok_any : forall e s ns ts r, ok e s ns ts r -> exists x, ok (Tok e) s ns (x :: ts) r.
Proof. intros e s ns ts r (n & c & H). exists c, (S n), c. rewrite peg_eq, H. reflexivity. Qed.
Lemma ok_ws : forall c w s, is_ws c = true -> all_chars is_ws w = true -> solid s -> ok (Ref R_WS) (String c w ++ s) [] [] s.
Proof.
  intros c w s C W S. eapply ok_ref_ignored; [|reflexivity]. cbn [gram]. apply ok_alt_r; [apply no_comment; [cbn [all_chars]; rewrite C; exact W|exact S]|].
  assert (F : first_is is_ws s = false) by (destruct s as [|d s]; [reflexivity|]; apply solid_char in S as [S _]; exact S).
  exact (ok_plus _ _ [] [] _ [] [] _ (ok_cls _ c (w ++ s) C) (star_class _ w s W F)).
Qed.
(** Behind the first word: no second word, or an identifier that goes on. *)
Lemma second_word : forall w s k, ends w s -> In k keywords -> is_ident k = true ->
  no (Seq (Ref R_WS) (Lit k)) (w ++ s) \/ exists r, ok (Seq (Ref R_WS) (Lit k)) (w ++ s) [] [] r /\ no (Ref R_END_KW) r.
Proof.
  intros w s k [F W] K I. destruct w as [|c w]; [left; apply no_seq_l, no_ws, (f_solid _ _ F)|].
  pose proof (f_ws _ _ F) as Hw. cbn [all_chars] in Hw. apply andb_true_iff in Hw as [Hc Hw]. pose proof (ok_ws c w s Hc Hw (f_solid _ _ F)) as Ow.
  apply andb_true_iff in I as [K1 K2]. destruct W as [W|(y & r & -> & P & Fr)].
  - left. eapply no_seq_r; [exact Ow|]. apply no_lit. destruct k as [|a k]; [discriminate K1|]. destruct s as [|d s]; [reflexivity|]. cbn [after first_is] in *. destruct (Ascii.eqb_spec a d) as [->|]; [congruence|reflexivity].
  - pose proof (plain_clash _ _ P K) as C. unfold clash in C. destruct (after k y) as [z|] eqn:E.
    + right. exists (z ++ r). apply negb_false_iff in C. split.
      * refine (ok_seq _ _ _ [] [] _ [] [] _ Ow (ok_lit _ _ _ _)). rewrite after_prefix, E; [reflexivity|exact K2|exact Fr].
      * apply no_ref. cbn [gram]. destruct z as [|d z]; [discriminate C|]. cbn [first_is] in C. eapply no_not, (ok_ident (String d z)); [|exact Fr].
        unfold is_ident. cbn [first_is]. rewrite C. cbn [andb]. apply plain_ident in P. apply andb_true_iff in P as [_ P]. rewrite (after_app _ _ _ E) in P. clear - P. revert P. induction k as [|a k IH]; [auto|]. cbn [append all_chars]. intros H. apply andb_true_iff in H as [_ H]. auto.
    + left. eapply no_seq_r; [exact Ow|]. apply no_lit. rewrite after_prefix, E; [reflexivity|exact K2|exact Fr].
Qed.
Definition words (q : rule) (e : exp rule) : Prop := gram q = Seq (Opt (Ref R_WS)) (Seq (Tok e) (Seq (Ref R_END_KW) (Opt (Ref R_WS)))) /\ ignored q = true.
Lemma ok_words : forall q e x w s, words q e -> ok e (x ++ w ++ s) [] [] (w ++ s) -> solid (x ++ w ++ s) -> follows w s -> ok (Ref q) (x ++ w ++ s) [] [] s.
Proof.
  intros q e x w s (G & I) O S F. eapply ok_ref_ignored; [|exact I]. rewrite G.
  refine (ok_seq _ _ _ [] [] _ [] _ _ (opt_ws0 _ S) _). refine (ok_seq _ _ _ [] _ _ [] [] _ (ok_tok _ x [] [] _ O) _).
  exact (ok_seq _ _ _ [] [] _ [] [] _ (end_kw _ (not_first _ (f_id _ _ F))) (opt_ws w s (f_ws _ _ F) (f_solid _ _ F))).
Qed.
Lemma no_words2 : forall q k k' x w s, words q (Seq (Lit k) (Seq (Ref R_WS) (Lit k'))) -> x = k -> is_ident k = true -> In k' keywords -> is_ident k' = true -> ends w s -> no (Ref q) (x ++ w ++ s).
Proof.
  intros q k k' x w s (G & I) -> K K' I' E. apply no_ref. rewrite G. eapply no_seq_r; [apply opt_ws0, ident_solid, K|].
  assert (O : ok (Lit k) (k ++ w ++ s) [] [] (w ++ s)) by (apply ok_lit, after_self).
  destruct (second_word w s k' E K' I') as [H|(r & H & H')].
  - apply no_seq_l, no_tok. eapply no_seq_r; [exact O|exact H].
  - pose proof (ok_seq _ _ _ _ _ _ _ _ _ O H) as Q. apply ok_tok_any in Q as (y & Q). eapply no_seq_r; [exact Q|]. apply no_seq_l, H'.
Qed.
Lemma no_words3 : forall q w s, words q (Seq (Lit "unsigned") (Seq (Ref R_WS) (Seq (Lit "long") (Seq (Ref R_WS) (Lit "long"))))) -> ends w s -> no (Ref q) ("unsigned long" ++ w ++ s).
Proof.
  intros q w s (G & I) E. apply no_ref. rewrite G. eapply no_seq_r; [apply opt_ws0; reflexivity|].
  assert (O : ok (Lit "unsigned") ("unsigned long" ++ w ++ s) [] [] (" long" ++ w ++ s)) by (apply ok_lit; reflexivity).
  assert (O1 : ok (Ref R_WS) (" long" ++ w ++ s) [] [] ("long" ++ w ++ s)) by (apply (ok_ws " " ""); reflexivity).
  assert (O2 : ok (Lit "long") ("long" ++ w ++ s) [] [] (w ++ s)) by (apply ok_lit; reflexivity).
  destruct (second_word w s "long" E ltac:(in_keywords) eq_refl) as [H|(r & H & H')].
  - apply no_seq_l, no_tok. eapply no_seq_r; [exact O|]. eapply no_seq_r; [exact O1|]. eapply no_seq_r; [exact O2|exact H].
  - pose proof (ok_seq _ _ _ _ _ _ _ _ _ O (ok_seq _ _ _ _ _ _ _ _ _ O1 (ok_seq _ _ _ _ _ _ _ _ _ O2 H))) as Q. apply ok_tok_any in Q as (y & Q). eapply no_seq_r; [exact Q|]. apply no_seq_l, H'.
Qed.
Ltac two_words := eapply (ok_seq _ _ _ [] [] _ [] [] _); [apply ok_lit; reflexivity|]; eapply (ok_seq _ _ _ [] [] _ [] [] _); [apply (ok_ws " " ""); reflexivity|].
(** *** Basic types *)
Definition base_rule (s : string) (p : prim) : rule := if String.eqb s "octet" then R_OCTET_TYPE else prim_rule p.
Ltac no_text E := first [solve [no_by_text] | apply no_ref; cbn [gram]; no_text E | apply no_alt; no_text E | eapply no_words2; [kw|reflexivity|reflexivity|in_keywords|reflexivity|exact E] | apply no_words3; [kw|exact E]].
Ltac drill' E := repeat first
  [ apply ok_alt_r; [solve [no_text E]|]
  | apply ok_alt_l
  | eapply ok_ref_node; [|reflexivity|reflexivity]; cbn [gram] ].
Lemma ok_base_name : forall x p w s, In (x, p) base_names -> ends w s -> exists a, ok (Ref R_BASE_TYPE_SPEC) (x ++ w ++ s) [a] [] s /\ optimize a = Ast R_BASE_TYPE_SPEC (base_rule x p) "" [].
Proof.
  intros x p w s H E. pose proof (e_follows _ _ E) as F. pose proof (not_first _ (f_id _ _ F)) as NI.
  assert (K : forall q k, keyword q k -> ok (Ref q) (k ++ w ++ s) [] [] s).
  { intros q k Hk. exact (ok_keyword q k "" w s Hk eq_refl (f_ws _ _ F) (f_solid _ _ F) NI). }
  unfold base_names in H. cbn [In] in H.
  repeat (destruct H as [H|H]; [injection H as <- <-|]); [..|destruct H].
  1: eexists; split; [drill' E; apply (K R_KW_BOOLEAN "boolean"); kw|reflexivity].
  1: eexists; split; [drill' E; apply (K R_KW_OCTET "octet"); kw|reflexivity].
  1: eexists; split; [drill' E; apply (K R_KW_INT8 "int8"); kw|reflexivity].
  1: eexists; split; [drill' E; apply (K R_KW_UINT8 "uint8"); kw|reflexivity].
  1: eexists; split; [drill' E; apply (K R_KW_SHORT "short"); kw|reflexivity].
  1: eexists; split; [drill' E; apply (K R_KW_INT16 "int16"); kw|reflexivity].
  1: eexists; split; [drill' E; eapply (ok_words R_KW_UNSIGNED_SHORT _ "unsigned short"); [kw|two_words; apply ok_lit; reflexivity|reflexivity|exact F]|reflexivity].
  1: eexists; split; [drill' E; apply (K R_KW_UINT16 "uint16"); kw|reflexivity].
  1: eexists; split; [drill' E; apply (K R_KW_LONG "long"); kw|reflexivity].
  1: eexists; split; [drill' E; apply (K R_KW_INT32 "int32"); kw|reflexivity].
  1: eexists; split; [drill' E; eapply (ok_words R_KW_UNSIGNED_LONG _ "unsigned long"); [kw|two_words; apply ok_lit; reflexivity|reflexivity|exact F]|reflexivity].
  1: eexists; split; [drill' E; apply (K R_KW_UINT32 "uint32"); kw|reflexivity].
  1: eexists; split; [drill' E; eapply (ok_words R_KW_LONG_LONG _ "long long"); [kw|two_words; apply ok_lit; reflexivity|reflexivity|exact F]|reflexivity].
  1: eexists; split; [drill' E; apply (K R_KW_INT64 "int64"); kw|reflexivity].
  1: eexists; split; [drill' E; eapply (ok_words R_KW_UNSIGNED_LONG_LONG _ "unsigned long long"); [kw|two_words; two_words; apply ok_lit; reflexivity|reflexivity|exact F]|reflexivity].
  1: eexists; split; [drill' E; apply (K R_KW_UINT64 "uint64"); kw|reflexivity].
  1: eexists; split; [drill' E; apply (K R_KW_FLOAT "float"); kw|reflexivity].
  1: eexists; split; [drill' E; apply (K R_KW_DOUBLE "double"); kw|reflexivity].
  1: eexists; split; [drill' E; apply (ok_long_double w s (f_ws _ _ F) (f_solid _ _ F) NI)|reflexivity].
  1: eexists; split; [drill' E; apply (K R_KW_CHAR "char"); kw|reflexivity].
  1: eexists; split; [drill' E; apply (K R_KW_WCHAR "wchar"); kw|reflexivity].
Qed.
(** *** Bounds and dimensions *)
Lemma size_int : forall d q z, int_kind q = true -> is_int d q z -> int_of_data d = Ok (Some z).
Proof. intros d q z K H. destruct (is_int_operand d q z H) as (a & Ea & _ & Hz). unfold int_of_data. rewrite (proj1 H), K, Ea. cbn [bind]. rewrite <- Hz. reflexivity. Qed.
Lemma size_named : forall root p x b, (b < 2 ^ 32)%N -> names_size root p x b ->
  eventually (fun n => constant_dimension n root p x = Ok (Z.of_N b) /\ exists d, find_in n root p consts x = Ok (Some d)).
Proof.
  intros root p x b L (n & d & q & F & K & I). eapply ev_impl; [|apply (ev_steady _ (fun n => find_in n root p consts x) (Ok (Some d)) (steady_find _ _ _ _ _)); [exists n; exact F|discriminate]].
  intros m H. cbv beta in H. split; [|eauto]. unfold constant_dimension. rewrite H. cbn [bind]. rewrite (size_int _ _ _ K I). cbn [bind]. rewrite Z.mod_small by lia. reflexivity.
Qed.
Definition sized (K : string -> N -> Prop) (s : string) (b : N) (a : ast) : Prop :=
  (s = to_string b /\ optimize a = Ast R_POSITIVE_INT_CONST R_INTEGER_LITERAL s []) \/ (K s b /\ s <> "" /\ optimize a = Ast R_POSITIVE_INT_CONST R_SCOPED_NAME s []).
Lemma path_solid : forall abs qs x s, ident_path qs x -> solid (render abs qs x ++ s).
Proof. intros [] [|q qs] x s G; inversion G as [|? ? Hq _]; subst; cbn [render qualified]; rewrite ?app_assoc_s; (reflexivity || apply ident_solid, Hq). Qed.
Lemma size_solid : forall K top s b r, size_says K top s b -> solid (s ++ r).
Proof. intros K top s b r H. destruct H as [b L|abs qs x b L I H]; [apply number_solid|apply path_solid, I]. Qed.
Lemma no_number_name : forall abs qs x s, ident_path qs x -> no (Ref R_INTEGER_LITERAL) (render abs qs x ++ s).
Proof.
  intros [] qs x s I; cbn [render]; [no_by_text|]. assert (X : exists c r, qualified qs x ++ s = String c r /\ id_first c = true).
  { destruct qs as [|q qs]; inversion I as [|? ? H _]; subst; cbn [qualified]; [destruct x as [|c x]|destruct q as [|c q]]; try discriminate H; apply andb_true_iff in H as [H _]; cbn [append]; eauto. }
  destruct X as (c & r & -> & C). assert (D : Ascii.eqb "0" c = false /\ in_class c [("1", "9")]%char = false).
  { pose proof (all_ascii (fun c => implb (id_first c) (negb (Ascii.eqb "0" c) && negb (in_class c [("1", "9")]%char))) eq_refl c) as K. cbv beta in K. rewrite C in K. apply andb_true_iff in K as [K1 K2]. split; apply negb_true_iff; assumption. }
  destruct D as [D0 D1].
  assert (L0 : forall t, no (Lit "0") (String c t)) by (intros t; apply no_lit; cbn [after]; rewrite D0; reflexivity).
  apply no_ref. cbn [gram]. apply no_tok. apply no_alt; [|apply no_alt]; apply no_ref; cbn [gram].
  - apply no_seq_l, L0.
  - apply no_seq_l, L0.
  - apply no_alt; [|apply L0]. apply no_seq_l, no_cls. intros c' r' E. injection E as <- _. exact D1.
Qed.
Lemma ok_size_says : forall K top s b r, size_says K top s b -> num_end r -> first_is id_char r = false -> after "::" r = None -> exists a, ok (Ref R_POSITIVE_INT_CONST) (s ++ r) [a] [] r /\ sized K s b a.
Proof.
  intros K top s b r H N F C. destruct H as [b L|abs qs x b L I H].
  - eexists. split; [apply ok_positive, N|]. left. split; [reflexivity|]. reflexivity.
  - eexists. split; [eapply ok_ref_node; [|reflexivity|reflexivity]; cbn [gram]; apply ok_alt_r; [apply no_number_name, I|apply ok_absolute; [exact I|exact F|exact C]]|].
    right. split; [exact H|]. split; [|reflexivity]. destruct abs; [discriminate|]. destruct qs as [|q qs]; inversion I as [|? ? Q _]; subst; cbn [render qualified]; [destruct x|destruct q]; discriminate Q || discriminate.
Qed.
Lemma number_nonempty : forall b, to_string b <> "".
Proof. intros b E. destruct (number_cons b) as (c & r & E' & _). congruence. Qed.
Lemma size_dimension : forall (K : string -> N -> Prop) root p s b a o, (b < 2 ^ 32)%N -> sized K s b a -> (K s b -> names_size root p s b) -> eventually (fun n => get_dimension n root p (with_orig o (optimize a)) = Ok (Z.of_N b)).
Proof.
  intros K root p s b a o L [[-> ->]|(H & NE & ->)] M.
  - exists O. intros n _. unfold get_dimension. cbn [with_orig a_tag a_tok]. rewrite stoul_to_string by lia. destruct (String.eqb_spec (to_string b) ""); [destruct (number_nonempty _ e)|reflexivity].
  - eapply ev_impl; [|apply (size_named _ _ _ _ L (M H))]. intros n [Q _]. exact Q.
Qed.
Lemma size_less : forall K top s b, size_says K top s b -> (b < top)%N.
Proof. intros K top s b []; assumption. Qed.
Lemma number_none : forall root p b, exists_module root p = true -> idents_only root p -> eventually (fun n => find_in n root p consts (to_string b) = Ok None).
Proof.
  intros root p b E I. apply not_symbol_const; [exact E|apply digits_no_colon, to_string_spec|].
  destruct (has_symbol root p (to_string b)) eqn:H; [|reflexivity]. apply I in H. rewrite number_not_ident in H. discriminate H.
Qed.
Lemma empty_none : forall root p, exists_module root p = true -> idents_only root p -> eventually (fun n => find_in n root p consts "" = Ok None).
Proof. intros root p E I. apply not_symbol_const; [exact E|reflexivity|]. destruct (has_symbol root p "") eqn:H; [|reflexivity]. apply I in H. discriminate H. Qed.

(** *** Types *)
Section Types.
  Variables (T : string -> ty -> Prop) (K : string -> N -> Prop).
  Definition known_at (root : modl) (p : place) : Prop := exists_module root p = true /\ idents_only root p /\ (forall s t, T s t -> names_type root p s t) /\ (forall s b, K s b -> names_size root p s b).
  Definition means (a : ast) (t : ty) : Prop := forall c root p, usual c -> known_at root p -> eventually (fun n => type_spec n c root p a = Ok t).
  Lemma means_orig : forall o a t, means a t -> means (with_orig o a) t.
  Proof. intros o [o' tag k l] t H c root p U N. eapply ev_impl; [|exact (H c root p U N)]. intros n Q. exact Q. Qed.
  Lemma says_first : forall s t, type_says T K s t -> exists c r, s = String c r /\ text_first c = true.
  Proof.
    intros s t H. destruct H as [s p H| |s b H| |b H|s t H|s t d b H D|k kt v vt H H'|k kt v vt d b H H' D|s t P H]; try (cbn; eauto; fail).
    - unfold base_names in H. cbn [In] in H. repeat (destruct H as [H|H]; [injection H as <- <-; eauto|]). destruct H.
    - apply scoped_first, P.
  Qed.
  Lemma says_solid : forall s t r, type_says T K s t -> solid (s ++ r).
  Proof. intros s t r H. destruct (says_first s t H) as (c & q & -> & I). apply text_first_solid, I. Qed.
  Lemma spec_says : forall x t, (forall w s, ends w s -> exists a w', (w' = "" \/ w' = w) /\ ok any_type (x ++ w ++ s) [a] [] (w' ++ s) /\ means (optimize a) t) ->
    (forall s, solid (x ++ s)) -> forall w s, ends w s ->
    exists a, ok (Ref R_TYPE_SPEC) (x ++ w ++ s) [a] [] s /\ means (optimize a) t /\ a_orig (optimize a) = R_TYPE_SPEC.
  Proof.
    intros x t H R w s F. destruct (H w s F) as (a & w' & W' & O & D). eexists. split; [|split].
    - eapply ok_ref_node; [|reflexivity|reflexivity]. cbn [gram].
      refine (ok_seq _ _ _ [] [] _ [a] [] _ (opt_ws0 _ (R _)) _).
      refine (ok_seq _ _ _ [a] [] _ [] [] _ O (opt_ws w' s _ (f_solid _ _ F))). destruct W' as [->| ->]; [reflexivity|apply (f_ws _ _ F)].
    - cbn [app]. rewrite optimize_one. apply means_orig, D.
    - cbn [app]. rewrite optimize_one. apply with_orig_sub.
  Qed.
  Definition no_template (x : string) : Prop := forall r, no (Ref R_TEMPLATE_TYPE_SPEC) (x ++ r).
  Lemma base_no_template : forall x p, In (x, p) base_names -> no_template x.
  Proof. intros x p H r. unfold base_names in H. cbn [In] in H. repeat (destruct H as [H|H]; [injection H as <- <-; no_by_text|]). destruct H. Qed.
  Lemma base_means : forall x p o, In (x, p) base_names -> means (Ast o (base_rule x p) "" []) (TPrim p).
  Proof.
    intros x p o H c root q (C & W & _) _. exists O. intros n _. unfold base_names in H. cbn [In] in H.
    repeat (destruct H as [H|H]; [injection H as <- <-; cbn [type_spec base_rule]; try reflexivity|]); [cbn; rewrite C; reflexivity|cbn; rewrite W; reflexivity|destruct H].
  Qed.
  Lemma ends_gt : forall s, ends "" (">" ++ s).
  Proof. intros s; constructor; [constructor; reflexivity|left; reflexivity]. Qed.
  Lemma ends_comma : forall s, ends "" (", " ++ s).
  Proof. intros s; constructor; [constructor; reflexivity|left; reflexivity]. Qed.
  (** A string with a bound. *)
  Lemma ok_string_of : forall q q' k top s b w r, keyword q k -> gram q' = Seq (Ref R_OPEN_ANG_BRACKET) (Seq (Tok (Ref R_POSITIVE_INT_CONST)) (Ref R_CLOSE_ANG_BRACKET)) -> ignored q' = false -> is_token_rule q' = true ->
    size_says K top s b -> follows w r -> ok (Seq (Ref q) (Opt (Ref q'))) (k ++ "<" ++ s ++ ">" ++ w ++ r) [Ast q' q' s []] [] r.
  Proof.
    intros q q' k top s b w r Kw G I Tk H F. destruct (ok_size_says K top s b (">" ++ w ++ r) H eq_refl eq_refl eq_refl) as (a & O & _).
    refine (ok_seq _ _ _ [] [] _ [_] [] _ (ok_keyword q k "" "" _ Kw eq_refl eq_refl _ _) (ok_opt_some _ _ _ _ _ (ok_ref_token q' _ _ s [] r _ I Tk))); try reflexivity. rewrite G.
    refine (ok_seq _ _ _ [] [] _ _ _ _ (ok_open R_OPEN_ANG_BRACKET "<" _ _ _ _) _); [kw|reflexivity|eapply size_solid, H|].
    refine (ok_seq _ _ _ _ [s] (">" ++ w ++ r) [] [] _ (ok_tok _ s _ [] _ O) (ok_close R_CLOSE_ANG_BRACKET ">" w r _ _ (f_ws _ _ F) (f_solid _ _ F))); [kw|reflexivity].
  Qed.
  Lemma ok_string : forall q q' k w r, keyword q k -> gram q' = Seq (Ref R_OPEN_ANG_BRACKET) (Seq (Tok (Ref R_POSITIVE_INT_CONST)) (Ref R_CLOSE_ANG_BRACKET)) -> follows w r ->
    ok (Seq (Ref q) (Opt (Ref q'))) (k ++ w ++ r) [] [] r.
  Proof.
    intros q q' k w r Kw G F. refine (ok_seq _ _ _ [] [] _ [] [] _ (ok_keyword q k "" w r Kw eq_refl (f_ws _ _ F) (f_solid _ _ F) (not_first _ (f_id _ _ F))) (ok_opt_none _ _ _)).
    apply no_ref. rewrite G. apply no_seq_l. apply (no_punct R_OPEN_ANG_BRACKET "<" "" r); [kw|reflexivity|exact (f_solid _ _ F)|apply (f_angle _ _ F)].
  Qed.
  (** The bound of a collection. *)
  Definition bound_nodes (q : rule) (l : list ast) : ast := Ast q q "" l.
  Lemma ok_no_bound : forall q s, gram q = Opt (Ref R_COLLECTION_SIZE) -> ignored q = false -> is_token_rule q = false -> ok (Ref q) (">" ++ s) [Ast q q "" []] [] (">" ++ s).
  Proof. intros q s G I Tk. eapply ok_ref_node; [rewrite G|exact I|exact Tk]. apply ok_opt_none. no_by_text. Qed.
  Lemma ok_bound : forall q d b s, gram q = Opt (Ref R_COLLECTION_SIZE) -> ignored q = false -> is_token_rule q = false -> size_says K (2 ^ 32) d b ->
    exists a, ok (Ref q) (", " ++ d ++ ">" ++ s) [Ast q q "" [Ast R_COLLECTION_SIZE R_COLLECTION_SIZE "" [a]]] [] (">" ++ s) /\ sized K d b a.
  Proof.
    intros q d b s G I Tk H. destruct (ok_size_says K _ d b (">" ++ s) H eq_refl eq_refl eq_refl) as (a & O & Z). exists a. split; [|exact Z].
    eapply ok_ref_node; [rewrite G|exact I|exact Tk]. apply ok_opt_some. eapply ok_ref_node; [|reflexivity|reflexivity]. cbn [gram].
    refine (ok_seq _ _ _ [] [] _ [_] [] _ (ok_close R_COMMA "," " " _ _ _ _ _) O); [kw|reflexivity|reflexivity|eapply size_solid, H].
  Qed.
  Lemma bound_dimension : forall root p q d b a, known_at root p -> size_says K (2 ^ 32) d b -> sized K d b a -> eventually (fun n => get_dimension n root p (optimize (Ast q q "" [Ast R_COLLECTION_SIZE R_COLLECTION_SIZE "" [a]])) = Ok (Z.of_N b)).
  Proof.
    intros root p q d b a (_ & _ & _ & N) H Z. rewrite !optimize_one, with_orig_twice. eapply size_dimension; [eapply size_less, H|exact Z|apply N].
  Qed.
  Lemma no_bound_dimension : forall n root p q, q <> R_SCOPED_NAME -> get_dimension n root p (optimize (Ast q q "" [])) = Ok 0%Z.
  Proof. intros n root p q NE. destruct q; first [reflexivity|congruence]. Qed.
  Lemma seq_means : forall a t z d, means (optimize a) t -> (d < 2 ^ 32)%N -> (forall root p, known_at root p -> eventually (fun n => get_dimension n root p (optimize z) = Ok (Z.of_N d))) ->
    means (optimize (Ast R_TEMPLATE_TYPE_SPEC R_TEMPLATE_TYPE_SPEC "" [Ast R_SEQUENCE_TYPE R_SEQUENCE_TYPE "" [Ast R_SEQUENCE_INNER_TYPE R_SEQUENCE_INNER_TYPE "" [a]; z]])) (TSeq t d).
  Proof.
    intros a t z d M L Z c root p U N. eapply ev_impl; [|apply (ev_and _ _ (means_orig R_SEQUENCE_INNER_TYPE _ _ M c root p U N) (Z root p N))]. intros n [Q1 Q2]. cbv beta in Q1, Q2.
    rewrite optimize_one. cbn [optimize map with_orig type_spec].
    change (match optimize a with Ast _ t' k' l' => Ast R_SEQUENCE_INNER_TYPE t' k' l' end) with (with_orig R_SEQUENCE_INNER_TYPE (optimize a)). rewrite Q1. cbn [bind]. rewrite Q2. cbn [bind]. rewrite to_u32_small by exact L. reflexivity.
  Qed.
  Lemma map_means : forall a t a' t' z d, means (optimize a) t -> means (optimize a') t' -> (d < 2 ^ 32)%N -> (forall root p, known_at root p -> eventually (fun n => get_dimension n root p (optimize z) = Ok (Z.of_N d))) ->
    means (optimize (Ast R_TEMPLATE_TYPE_SPEC R_TEMPLATE_TYPE_SPEC "" [Ast R_MAP_TYPE R_MAP_TYPE "" [Ast R_MAP_KEY_TYPE R_MAP_KEY_TYPE "" [a]; Ast R_MAP_INNER_TYPE R_MAP_INNER_TYPE "" [a']; z]])) (TMap t t' d).
  Proof.
    intros a t a' t' z d M M' L Z c root p U N.
    eapply ev_impl; [|apply (ev_and _ _ (ev_and _ _ (means_orig R_MAP_KEY_TYPE _ _ M c root p U N) (means_orig R_MAP_INNER_TYPE _ _ M' c root p U N)) (Z root p N))]. intros n [[Q1 Q1'] Q2]. cbv beta in Q1, Q1', Q2.
    rewrite optimize_one. cbn [optimize map with_orig type_spec].
    change (match optimize a with Ast _ t' k' l' => Ast R_MAP_KEY_TYPE t' k' l' end) with (with_orig R_MAP_KEY_TYPE (optimize a)).
    change (match optimize a' with Ast _ t' k' l' => Ast R_MAP_INNER_TYPE t' k' l' end) with (with_orig R_MAP_INNER_TYPE (optimize a')).
    rewrite Q1. cbn [bind]. rewrite Q1'. cbn [bind]. rewrite Q2. cbn [bind]. rewrite to_u32_small by exact L. reflexivity.
  Qed.
  Lemma ok_seq_type : forall x b a z w s, solid (x ++ b ++ ">" ++ w ++ s) -> ok (Ref R_TYPE_SPEC) (x ++ b ++ ">" ++ w ++ s) [a] [] (b ++ ">" ++ w ++ s) -> ok (Ref R_SEQUENCE_SIZE) (b ++ ">" ++ w ++ s) [z] [] (">" ++ w ++ s) -> follows w s ->
    ok any_type ("sequence<" ++ x ++ b ++ ">" ++ w ++ s) [Ast R_TEMPLATE_TYPE_SPEC R_TEMPLATE_TYPE_SPEC "" [Ast R_SEQUENCE_TYPE R_SEQUENCE_TYPE "" [Ast R_SEQUENCE_INNER_TYPE R_SEQUENCE_INNER_TYPE "" [a]; z]]] [] s.
  Proof.
    intros x b a z w s So O Z F. apply ok_alt_l. eapply ok_ref_node; [|reflexivity|reflexivity]. cbn [gram]. apply ok_alt_r; [no_by_text|]. apply ok_alt_l.
    eapply ok_ref_node; [|reflexivity|reflexivity]. cbn [gram].
    refine (ok_seq _ _ _ [] [] _ _ [] _ (ok_keyword R_KW_SEQUENCE "sequence" "" "" _ _ eq_refl eq_refl _ _) _); [kw|reflexivity|reflexivity|].
    refine (ok_seq _ _ _ [] [] _ _ [] _ (ok_open R_OPEN_ANG_BRACKET "<" _ _ _ So) _); [kw|reflexivity|].
    refine (ok_seq _ _ _ [_] [] _ _ [] _ (ok_ref_node R_SEQUENCE_INNER_TYPE _ _ _ _ O eq_refl eq_refl) _).
    refine (ok_seq _ _ _ [_] [] _ [] [] _ Z (ok_close R_CLOSE_ANG_BRACKET ">" w s _ eq_refl (f_ws _ _ F) (f_solid _ _ F))). kw.
  Qed.
  Lemma ok_map_type : forall k v b ak av z w s, solid (k ++ ", " ++ v ++ b ++ ">" ++ w ++ s) -> solid (v ++ b ++ ">" ++ w ++ s) ->
    ok (Ref R_TYPE_SPEC) (k ++ ", " ++ v ++ b ++ ">" ++ w ++ s) [ak] [] (", " ++ v ++ b ++ ">" ++ w ++ s) -> ok (Ref R_TYPE_SPEC) (v ++ b ++ ">" ++ w ++ s) [av] [] (b ++ ">" ++ w ++ s) ->
    ok (Ref R_MAP_SIZE) (b ++ ">" ++ w ++ s) [z] [] (">" ++ w ++ s) -> follows w s ->
    ok any_type ("map<" ++ k ++ ", " ++ v ++ b ++ ">" ++ w ++ s) [Ast R_TEMPLATE_TYPE_SPEC R_TEMPLATE_TYPE_SPEC "" [Ast R_MAP_TYPE R_MAP_TYPE "" [Ast R_MAP_KEY_TYPE R_MAP_KEY_TYPE "" [ak]; Ast R_MAP_INNER_TYPE R_MAP_INNER_TYPE "" [av]; z]]] [] s.
  Proof.
    intros k v b ak av z w s Sk Sv Ok_ Ov Z F. apply ok_alt_l. eapply ok_ref_node; [|reflexivity|reflexivity]. cbn [gram]. apply ok_alt_l.
    eapply ok_ref_node; [|reflexivity|reflexivity]. cbn [gram].
    refine (ok_seq _ _ _ [] [] _ _ [] _ (ok_keyword R_KW_MAP "map" "" "" _ _ eq_refl eq_refl _ _) _); [kw|reflexivity|reflexivity|].
    refine (ok_seq _ _ _ [] [] _ _ [] _ (ok_open R_OPEN_ANG_BRACKET "<" _ _ _ Sk) _); [kw|reflexivity|].
    refine (ok_seq _ _ _ [_] [] _ _ [] _ (ok_ref_node R_MAP_KEY_TYPE _ _ _ _ Ok_ eq_refl eq_refl) _).
    refine (ok_seq _ _ _ [] [] _ _ [] _ (ok_close R_COMMA "," " " _ _ _ eq_refl Sv) _); [kw|reflexivity|].
    refine (ok_seq _ _ _ [_] [] _ _ [] _ (ok_ref_node R_MAP_INNER_TYPE _ _ _ _ Ov eq_refl eq_refl) _).
    refine (ok_seq _ _ _ [_] [] _ [] [] _ Z (ok_close R_CLOSE_ANG_BRACKET ">" w s _ eq_refl (f_ws _ _ F) (f_solid _ _ F))). kw.
  Qed.
  Lemma ok_says : forall x t, type_says T K x t -> forall w s, ends w s -> exists a w', (w' = "" \/ w' = w) /\ ok any_type (x ++ w ++ s) [a] [] (w' ++ s) /\ means (optimize a) t.
  Proof.
    intros x t H. induction H as [x p H| |x b H| |b H|x t H IH|x t d b H IH D|k kt v vt H IH H' IH'|k kt v vt d b H IH H' IH' D|x t P H]; intros w s E; pose proof (e_follows _ _ E) as F.
    - destruct (ok_base_name x p w s H E) as (a & O & Q). eexists _, "". split; [left; reflexivity|]. split.
      + apply ok_alt_r; [eapply base_no_template, H|]. eapply ok_ref_node; [|reflexivity|reflexivity]. cbn [gram]. apply ok_alt_l. exact O.
      + rewrite optimize_one, Q. cbn [with_orig]. apply base_means, H.
    - eexists _, "". split; [left; reflexivity|]. split.
      + apply ok_alt_l. eapply ok_ref_node; [|reflexivity|reflexivity]. cbn [gram]. drill. apply (ok_string R_KW_STRING R_STRING_SIZE "string"); [kw|reflexivity|exact F].
      + intros c root p U N. exists O. reflexivity.
    - eexists _, "". split; [left; reflexivity|]. split.
      + apply ok_alt_l. change (("string<" ++ x ++ ">") ++ w ++ s) with ("string" ++ "<" ++ (x ++ ">") ++ w ++ s). rewrite app_assoc_s. eapply ok_ref_node; [|reflexivity|reflexivity]. cbn [gram]. drill.
        apply (ok_string_of R_KW_STRING R_STRING_SIZE "string" _ x b w s ltac:(kw) eq_refl eq_refl eq_refl H F).
      + intros c root p U (E1 & E2 & N1 & N2). cbn [app]. rewrite !optimize_one. cbn [optimize map with_orig].
        pose proof (size_less _ _ _ _ H) as L. destruct H as [b _|abs qs y b _ I H].
        * eapply ev_impl; [|apply (number_none root p b E1 E2)]. intros n Q. cbv beta in Q. cbn [type_spec]. rewrite Q. cbn [bind]. rewrite atoi_to_string by exact L. cbn [bind]. unfold string_type. rewrite to_u32_small by lia. reflexivity.
        * eapply ev_impl; [|apply (size_named root p _ b ltac:(lia) (N2 _ _ H))]. intros n [Q1 (d & Q2)]. cbn [type_spec]. rewrite Q2. cbn [bind]. rewrite Q1. cbn [bind]. unfold string_type. rewrite to_u32_small by lia. reflexivity.
    - eexists _, "". split; [left; reflexivity|]. split.
      + apply ok_alt_l. eapply ok_ref_node; [|reflexivity|reflexivity]. cbn [gram]. drill. apply (ok_string R_KW_WSTRING R_WSTRING_SIZE "wstring"); [kw|reflexivity|exact F].
      + intros c root p (_ & U & _) (E1 & E2 & _). cbn [app]. rewrite !optimize_one. cbn [optimize map with_orig]. eapply ev_impl; [|apply (empty_none root p E1 E2)]. intros n Q. cbv beta in Q. cbn [type_spec]. rewrite Q. cbn [bind]. unfold wide_kind. rewrite U. reflexivity.
    - assert (Hs : size_says K (2 ^ 31) (to_string b) b) by (constructor; exact H). eexists _, "". split; [left; reflexivity|]. split.
      + apply ok_alt_l. change (("wstring<" ++ to_string b ++ ">") ++ w ++ s) with ("wstring" ++ "<" ++ (to_string b ++ ">") ++ w ++ s). rewrite app_assoc_s. eapply ok_ref_node; [|reflexivity|reflexivity]. cbn [gram]. drill.
        apply (ok_string_of R_KW_WSTRING R_WSTRING_SIZE "wstring" _ _ b w s ltac:(kw) eq_refl eq_refl eq_refl Hs F).
      + intros c root p (_ & U & _) (E1 & E2 & N1 & N2). cbn [app]. rewrite !optimize_one. cbn [optimize map with_orig]. exists O. intros n _. cbn [type_spec].
        rewrite atoi_to_string by exact H. cbn [bind]. unfold string_type, wide_kind. rewrite U, to_u32_small by lia. reflexivity.
    - destruct (spec_says x t IH (fun r => says_solid x t r H) "" (">" ++ w ++ s) (ends_gt _)) as (a & O & M & _). eexists _, "". split; [left; reflexivity|]. split.
      + rewrite !app_assoc_s. apply (ok_seq_type x "" a (Ast R_SEQUENCE_SIZE R_SEQUENCE_SIZE "" []) w s); [eapply says_solid, H|exact O|apply ok_no_bound; reflexivity|exact F].
      + eapply (seq_means a t _ 0%N); [exact M|lia|]. intros root p _. exists 0%nat. intros n _. apply no_bound_dimension. discriminate.
    - destruct (spec_says x t IH (fun r => says_solid x t r H) "" (", " ++ d ++ ">" ++ w ++ s) (ends_comma _)) as (a & O & M & _). destruct (ok_bound R_SEQUENCE_SIZE d b (w ++ s) eq_refl eq_refl eq_refl D) as (z & Oz & Z).
      eexists _, "". split; [left; reflexivity|]. split.
      + replace (("sequence<" ++ x ++ ", " ++ d ++ ">") ++ w ++ s) with ("sequence<" ++ x ++ (", " ++ d) ++ ">" ++ w ++ s) by (rewrite !app_assoc_s; reflexivity).
        eapply (ok_seq_type x (", " ++ d) a _ w s); rewrite ?app_assoc_s; [eapply says_solid, H|exact O|exact Oz|exact F].
      + apply (seq_means a t _ b M (size_less _ _ _ _ D)). intros root p N. exact (bound_dimension root p _ d b z N D Z).
    - destruct (spec_says v vt IH' (fun r => says_solid v vt r H') "" (">" ++ w ++ s) (ends_gt _)) as (av & Ov & Mv & _).
      destruct (spec_says k kt IH (fun r => says_solid k kt r H) "" (", " ++ v ++ ">" ++ w ++ s) (ends_comma _)) as (ak & Ok_ & Mk & _). eexists _, "". split; [left; reflexivity|]. split.
      + rewrite !app_assoc_s. apply (ok_map_type k v "" ak av (Ast R_MAP_SIZE R_MAP_SIZE "" []) w s); [eapply says_solid, H|eapply says_solid, H'|exact Ok_|exact Ov|apply ok_no_bound; reflexivity|exact F].
      + apply (map_means ak kt av vt _ 0%N Mk Mv); [lia|]. intros root p _. exists 0%nat. intros n _. apply no_bound_dimension. discriminate.
    - destruct (spec_says v vt IH' (fun r => says_solid v vt r H') "" (", " ++ d ++ ">" ++ w ++ s) (ends_comma _)) as (av & Ov & Mv & _). destruct (ok_bound R_MAP_SIZE d b (w ++ s) eq_refl eq_refl eq_refl D) as (z & Oz & Z).
      destruct (spec_says k kt IH (fun r => says_solid k kt r H) "" (", " ++ v ++ ", " ++ d ++ ">" ++ w ++ s) (ends_comma _)) as (ak & Ok_ & Mk & _). eexists _, "". split; [left; reflexivity|]. split.
      + replace (("map<" ++ k ++ ", " ++ v ++ ", " ++ d ++ ">") ++ w ++ s) with ("map<" ++ k ++ ", " ++ v ++ (", " ++ d) ++ ">" ++ w ++ s) by (rewrite !app_assoc_s; reflexivity).
        eapply (ok_map_type k v (", " ++ d) ak av _ w s); rewrite ?app_assoc_s; [eapply says_solid, H|eapply says_solid, H'|exact Ok_|exact Ov|exact Oz|exact F].
      + apply (map_means ak kt av vt _ b Mk Mv (size_less _ _ _ _ D)). intros root p N. exact (bound_dimension root p _ d b z N D Z).
    - destruct (ok_named _ w s P F) as (a & O & Q). exists a, w. split; [right; reflexivity|]. split; [exact O|]. rewrite Q. intros c root p U (_ & _ & N & _). 
      eapply ev_impl; [|apply (ev_steady _ (fun n => type_named n root p x) (Ok (Some t)) (steady_type_named _ _ _)); [exact (N x t H)|discriminate]]. intros n K'. cbv beta in K'. cbn [type_spec]. rewrite K'. reflexivity.
  Qed.
End Types.
