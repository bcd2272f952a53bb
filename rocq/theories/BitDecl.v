(** What the declarations of BitSpec do to a module. *)
From Verif Require Import Base Types TypeBuild Mem Hash MapOps Ops IntOps ModuleSpec ModuleFacts Module IntSpec IntFacts Peg0 Grammar Peg PegFacts PegRules IdlParse IdlParseFacts GenIdl GenSpec TypeText StructText StructRead NumText IdlLitFacts IdlLit IdlExpr IdlSpec IdlFacts GrowFacts DocFacts ExprSpec ExprText LitText EnumText NoteSpec NoteText NoteDecl FreeSpec FreeText FreeStruct FreeDecl TokenFacts BitSpec BitText.
From Verif Require Import GapSpec GapText.
Local Open Scope string_scope.

Definition bits_definition (q : rule) (l : list ast) : ast := Ast R_DEFINITION R_DEFINITION "" [Ast R_TYPE_DCL R_TYPE_DCL "" [Ast R_CONSTR_TYPE_DLC R_CONSTR_TYPE_DLC "" [Ast q q "" l]]].
Lemma optimize_bits : forall q x y l, optimize (bits_definition q (ident_node x :: y :: l)) = Ast R_DEFINITION q "" (ident_node x :: map optimize (y :: l)).
Proof. intros q x y l. unfold bits_definition. rewrite !optimize_one, !with_orig_twice. reflexivity. Qed.
Lemma ok_bits : forall q t l s w r, q = R_BITSET_DCL \/ q = R_BITMASK_DCL -> ok (Ref q) (t ++ ";" ++ w ++ r) [Ast q q "" l] [] (";" ++ w ++ r) -> (exists k, t = match q with R_BITSET_DCL => "bitset " | _ => "bitmask " end ++ k) ->
  s = t -> gap w -> solid r -> ok (Ref R_DEFINITION) (s ++ ";" ++ w ++ r) [bits_definition q l] [] r.
Proof.
  intros q t l s w r Q O (k & E) -> W So. eapply ok_ref_node; [|reflexivity|reflexivity]. cbn [gram]. apply ok_alt_l.
  refine (ok_seq _ _ _ [_] [] _ [] [] _ _ (ok_close_gap R_SEMICOLON ";" w r ltac:(kw) eq_refl W So)).
  destruct Q as [->| ->]; subst t; rewrite app_assoc_s in *.
  - apply ok_alt_r; [no_by_text|]. apply ok_alt_r; [no_by_text|]. apply ok_alt_l.
    eapply ok_ref_node; [|reflexivity|reflexivity]. cbn [gram]. apply ok_alt_l. eapply ok_ref_node; [|reflexivity|reflexivity]. cbn [gram].
    refine (ok_seq _ _ _ [] [] _ [_] [] _ (ok_star_end _ _ _) _); [no_by_text|]. do 3 (apply ok_alt_r; [no_by_text|]). apply ok_alt_l, O.
  - apply ok_alt_r; [no_by_text|]. apply ok_alt_r; [no_by_text|]. apply ok_alt_l.
    eapply ok_ref_node; [|reflexivity|reflexivity]. cbn [gram]. apply ok_alt_l. eapply ok_ref_node; [|reflexivity|reflexivity]. cbn [gram].
    refine (ok_seq _ _ _ [] [] _ [_] [] _ (ok_star_end _ _ _) _); [no_by_text|]. do 4 (apply ok_alt_r; [no_by_text|]). exact O.
Qed.
Lemma ok_bitmask : forall x w0 w s w' r, is_ident x = true -> all_chars is_ws w0 = true -> all_chars is_ws w = true -> all_chars is_ws w' = true -> flags_text s ->
  exists y l, ok (Ref R_BITMASK_DCL) (("bitmask " ++ x ++ w0 ++ "{" ++ w ++ s ++ w' ++ "}") ++ ";" ++ r) [Ast R_BITMASK_DCL R_BITMASK_DCL "" (ident_node x :: y :: l)] [] (";" ++ r) /\ Forall passed (y :: l).
Proof.
  intros x w0 w s w' r I W0 W W' H. destruct (ok_flags s H w' (";" ++ r) W') as [So (y & l & O & F)]. exists y, l. split; [|exact F]. rewrite !app_assoc_s.
  eapply ok_ref_node; [|reflexivity|reflexivity]. cbn [gram].
  refine (ok_seq _ _ _ [] [] _ _ [] _ (ok_keyword R_KW_BITMASK "bitmask" "" " " _ ltac:(kw) eq_refl eq_refl (ident_solid _ _ I) eq_refl) _).
  refine (ok_seq _ _ _ [_] [] _ _ [] _ (ok_ident x _ I (blank_not_id w0 "{" _ W0 eq_refl)) _).
  refine (ok_seq _ _ _ [] [] _ _ [] _ (ok_punct R_OPEN_BRACE "{" w0 w _ ltac:(kw) eq_refl W0 W So) _).
  assert (X : exists n1 m n2, ok (Ref R_BIT_VALUE) (s ++ w' ++ "}" ++ ";" ++ r) n1 [] m /\ ok (Star (Seq (Ref R_COMMA) (Ref R_BIT_VALUE))) m n2 [] (w' ++ "}" ++ ";" ++ r) /\ (n1 ++ n2)%list = y :: l).
  { apply ok_seq_inv in O as (n1 & t1 & m & n2 & t2 & O1 & O2 & E & T). symmetry in T. apply app_eq_nil in T as [-> ->]. exists n1, m, n2. auto. }
  destruct X as (n1 & m & n2 & O1 & O2 & E). rewrite <- E. refine (ok_seq _ _ _ n1 [] _ _ [] _ O1 _).
  pose proof (ok_seq _ _ _ _ _ _ _ _ _ O2 (ok_punct R_CLOSE_BRACE "}" w' "" (";" ++ r) ltac:(kw) eq_refl W' eq_refl eq_refl)) as Q. rewrite !app_nil_r in Q. exact Q.
Qed.
Lemma ok_bitset : forall x pn w0 w s r, is_ident x = true -> match pn with Some b => exists abs qs y, b = render abs qs y /\ ident_path qs y | None => True end -> all_chars is_ws w0 = true -> all_chars is_ws w = true -> fields_text s ->
  exists l1 l2, ok (Ref R_BITSET_DCL) (("bitset " ++ x ++ match pn with Some b => " : " ++ b | None => "" end ++ w0 ++ "{" ++ w ++ s ++ "}") ++ ";" ++ r) [Ast R_BITSET_DCL R_BITSET_DCL "" (ident_node x :: l1 ++ l2)%list] [] (";" ++ r) /\
    Forall passed (l1 ++ l2)%list /\ (pn <> None -> l1 <> []) /\ (s <> "" -> l2 <> []).
Proof.
  intros x pn w0 w s r I P W0 W H. destruct (ok_fields s H (";" ++ r)) as (l2 & O2 & F2 & N2).
  assert (X : exists l1, ok (Opt (Ref R_INHERITANCE)) (match pn with Some b => " : " ++ b | None => "" end ++ w0 ++ "{" ++ w ++ s ++ "}" ++ ";" ++ r) l1 [] (w0 ++ "{" ++ w ++ s ++ "}" ++ ";" ++ r) /\ Forall passed l1 /\ (pn <> None -> l1 <> [])).
  { destruct pn as [b|].
    - destruct P as (abs & qs & y & -> & Iy). exists [Ast R_INHERITANCE R_INHERITANCE "" [name_node (render abs qs y)]]. split; [|split; [constructor; [exists R_INHERITANCE; split; [discriminate|eexists; reflexivity]|constructor]|discriminate]].
      apply ok_opt_some. eapply ok_ref_node; [|reflexivity|reflexivity]. cbn [gram]. rewrite app_assoc_s.
      refine (ok_seq _ _ _ [] [] _ [_] [] _ (ok_punct R_COLON ":" " " " " _ ltac:(kw) eq_refl eq_refl eq_refl _) (ok_absolute abs qs y _ Iy (blank_not_id w0 "{" _ W0 eq_refl) _)).
      + apply path_solid, Iy.
      + destruct w0 as [|c w0]; [reflexivity|]. apply blank_not_colon; [exact W0|discriminate].
    - exists []. split; [|split; [constructor|congruence]]. apply ok_opt_none. apply no_ref. cbn [gram append]. apply no_seq_l. apply (no_punct R_COLON ":" w0); [kw|exact W0|reflexivity|reflexivity]. }
  destruct X as (l1 & O1 & F1 & N1). exists l1, l2. split; [|split; [apply Forall_app; auto|split; [exact N1|exact N2]]].
  - rewrite !app_assoc_s. eapply ok_ref_node; [|reflexivity|reflexivity]. cbn [gram].
    refine (ok_seq _ _ _ [] [] _ _ [] _ (ok_keyword R_KW_BITSET "bitset" "" " " _ ltac:(kw) eq_refl eq_refl (ident_solid _ _ I) eq_refl) _).
    refine (ok_seq _ _ _ [_] [] _ _ [] _ (ok_ident x _ I _) _).
    { destruct pn as [b|]; [reflexivity|]. exact (blank_not_id w0 "{" _ W0 eq_refl). }
    refine (ok_seq _ _ _ l1 [] _ _ [] _ O1 _).
    refine (ok_seq _ _ _ [] [] _ _ [] _ (ok_punct R_OPEN_BRACE "{" w0 w _ ltac:(kw) eq_refl W0 W (fields_solid s ("}" ++ ";" ++ r) H eq_refl)) _).
    pose proof (ok_seq _ _ _ _ _ _ _ _ _ O2 (ok_punct R_CLOSE_BRACE "}" "" "" (";" ++ r) ltac:(kw) eq_refl eq_refl eq_refl eq_refl)) as Q. rewrite !app_nil_r in Q. exact Q.
Qed.
Ltac no_words_after w W P F := repeat first [ match goal with |- no (Ref ?q) _ => eapply (no_plain q _ w); [exact P|solve [kw]|in_keywords|exact W|exact F] end | apply no_alt | apply no_seq_l | apply no_ref; cbn [gram] ].
Lemma ok_annotation_type : forall x w0 w s w' r, plain x = true -> all_chars is_ws w0 = true -> all_chars is_ws w = true -> values_text s -> gap w' -> solid r ->
  exists l, ok (Ref R_DEFINITION) (("@annotation " ++ x ++ w0 ++ "{" ++ w ++ s ++ "}") ++ ";" ++ w' ++ r)
    [Ast R_DEFINITION R_DEFINITION "" [Ast R_ANNOTATION_DCL R_ANNOTATION_DCL "" [Ast R_ANNOTATION_HEADER R_ANNOTATION_HEADER "" [ident_node x]; Ast R_ANNOTATION_BODY R_ANNOTATION_BODY "" l]]] [] r.
Proof.
  intros x w0 w s w' r P W0 W H W' So. pose proof (plain_ident _ P) as I. destruct (ok_values s H (";" ++ w' ++ r)) as (l & O). exists l. rewrite !app_assoc_s.
  set (u := w0 ++ "{" ++ w ++ s ++ "}" ++ ";" ++ w' ++ r) in *. assert (F : first_is id_char u = false) by exact (blank_not_id w0 "{" _ W0 eq_refl).
  assert (Na : notes "@annotation ") by exact (note_bare false [] "annotation" " " ltac:(repeat constructor) eq_refl ltac:(discriminate)).
  destruct (ok_notes _ Na (x ++ u) (ident_solid _ _ I) (ident_at _ _ I) (ident_paren _ _ I)) as (ln & wn & Wn & On & _).
  assert (C : no (Ref R_CONSTR_TYPE_DLC) ("@annotation " ++ x ++ u)).
  { apply no_ref. cbn [gram]. eapply no_seq_r; [exact On|]. no_words_after wn Wn P F. }
  assert (M : no (Ref R_MODULE_DCL) ("@annotation " ++ x ++ u)).
  { apply no_ref. cbn [gram]. eapply no_seq_r; [exact On|]. no_words_after wn Wn P F. }
  eapply ok_ref_node; [|reflexivity|reflexivity]. cbn [gram]. apply ok_alt_l.
  refine (ok_seq _ _ _ [_] [] _ [] [] _ _ (ok_close_gap R_SEMICOLON ";" w' r ltac:(kw) eq_refl W' So)).
  apply ok_alt_r; [exact M|]. apply ok_alt_r; [no_by_text|]. apply ok_alt_r; [apply no_ref; cbn [gram]; apply no_alt; [exact C|no_by_text]|].
  eapply ok_ref_node; [|reflexivity|reflexivity]. cbn [gram].
  refine (ok_seq _ _ _ [_] [] _ [_] [] _ (ok_ref_node R_ANNOTATION_HEADER _ _ _ u _ eq_refl eq_refl) _).
  - cbn [gram]. refine (ok_seq _ _ _ [] [] _ _ [] _ _ (ok_ident x u I F)). eapply ok_ref_ignored; [|reflexivity]. cbn [gram].
    refine (ok_seq _ _ _ [] [] _ [] _ _ (opt_ws0 ("@annotation " ++ x ++ u) eq_refl) _). refine (ok_seq _ _ _ [] _ _ [] [] _ (ok_tok _ "@annotation" [] [] _ (ok_lit "@annotation" ("@annotation " ++ x ++ u) (" " ++ x ++ u) eq_refl)) _).
    exact (ok_seq _ _ _ [] [] _ [] [] _ (end_kw (" " ++ x ++ u) eq_refl) (opt_ws " " _ eq_refl (ident_solid _ _ I))).
  - refine (ok_seq _ _ _ [] [] _ [_] [] _ (ok_punct R_OPEN_BRACE "{" w0 w _ ltac:(kw) eq_refl W0 W (values_solid s ("}" ++ ";" ++ w' ++ r) H eq_refl)) _).
    refine (ok_seq _ _ _ [_] [] _ [] [] _ O (ok_punct R_CLOSE_BRACE "}" "" "" (";" ++ w' ++ r) ltac:(kw) eq_refl eq_refl eq_refl eq_refl)).
Qed.
Lemma ok_bare : forall x t w r, is_ident x = true -> bare_text x t -> gap w -> solid r ->
  exists d, ok (Ref R_DEFINITION) (t ++ ";" ++ w ++ r) [d] [] r /\ optimize d = Ast R_DEFINITION R_IDENTIFIER x [].
Proof.
  intros x t w r I H W So. destruct H as [|w0 w1 W0 W1].
  - exists (Ast R_DEFINITION R_DEFINITION "" [Ast R_TYPE_DCL R_TYPE_DCL "" [Ast R_NATIVE_DCL R_NATIVE_DCL "" [Ast R_SIMPLE_DECLARATOR R_SIMPLE_DECLARATOR "" [ident_node x]]]]). split; [|reflexivity]. rewrite app_assoc_s. eapply ok_ref_node; [|reflexivity|reflexivity]. cbn [gram]. apply ok_alt_l.
    refine (ok_seq _ _ _ [_] [] _ [] [] _ _ (ok_close_gap R_SEMICOLON ";" w r ltac:(kw) eq_refl W So)).
    apply ok_alt_r; [no_by_text|]. apply ok_alt_r; [no_by_text|]. apply ok_alt_l. eapply ok_ref_node; [|reflexivity|reflexivity]. cbn [gram]. apply ok_alt_r; [no_by_text|]. apply ok_alt_l.
    eapply ok_ref_node; [|reflexivity|reflexivity]. cbn [gram].
    refine (ok_seq _ _ _ [] [] _ [_] [] _ (ok_keyword R_KW_NATIVE "native" "" " " _ ltac:(kw) eq_refl eq_refl (ident_solid _ _ I) eq_refl) _).
    exact (ok_ref_node R_SIMPLE_DECLARATOR _ _ _ _ (ok_ident x (";" ++ w ++ r) I eq_refl) eq_refl eq_refl).
  - assert (Q : ok (Ref R_BITSET_DCL) (("bitset " ++ x ++ w0 ++ "{" ++ w1 ++ "}") ++ ";" ++ w ++ r) [Ast R_BITSET_DCL R_BITSET_DCL "" [ident_node x]] [] (";" ++ w ++ r)).
    { rewrite !app_assoc_s. eapply ok_ref_node; [|reflexivity|reflexivity]. cbn [gram].
      refine (ok_seq _ _ _ [] [] _ [_] [] _ (ok_keyword R_KW_BITSET "bitset" "" " " _ ltac:(kw) eq_refl eq_refl (ident_solid _ _ I) eq_refl) _).
      refine (ok_seq _ _ _ [_] [] _ [] [] _ (ok_ident x _ I (blank_not_id w0 "{" _ W0 eq_refl)) _).
      refine (ok_seq _ _ _ [] [] _ [] [] _ (ok_opt_none _ _ _) _). { apply no_ref. cbn [gram]. apply no_seq_l. apply (no_punct R_COLON ":" w0); [kw|exact W0|reflexivity|reflexivity]. }
      refine (ok_seq _ _ _ [] [] _ [] [] _ (ok_punct R_OPEN_BRACE "{" w0 w1 ("}" ++ ";" ++ w ++ r) ltac:(kw) eq_refl W0 W1 eq_refl) _).
      refine (ok_seq _ _ _ [] [] _ [] [] _ (ok_star_end _ _ _) (ok_punct R_CLOSE_BRACE "}" "" "" (";" ++ w ++ r) ltac:(kw) eq_refl eq_refl eq_refl eq_refl)). no_by_text. }
    exists (bits_definition R_BITSET_DCL [ident_node x]). split; [eapply (ok_bits R_BITSET_DCL); [left; reflexivity|exact Q|eexists; reflexivity|reflexivity|exact W|exact So]|reflexivity].
Qed.

Lemma ok_empty_struct : forall x w s, is_ident x = true -> gap w -> solid s -> ok (Ref R_DEFINITION) (struct_text x None "" ++ ";" ++ w ++ s) [struct_definition x None []] [] s.
Proof.
  intros x w s I W S. unfold struct_text. rewrite !app_assoc_s.
  assert (OS : ok (Ref R_STRUCT_DEF) ("struct " ++ x ++ "" ++ " { " ++ "" ++ "}" ++ ";" ++ w ++ s) [struct_node x None []] [] (";" ++ w ++ s)).
  { eapply ok_ref_node; [|reflexivity|reflexivity]. cbn [gram].
    refine (ok_seq _ _ _ [] [] _ _ [] _ (ok_keyword R_KW_STRUCT "struct" "" " " _ _ eq_refl eq_refl _ _) _); [kw|apply ident_solid, I|reflexivity|].
    refine (ok_seq _ _ _ [_] [] _ [] [] _ (ok_ident x _ I _) _); [reflexivity|]. refine (ok_seq _ _ _ [] [] _ [] [] _ (ok_opt_none _ _ _) _); [no_by_text|].
    refine (ok_seq _ _ _ [] [] _ [] [] _ (ok_punct R_OPEN_BRACE "{" " " " " ("}" ++ ";" ++ w ++ s) ltac:(kw) eq_refl eq_refl eq_refl eq_refl) _).
    refine (ok_seq _ _ _ [] [] _ [] [] _ (ok_star_end _ _ _) (ok_close R_CLOSE_BRACE "}" "" (";" ++ w ++ s) ltac:(kw) eq_refl eq_refl eq_refl)). no_by_text. }
  eapply ok_ref_node; [|reflexivity|reflexivity]. cbn [gram]. apply ok_alt_l.
  refine (ok_seq _ _ _ [_] [] _ [] [] _ _ (ok_close_gap R_SEMICOLON ";" w s ltac:(kw) eq_refl W S)).
  apply ok_alt_r; [no_by_text|]. apply ok_alt_r; [no_by_text|]. apply ok_alt_l.
  eapply ok_ref_node; [|reflexivity|reflexivity]. cbn [gram]. apply ok_alt_l. eapply ok_ref_node; [|reflexivity|reflexivity]. cbn [gram].
  refine (ok_seq _ _ _ [] [] _ [_] [] _ (ok_star_end _ _ _) _); [no_by_text|]. apply ok_alt_l.
  eapply ok_ref_node; [|reflexivity|reflexivity]. cbn [gram]. apply ok_alt_l. exact OS.
Qed.

Section Values.
  Variable fc : prim -> prim -> list N -> list N.
  Variable flt : arith -> prim -> list N -> list N -> list N.
  Variable flit : prim -> string -> res (list N).
  Notation build := (build fc flt flit).
  Lemma check_passed : forall n c p l root, Forall passed l -> check_names n c p (map optimize l) root = Ok root.
  Proof.
    intros n c p l root H. induction H as [|a l (q & Q & k & ->) _ IH]; [reflexivity|]. cbn [map check_names].
    assert (E : a_orig (optimize (Ast q q "" k)) = q) by (destruct k as [|y [|z k]]; [reflexivity| |reflexivity]; cbn [optimize]; destruct (optimize y); reflexivity).
    rewrite E. destruct q; try exact IH; congruence.
  Qed.
  Lemma check_bits : forall n c p x l root, resolve_identifier n c root p x true = Ok x -> Forall passed l -> check_names n c p (ident_node x :: map optimize l) root = Ok root.
  Proof. intros n c p x l root R H. cbn [check_names ident_node a_orig a_tok]. rewrite R. cbn [bind]. apply check_passed, H. Qed.
  Lemma passed_sentence : forall c p root t, ignore_case c = false -> passed_over t -> sentence fc flt flit c p t root root.
  Proof.
    intros c p root t C H. assert (B : forall q x y l, q = R_BITSET_DCL \/ q = R_BITMASK_DCL -> free_name x = true -> Forall passed (y :: l) ->
      eventually (fun n => build n c p (optimize (bits_definition q (ident_node x :: y :: l))) root = Ok root)).
    { intros q x y l Q P F. eapply ev_impl; [|apply (name_resolves c root p x true C P); discriminate]. intros n R. cbv beta in R. rewrite optimize_bits.
      pose proof (check_bits n c p x (y :: l) root R F) as K. destruct Q as [->| ->]; exact K. }
    destruct H as [x w0 w s w1 P W0 W W1 H|x w0 w s P W0 W H NE|x abs qs y w0 w s P Iy W0 W H|x w0 w s P W0 W H]; constructor; try (intros r; rewrite ?app_assoc_s; reflexivity); intros v r V So.
    - destruct (ok_bitmask x w0 w s w1 (v ++ r) (free_name_ident _ P) W0 W W1 H) as (y & l & O & F). eexists. split; [|apply (B R_BITMASK_DCL x y l); auto].
      eapply (ok_bits R_BITMASK_DCL); [right; reflexivity|exact O|eexists; reflexivity|reflexivity|exact V|exact So].
    - destruct (ok_bitset x None w0 w s (v ++ r) (free_name_ident _ P) Logic.I W0 W H) as (l1 & l2 & O & F & _ & N2). specialize (N2 NE). destruct (l1 ++ l2)%list as [|y l] eqn:E; [apply app_eq_nil in E as [_ ->]; congruence|].
      eexists. split; [|apply (B R_BITSET_DCL x y l); auto]. eapply (ok_bits R_BITSET_DCL); [left; reflexivity|exact O|eexists; reflexivity|reflexivity|exact V|exact So].
    - destruct (ok_bitset x (Some (render abs qs y)) w0 w s (v ++ r) (free_name_ident _ P) (ex_intro _ abs (ex_intro _ qs (ex_intro _ y (conj eq_refl Iy)))) W0 W H) as (l1 & l2 & O & F & N1 & _). specialize (N1 ltac:(discriminate)). destruct (l1 ++ l2)%list as [|z l] eqn:E; [apply app_eq_nil in E as [-> _]; congruence|].
      eexists. split; [|apply (B R_BITSET_DCL x z l); auto]. eapply (ok_bits R_BITSET_DCL); [left; reflexivity|exact O|eexists; reflexivity|rewrite !app_assoc_s; reflexivity|exact V|exact So].
    - destruct (ok_annotation_type x w0 w s v r P W0 W H V So) as (l & O). eexists. split; [exact O|]. exists 1%nat. intros n _.
      assert (E : exists b, optimize (Ast R_DEFINITION R_DEFINITION "" [Ast R_ANNOTATION_DCL R_ANNOTATION_DCL "" [Ast R_ANNOTATION_HEADER R_ANNOTATION_HEADER "" [ident_node x]; Ast R_ANNOTATION_BODY R_ANNOTATION_BODY "" l]]) =
        Ast R_DEFINITION R_ANNOTATION_DCL "" [Ast R_ANNOTATION_HEADER R_IDENTIFIER x []; b] /\ a_orig b = R_ANNOTATION_BODY).
      { exists (optimize (Ast R_ANNOTATION_BODY R_ANNOTATION_BODY "" l)). split; [reflexivity|]. destruct l as [|y [|z l]]; [reflexivity| |reflexivity]. cbn [optimize]. destruct (optimize y). reflexivity. }
      destruct E as (b & -> & Eb). cbn [IdlParse.build check_names a_orig]. rewrite Eb. reflexivity.
  Qed.
  (** The name alone is taken for the definition of an empty struct. *)
  Lemma bare_sentence : forall c p x t root root', usual c -> exists_module root p = true -> no_nulls root -> idents_only root p -> free_name x = true -> declares root x p = false ->
    call_register Structs (TStruct x 0 []) false root p = Ok (true, root') -> bare_text x t -> sentence fc flt flit c p t root root'.
  Proof.
    intros c p x t root root' U E N IO PN D R H. pose proof (free_name_ident _ PN) as I.
    destruct (free_struct_sentence fc flt flit c p root x None None "" [] (TStruct x 0 []) U E N IO PN D (plain_body _ _ _ _ (members_none _ _)) (Forall_nil _) (NoDup_nil _) eq_refl eq_refl) as (r1 & R1 & [_ S]). rewrite R in R1. injection R1 as <-.
    constructor.
    - intros s. destruct H; rewrite ?app_assoc_s; reflexivity.
    - intros w s W So. destruct (ok_bare x t w s I H W So) as (d & O & Ed). exists d. split; [exact O|]. rewrite Ed. destruct (S w s W So) as (d' & O' & B).
      destruct (ok_fun _ _ _ _ _ _ _ _ O' (ok_empty_struct x w s I W So)) as (Q & _). injection Q as ->. exact B.
  Qed.
End Values.
