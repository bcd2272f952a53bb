(** The sentence of a constant: the value of its expression is declared. *)
From Verif Require Import Base Types TypeBuild TypeSpec Compat CompatFacts Mem MemSpec MemFacts ConstructFacts ProgSpec ProgFacts Hash MapOps Ops OpsSpec ValueSpec ValueFacts DataSpec DataFacts IntOps NumSpec NumFacts IntSpec IntFacts ModuleSpec ModuleFacts Module DepTree Peg0 Grammar Peg PegFacts PegRules IdlParse IdlParseFacts GenIdl GenSpec TypeText StructText StructRead NumText IdlLitFacts IdlLit IdlExpr IdlSpec IdlFacts PropInt GrowFacts DocFacts ExprSpec ExprText EnumText.
From Verif Require Import GapSpec GapText.
Local Open Scope string_scope.

Definition const_core (p : prim) (x w1 w2 s w3 : string) : string := "const " ++ prim_idl p ++ " " ++ x ++ w1 ++ "=" ++ w2 ++ s ++ w3.
Definition const_type_node (p : prim) : ast := Ast R_CONST_TYPE (prim_rule p) "" [].
Lemma ok_const_type : forall p s, int_kind p = true -> solid s -> exists a, ok (Ref R_CONST_TYPE) (prim_idl p ++ " " ++ s) [a] [] s /\ optimize a = const_type_node p.
Proof.
  intros p s Hk So. assert (K : forall q k, keyword q k -> ok (Ref q) (k ++ " " ++ s) [] [] s).
  { intros q k Hq. exact (ok_keyword q k "" " " s Hq eq_refl eq_refl So eq_refl). }
  destruct p; try discriminate Hk.
  1: eexists; split; [drill; apply (K R_KW_INT8 "int8"); kw|reflexivity].
  1: eexists; split; [drill; apply (K R_KW_UINT8 "uint8"); kw|reflexivity].
  1: eexists; split; [drill; apply (K R_KW_INT16 "int16"); kw|reflexivity].
  1: eexists; split; [drill; apply (K R_KW_UINT16 "uint16"); kw|reflexivity].
  1: eexists; split; [drill; apply (K R_KW_INT32 "int32"); kw|reflexivity].
  1: eexists; split; [drill; apply (K R_KW_UINT32 "uint32"); kw|reflexivity].
  1: eexists; split; [drill; apply (K R_KW_INT64 "int64"); kw|reflexivity].
  1: eexists; split; [drill; apply (K R_KW_UINT64 "uint64"); kw|reflexivity].
Qed.
Definition const_tree (t : ast) (x : string) (e : expr) : ast := Ast R_DEFINITION R_CONST_DCL "" [t; ident_node x; tree R_CONST_EXPR e].
Lemma ok_const : forall p x w1 w2 e ts s w3 w t, int_kind p = true -> is_ident x = true -> all_chars is_ws w1 = true -> all_chars is_ws w2 = true -> all_chars is_ws w3 = true ->
  rderives 0 e ts -> text_of ts s -> gap w -> solid t ->
  exists d, ok (Ref R_DEFINITION) (const_core p x w1 w2 s w3 ++ ";" ++ w ++ t) [d] [] t /\ optimize d = const_tree (const_type_node p) x e.
Proof.
  intros p x w1 w2 e ts s w3 w t Hk I W1 W2 W3 D T W So. unfold const_core. rewrite !app_assoc_s.
  destruct (ok_const_type p (x ++ w1 ++ "=" ++ w2 ++ s ++ w3 ++ ";" ++ w ++ t) Hk (ident_solid _ _ I)) as (a & Oa & Ea).
  assert (St : stops 0 w3 (";" ++ w ++ t)).
  { constructor; try assumption; try reflexivity; [apply solid_firm; reflexivity|]. intros k w' K W'. apply (no_op_char ";" k w'); [exact W'|reflexivity|lia]. }
  destruct (ok_expr 0 e ts D s w3 (";" ++ w ++ t) T St) as (b & w3' & Hw3 & Ob & Eb). destruct (start_solid s (w3 ++ ";" ++ w ++ t) (text_start _ _ _ _ D T)) as [Ss _].
  assert (W3' : all_chars is_ws w3' = true) by (destruct Hw3 as [-> | ->]; [exact W3|reflexivity]).
  exists (Ast R_DEFINITION R_DEFINITION "" [Ast R_CONST_DCL R_CONST_DCL "" [a; ident_node x; b]]). split.
  - eapply ok_ref_node; [|reflexivity|reflexivity]. cbn [gram]. apply ok_alt_l.
    refine (ok_seq _ _ _ [_] [] _ [] [] _ _ (ok_punct_gap R_SEMICOLON ";" w3' w t ltac:(kw) eq_refl W3' W So)).
    apply ok_alt_r; [no_by_text|]. apply ok_alt_l. eapply ok_ref_node; [|reflexivity|reflexivity]. cbn [gram].
    refine (ok_seq _ _ _ [] [] _ _ [] _ (ok_keyword R_KW_CONST "const" "" " " _ _ eq_refl eq_refl _ _) _); [kw|destruct p; reflexivity|reflexivity|].
    refine (ok_seq _ _ _ [a] [] _ _ [] _ Oa _). refine (ok_seq _ _ _ [] [] _ _ [] _ (opt_ws0 _ (ident_solid _ _ I)) _).
    refine (ok_seq _ _ _ [_] [] _ _ [] _ (ok_ident x _ I _) _).
    { destruct w1 as [|c1 w1]; [reflexivity|]. cbn [append first_is]. cbn [all_chars] in W1. apply andb_true_iff in W1 as [W1 _].
      pose proof (all_ascii (fun c => implb (is_ws c) (negb (id_char c))) eq_refl c1) as K. cbv beta in K. rewrite W1 in K. apply negb_true_iff in K. exact K. }
    refine (ok_seq _ _ _ [] [] _ [b] [] _ (ok_ign _ _ _ _ _ (ok_ref_token R_EQUAL_OP _ _ _ _ _ (ok_punct_exp R_EQUAL_OP "=" w1 w2 _ _ W1 W2 Ss) eq_refl eq_refl)) Ob). kw.
  - unfold const_tree. rewrite <- Ea. change R_CONST_EXPR with (rule_of 0). rewrite <- Eb. reflexivity.
Qed.

Section Values.
  Variable fc : prim -> prim -> list N -> list N.
  Variable flt : arith -> prim -> list N -> list N -> list N.
  Variable flit : prim -> string -> res (list N).
  Notation solve_expr := (solve_expr fc flt flit).
  Definition sees (root : modl) (q : place) (env : string -> option data) : Prop := forall x d, env x = Some d -> exists n, find_in n root q consts x = Ok (Some d).
  Lemma arith_of_leaf : forall o, arith_of (leaf_rule o) = Some o.
  Proof. destruct o; reflexivity. Qed.
  Lemma assign_new_int : forall p v z, is_int v p z -> exists d, assign_new fc (TPrim p) v = Ok d /\ is_int d p z.
  Proof. intros p v z H. exact (assign_result_int fc p v z H). Qed.
  Lemma assign_data_int : forall p r z0 v z, is_int r p z0 -> is_int v p z -> exists d, assign_data fc r v = Ok d /\ is_int d p z.
  Proof.
    intros p r z0 v z Hr Hv. destruct (assign_int fc r v p z0 z Hr Hv) as (m & Em & Hm). unfold assign_data. rewrite (proj1 Hr), (proj1 Hv).
    replace (is_compatible (TPrim p) (TPrim p)) with (Ok EQUALS) by (destruct p; reflexivity). cbn [bind]. rewrite N.eqb_refl. rewrite (proj1 Hr) in Em, Hm. rewrite Em. cbn [bind]. eexists. split; [reflexivity|exact Hm].
  Qed.
  Lemma solve_lit : forall n root q t o l, solve_expr n root q t (Ast o R_INTEGER_LITERAL l []) = literal_value fc flit t (Ast o R_INTEGER_LITERAL l []).
  Proof. reflexivity. Qed.
  Lemma solve_bin : forall n root q t o k a b c, solve_expr n root q t (Ast o (rule_of (level k)) "" [a; op_node k; b]) =
    (do u <- solve_expr n root q t a; do v <- solve_expr n root q t b; do w <- binary fc flt k u v; assign_new fc t w) \/ c.
  Proof. intros n root q t o k a b c. left. destruct k; reflexivity. Qed.
  (** solve_expr on the syntax tree of an expression that has a value. *)
  Lemma tree_sound : forall root q env p e z, int_kind p = true -> sees root q env -> evaluates p env e z -> unary_safe p e ->
    eventually (fun n => forall o, exists d, solve_expr n root q (TPrim p) (tree o e) = Ok d /\ is_int d p z).
  Proof.
    intros root q env p e z Hk Se H. induction H as [l base rest z Hl He Hf|x d z Ex Hd|e z H IH|u e a H IH Hf|op x y a b Hx IHx Hy IHy Hdf Hf]; intros Hu; cbn [tree unary_safe] in *.
    - exists O. intros n _ o. cbn [IdlParse.solve_expr literal_value rget]. unfold literal_value. cbn [rget a_tok]. rewrite Hk.
      unfold get_literal_value. rewrite (base_of_literal _ _ _ Hl), (read_number_literal p l base z "" Hk Hl I Hf).
      destruct (result_int fc p z (int_kind_bool p Hk)) as (d & r & Ed & Hd & Hr). exists d. split; [exact Ed|]. rewrite (reduced_unique p z z r (reduced_fits p z Hf) Hr). exact Hd.
    - assert (EV : eventually (fun n => find_in n root q consts x = Ok (Some d))) by (apply ev_steady; [apply steady_find|apply Se, Ex|discriminate]).
      eapply ev_impl; [|exact EV]. intros n E o. cbn [IdlParse.solve_expr]. rewrite E. cbn [bind]. apply assign_new_int, Hd.
    - apply IH, Hu.
    - destruct Hu as [Hu1 Hu2]. eapply ev_impl; [|exact (IH Hu1)]. intros n X o. destruct (X R_PRIMARY_EXPR) as (d & Ed & Hd). cbn [IdlParse.solve_expr]. rewrite Ed. cbn [bind].
      destruct (assign_new_int p d a Hd) as (d1 & E1 & H1). rewrite E1. cbn [bind a_tag].
      destruct u; [|exists d1; split; [reflexivity|exact H1]|contradiction Hu2]. cbn [un_math un_rule] in *. change (rule_eqb R_SUB_OP R_SUB_OP) with true. cbv iota.
      assert (Hs : signed_int_kind p = true) by (destruct p; try discriminate Hk; try discriminate Hu2; reflexivity).
      destruct (C24_negate fc flt d1 p a Hs H1) as [Hneg _]. destruct Hneg as (t & r & Et & Ht & Hr).
      { destruct (Z.eq_dec a (least p)) as [->|Hn]; [|right; exact Hn]. exfalso. unfold fits, greatest, least in Hf. rewrite Hu2 in Hf. lia. }
      rewrite Et. cbn [bind]. rewrite <- (reduced_unique p (- a) (- a) r (reduced_fits p _ Hf) Hr) in Ht. eapply assign_data_int; eassumption.
    - destruct Hu as [Hu1 Hu2]. eapply ev_impl; [|apply (ev_and _ _ (IHx Hu1) (IHy Hu2))]. intros n [X Y] o.
      destruct (solve_bin n root q (TPrim p) o op (tree (rule_of (S (level op))) x) (tree (rule_of (level op)) y) False) as [->|[]].
      destruct (X (rule_of (S (level op)))) as (dx & Ex & Hdx). destruct (Y (rule_of (level op))) as (dy & Ey & Hdy). rewrite Ex, Ey. cbn [bind].
      destruct (C24_exact fc flt op dx dy p a b Hk Hdx Hdy Hf) as (t & Et & Ht).
      + assert (Hw : (width p <= width (computed_in p))%Z) by (destruct p; vm_compute; congruence). destruct op; cbn [defined] in Hdf; try exact I; try (apply Hdf); lia.
      + intros ->. apply Hdf.
      + rewrite Et. cbn [bind]. apply assign_new_int, Ht.
  Qed.
  Lemma const_new : forall root p e d q z fe, exists_module root p = true -> is_ident e = true -> is_int d q z ->
    exists b root', call_create_constant fc e d false fe root p = Ok (b, root') /\ exists_module root' p = true.
  Proof.
    intros root p e d q z fe E I (T & bs & Hh & _). destruct (constant_stored fc d _ Hh) as (t & t1 & d' & N1 & N2 & N3 & _); [rewrite T; exact Logic.I|rewrite T; exact Logic.I|].
    assert (C : exists b tab', create_constant fc e d false fe (tab_at root p) = Ok (b, tab')).
    { unfold create_constant. rewrite (ident_split e I). cbn [andb bind]. destruct (mem e (const_types (tab_at root p))); [eauto|].
      rewrite N1. cbn [bind]. rewrite N2. cbn [bind]. destruct (mem e (consts (tab_at root p))); [eauto|]. rewrite N3. cbn [bind]. eauto. }
    destruct C as (b & tab' & C). destruct (with_tables_ok root p tab' E) as (root' & W). exists b, root'. unfold call_create_constant.
    rewrite (on_tables_with bool root p _ b tab' E C), W. split; [reflexivity|]. eapply with_tables_here; eauto.
  Qed.
  Lemma prim_type : forall n c root q p o, int_kind p = true -> type_spec n c root q (Ast o (prim_rule p) "" []) = Ok (TPrim p).
  Proof. intros n c root q p o Hk. destruct p; try discriminate Hk; reflexivity. Qed.
  Lemma const_sentence : forall c q root env p x w1 w2 e ts s w3 z, exists_module root q = true -> int_kind p = true -> is_ident x = true ->
    all_chars is_ws w1 = true -> all_chars is_ws w2 = true -> all_chars is_ws w3 = true -> idl_expr e ts -> text_of ts s -> sees root q env ->
    evaluates p env e z -> right_safe p env e -> unary_safe p e ->
    exists d b root', is_int d p z /\ call_create_constant fc x d false false root q = Ok (b, root') /\ sentence fc flt flit c q (const_core p x w1 w2 s w3) root root'.
  Proof.
    intros c q root env p x w1 w2 e ts s w3 z E Hk I W1 W2 W3 De T Se Ev Rs Us. pose proof (derives_rderives _ _ _ De) as Dr.
    assert (Er : evaluates p env (regroup e) z) by (apply regroup_evaluates; [eapply derives_leftish, De|exact Rs|exact Ev]).
    destruct (tree_sound root q env p (regroup e) z Hk Se Er (regroup_unary_safe _ _ Us)) as (n0 & X). destruct (X n0 (Nat.le_refl _) R_CONST_EXPR) as (d & Ed & Hd).
    assert (ED : eventually (fun n => solve_expr n root q (TPrim p) (tree R_CONST_EXPR (regroup e)) = Ok d)).
    { apply ev_steady; [apply steady_solve_expr|exists n0; exact Ed|discriminate]. }
    destruct (assign_new_int p d z Hd) as (d1 & E1 & H1). destruct (const_new root q x d1 p z false E I H1) as (b & root' & CC & _).
    exists d1, b, root'. split; [exact H1|]. split; [exact CC|]. constructor; [intros t; reflexivity|]. intros w t W So.
    destruct (ok_const p x w1 w2 (regroup e) ts s w3 w t Hk I W1 W2 W3 Dr T W So) as (nd & On & En). exists nd. split; [exact On|]. rewrite En.
    eapply ev_impl; [|exact ED]. intros n A. cbn [IdlParse.build const_tree]. change (IdlParse.const_dcl fc flt flit n c q (const_tree (const_type_node p) x (regroup e)) root = Ok root').
    unfold IdlParse.const_dcl, const_tree. cbn [a_sub]. unfold const_type_node. rewrite (prim_type n c root q p _ Hk). cbn [bind]. unfold assign_new in E1. destruct (new_data (TPrim p)) as [r|] eqn:Nr; [|discriminate E1]. cbn [bind] in *.
    rewrite A. cbn [bind]. rewrite E1. cbn [bind]. rewrite (proj1 H1). replace (assert_ _) with (Ok tt) by (destruct p; try discriminate Hk; reflexivity). cbn [bind ident_node a_tok]. rewrite CC. reflexivity.
  Qed.
End Values.

(** *** The text of an integer *)
Lemma to_string_literal : forall x, exists base, literal (to_string x) base (Z.of_N x).
Proof.
  intros x. destruct (N.eq_0_gt_0_cases x) as [->|P]; [exists 8%Z; apply li_zero|]. exists 10%Z. destruct (to_string_spec x) as (H & _ & F). specialize (F P).
  destruct (to_string x) as [|c s]; [discriminate F|]. apply li_dec; [exact H|]. intros ->. discriminate F.
Qed.
Lemma derives_up : forall k l e t, (l + k <= 7)%nat -> derives (l + k) e t -> derives l e t.
Proof. induction k as [|k IH]; intros l e t Hle H; [rewrite Nat.add_0_r in H; exact H|]. apply de_up; [lia|]. apply IH; [lia|]. replace (S l + k)%nat with (l + S k)%nat by lia. exact H. Qed.
Lemma printed_number : forall p z, int_kind p = true -> fits p z -> (prim_signed p = true -> z <> least p) ->
  exists e ts, idl_expr e ts /\ text_of ts (z_to_string z) /\ forall env, evaluates p env e z /\ right_safe p env e /\ unary_safe p e.
Proof.
  intros p z Hk Hf Hl. assert (NN : forall x, Z.of_N x = z -> z_to_string z = to_string x -> exists e ts, idl_expr e ts /\ text_of ts (z_to_string z) /\ forall env, evaluates p env e z /\ right_safe p env e /\ unary_safe p e).
  { intros x Ex Ez. destruct (to_string_literal x) as (base & L). exists (ELit (to_string x) ""), [KLit (to_string x) ""]. split; [apply (derives_up 7); [lia|apply de_lit]|]. split; [rewrite Ez; constructor; econstructor; exact L|].
    intros env. split; [rewrite Ex in L; econstructor; [exact L|exact I|exact Hf]|split; exact I]. }
  destruct z as [|q|q]; [apply (NN 0%N); reflexivity|apply (NN (Npos q)); reflexivity|].
  destruct (to_string_literal (Npos q)) as (base & L). change (Z.of_N (Npos q)) with (Zpos q) in L.
  assert (Hs : prim_signed p = true) by (destruct p; try discriminate Hk; try reflexivity; exfalso; unfold fits, least in Hf; cbn in Hf; lia).
  specialize (Hl Hs). exists (EUn UMinus (ELit (to_string (Npos q)) "")), [KOp Sub; KLit (to_string (Npos q)) ""].
  split; [apply (derives_up 6); [lia|]; apply de_un, de_lit|]. split.
  - cbn [z_to_string]. change ("-" ++ to_string (N.pos q)) with ("-" ++ "" ++ to_string (N.pos q)). apply to_more; [apply (tt_op Sub)|reflexivity|constructor; econstructor; exact L].
  - intros env. split; [|cbn; auto]. change (Zneg q) with (un_math UMinus p (Zpos q)) in Hf |- *. apply ev_un; [|exact Hf]. econstructor; [exact L|exact I|].
    unfold fits, least, greatest in *. rewrite Hs in *. cbn [un_math] in Hf. lia.
Qed.
Lemma int_fits : forall d p z, is_int d p z -> p <> PBool -> fits p z.
Proof.
  intros d p z Hd Hb. destruct (is_int_operand d p z Hd) as (a & Ea & _ & Hz). destruct Hd as (Ht & bs & Hh & Hn). destruct (operand_holds d p bs Hh Ht) as (Eo & Hl & HF). rewrite Ea in Eo. injection Eo as <-.
  destruct Hn as [Hn _]. destruct p; try exact Hn; congruence.
Qed.
