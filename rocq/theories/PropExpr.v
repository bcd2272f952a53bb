(** Theorems about constant declarations in IDL text, from the characters on: C33, C39. *)
From Verif Require Import Base Types TypeBuild Mem MemSpec Ops OpsSpec ValueSpec DataSpec IntOps NumSpec IntSpec Module ModuleSpec ModuleFacts PropModule DepTree Peg0 Grammar Peg PegRules IdlParse GenIdl GenSpec TypeText StructText StructRead GrowFacts DocFacts IdlLit IdlLitFacts IdlExpr IdlSpec IdlFacts NumFacts IntFacts PropIdl ExprSpec ExprText ConstText PropParse TextSpec TextConst.
From Verif Require Import GapSpec GapText.
Local Open Scope string_scope.

(** The document  const T x = expression;  with white space wherever it is allowed: the constant [x] gets the value of
    the expression, where a name stands for the constant that Module::constant finds.  Missing: as for
    C33_value_partial. *)
Theorem C33_text_partial : forall fc flt flit c root env p n x w0 w1 w2 e ts s w3 w4 z,
  int_kind p = true -> const_type_says (names_type root []) x n (TPrim p) -> is_ident x = true -> no_nulls root -> consts_paired root ->
  gap w0 -> all_chars is_ws w1 = true -> all_chars is_ws w2 = true -> all_chars is_ws w3 = true -> gap w4 ->
  idl_expr e ts -> text_of ts s -> sees root [] env ->
  evaluates p env e z -> right_safe p env e -> unary_safe p e ->
  exists b root', parses fc flt flit c (w0 ++ "const " ++ n ++ " " ++ x ++ w1 ++ "=" ++ w2 ++ s ++ w3 ++ ";" ++ w4) root (Ok (true, root')) /\
    (b = true <-> const_entry root [] x = None) /\
    (b = true -> exists d, const_entry root' [] x = Some d /\ is_int d p z) /\
    (forall q y, b = false \/ q <> [] \/ y <> x -> const_entry root' q y = const_entry root q y) /\
    (forall q k y, entry root' q k y = entry root q k y) /\ consts_paired root'.
Proof.
  intros fc flt flit c root env p n x w0 w1 w2 e ts s w3 w4 z Hk CT I N Cp W0 W1 W2 W3 W4 De T Se Ev Rs Us.
  destruct (spelled_sentence fc flt flit c [] root env p n x w1 w2 e ts s w3 z eq_refl Hk CT I W1 W2 W3 De T Se Ev Rs Us) as (d & b & root' & Hd & CC & Sn).
  pose proof Hd as (Ht & bs & Hh & Hnum).
  destruct (C32_create_constant_partial fc x d (VBytes bs) false false root [] N eq_refl Cp (is_ident_name x I) Hh) as (b' & root2 & E & Hb & Hnew & Hold & Hent & _ & _ & Cp'); [rewrite Ht; exact Logic.I|rewrite Ht; exact Logic.I|].
  rewrite CC in E. injection E as <- <-. exists b, root'. split; [|split; [rewrite Hb; split; [intros [H|H]; [discriminate H|exact H]|auto]|split; [|split; [exact Hold|split; [exact Hent|exact Cp']]]]].
  - pose proof (document_reads fc flt flit c w0 [("const " ++ n ++ " " ++ x ++ w1 ++ "=" ++ w2 ++ s ++ w3, w4)] root root') as DR. cbn [in_row] in DR. rewrite !app_assoc_s in DR. rewrite !app_nil_s in DR.
    apply DR; [discriminate|exact W0|]. econstructor; [exact Sn|exact W4|constructor].
  - intros Hbt. destruct (Hnew Hbt) as (d' & Ed & Td & Hd'). exists d'. split; [exact Ed|]. split; [congruence|]. exists bs. split; [exact Hd'|exact Hnum].
Qed.

(** A document with spaces, line ends, a hexadecimal and an octal literal, parentheses, a unary minus and two names. *)
Definition ex_int (p : prim) (z : Z) : data := match result (fun _ _ b => b) p (int_bytes p z) with Ok d => d | _ => mkData (TPrim p) (Blk (fun _ => CNone)) end.
Definition ex_inner : modl := Mod "A" (mkTables [] [] [] [] [("N", TPrim PI32)] [("N", ex_int PI32 7)] []) [].
Definition ex_consts : modl := Mod "" (mkTables [] [] [] [] [("N", TPrim PI32)] [("N", ex_int PI32 5)] []) [("A", Some ex_inner)].
Definition ex_env (x : string) : option data := if String.eqb x "N" then Some (ex_int PI32 5) else if String.eqb x "A::N" then Some (ex_int PI32 7) else None.
Lemma ex_is_int : forall p z, int_kind p = true -> fits p z -> is_int (ex_int p z) p z.
Proof.
  intros p z Hk Hf. unfold ex_int. destruct (result_int (fun _ _ b => b) p z (int_kind_bool p Hk)) as (d & r & Ed & Hd & Hr). rewrite Ed. rewrite (reduced_unique p z z r (reduced_fits p z Hf) Hr). exact Hd.
Qed.
Lemma ex_places : forall q, mod_at ex_consts q = None \/ mod_at ex_consts q = Some ex_consts \/ mod_at ex_consts q = Some ex_inner.
Proof.
  induction q as [|x q IH]; [right; left; reflexivity|]. cbn [mod_at]. destruct IH as [->|[->| ->]]; [left; reflexivity| |left; reflexivity].
  cbn [m_inner ex_consts assoc]. destruct (String.eqb x "A"); [right; right; reflexivity|left; reflexivity].
Qed.
Definition ex_text : string := "( 0x1F <<N ) -" ++ NL ++ "  (-A::N*017)|4".
Definition ex_tree : expr := EBin BOr (EBin Sub (EPar (EBin Shl (ELit "0x1F" "") (EName "N"))) (EPar (EBin Mul (EUn UMinus (EName "A::N")) (ELit "017" "")))) (ELit "4" "").
Definition ex_tokens : list token := [KOpen; KLit "0x1F" ""; KOp Shl; KName "N"; KClose; KOp Sub; KOpen; KOp Sub; KName "A::N"; KOp Mul; KLit "017" ""; KClose; KOp BOr; KLit "4" ""].
Example C33_text_nontrivial : no_nulls ex_consts /\ consts_paired ex_consts /\ idl_expr ex_tree ex_tokens /\ text_of ex_tokens ex_text /\ sees ex_consts [] ex_env /\
  evaluates PI32 ex_env ex_tree 1101 /\ right_safe PI32 ex_env ex_tree /\ unary_safe PI32 ex_tree.
Proof.
  assert (L1 : literal "0x1F" 16 31) by (apply C34_nontrivial). assert (L2 : literal "017" 8 15) by (apply C34_nontrivial). assert (L4 : literal "4" 10 4) by (apply (decimal_literal "4"); reflexivity).
  assert (Hf : forall z, (-2000 <= z <= 2000)%Z -> fits PI32 z) by (intros z Hz; unfold fits, least, greatest, width; cbn; lia).
  split; [intros a q m H|split; [|split; [|split; [|split; [|split; [|split]]]]]].
  - destruct (ex_places q) as [E|[E|E]]; rewrite E in H; try discriminate H; injection H as <-; cbn; [destruct (String.eqb a "A"); discriminate|discriminate].
  - intros q y. unfold tab_at. destruct (ex_places q) as [->|[->| ->]]; [reflexivity| |]; cbn; unfold mem; cbn; destruct (String.eqb y "N"); reflexivity.
  - unfold idl_expr, ex_tree, ex_tokens. refine (de_bin BOr _ _ [_; _; _; _; _; _; _; _; _; _; _; _] [_] _ _); [|apply (derives_up 6); [cbn; lia|apply de_lit]]. apply (derives_up 4); [cbn; lia|].
    refine (de_bin Sub _ _ [_; _; _; _; _] [_; _; _; _; _; _] _ _).
    + apply (derives_up 3); [cbn; lia|]. refine (de_par _ [_; _; _] _). apply (derives_up 3); [cbn; lia|]. refine (de_bin Shl _ _ [_] [_] _ _); [apply (derives_up 4); [cbn; lia|apply de_lit]|apply (derives_up 3); [cbn; lia|apply de_name]].
    + apply (derives_up 2); [cbn; lia|]. refine (de_par _ [_; _; _; _] _). apply (derives_up 5); [cbn; lia|]. refine (de_bin Mul _ _ [_; _] [_] _ _); [|apply (derives_up 1); [cbn; lia|apply de_lit]].
      apply (derives_up 1); [cbn; lia|]. apply (de_un UMinus), de_name.
  - unfold ex_tokens, ex_text.
    repeat first [refine (to_more KOpen "(" " " _ _ tt_open eq_refl _)|refine (to_more _ "0x1F" " " _ _ (tt_lit _ _ _ L1) eq_refl _)|refine (to_more _ "<<" "" _ _ (tt_op Shl) eq_refl _)
     |refine (to_more _ "N" " " _ _ (tt_name [] "N" _ _ _) eq_refl _); [repeat constructor|reflexivity|reflexivity|]|refine (to_more _ ")" " " _ _ tt_close eq_refl _)
     |refine (to_more _ "-" (NL ++ "  ") _ _ (tt_op Sub) eq_refl _)|refine (to_more _ "(" "" _ _ tt_open eq_refl _)|refine (to_more _ "-" "" _ _ (tt_op Sub) eq_refl _)
     |refine (to_more _ "A::N" "" _ _ (tt_name ["A"] "N" _ _ _) eq_refl _); [repeat constructor|reflexivity|reflexivity|]|refine (to_more _ "*" "" _ _ (tt_op Mul) eq_refl _)
     |refine (to_more _ "017" "" _ _ (tt_lit _ _ _ L2) eq_refl _)|refine (to_more _ ")" "" _ _ tt_close eq_refl _)|refine (to_more _ "|" "" _ _ (tt_op BOr) eq_refl _)|exact (to_one _ _ (tt_lit _ _ _ L4))].
  - intros x d. unfold ex_env. destruct (String.eqb_spec x "N") as [Q|_]; [rewrite Q; intros [= <-]; exists 5%nat; reflexivity|]. destruct (String.eqb_spec x "A::N") as [Q|_]; [rewrite Q; intros [= <-]; exists 5%nat; reflexivity|discriminate].
  - assert (N5 : evaluates PI32 ex_env (EName "N") 5) by (eapply ev_name; [reflexivity|apply ex_is_int; [reflexivity|apply Hf; lia]]).
    assert (N7 : evaluates PI32 ex_env (EName "A::N") 7) by (eapply ev_name; [reflexivity|apply ex_is_int; [reflexivity|apply Hf; lia]]).
    assert (V : forall l base z, literal l base z -> (-2000 <= z <= 2000)%Z -> evaluates PI32 ex_env (ELit l "") z) by (intros l base z L Hz; econstructor; [exact L|exact I|apply Hf, Hz]).
    change 1101%Z with (math BOr (math Sub (math Shl 31 5) (math Mul (un_math UMinus PI32 7) 15)) 4).
    apply ev_bin; [apply ev_bin; [apply ev_par, ev_bin; [eapply V; [exact L1|lia]|exact N5|split; cbn; lia|apply Hf; cbn; lia]|apply ev_par, ev_bin; [apply ev_un; [exact N7|apply Hf; cbn; lia]|eapply V; [exact L2|lia]|exact I|apply Hf; cbn; lia]|exact I|apply Hf; cbn; lia]|eapply V; [exact L4|lia]|exact I|apply Hf; cbn; lia].
  - cbn. repeat split; auto; left; cbn; try tauto; discriminate.
  - cbn. tauto.
Qed.

(** The sentence of an integer constant declares that constant.  Missing: the least value of each type ([C33_least_refuted]
    for int32 and int64), constants of other types. *)
Theorem C39_const_partial : forall fc flt flit c g root x d p z,
  int_kind p = true -> is_int d p z -> (prim_signed p = true -> z <> least p) -> is_ident x = true -> no_nulls root -> consts_paired root -> const_entry root [] x = None ->
  exists text root' d', const_idl g 0 x d = Ok text /\ parses fc flt flit c text root (Ok (true, root')) /\ const_entry root' [] x = Some d' /\ is_int d' p z /\
    (forall q y, q <> [] \/ y <> x -> const_entry root' q y = const_entry root q y) /\ (forall q k y, entry root' q k y = entry root q k y).
Proof.
  intros fc flt flit c g root x d p z Hk Hd Hl I N Cp New. destruct (printed_number p z Hk (int_fits d p z Hd (int_kind_bool p Hk)) Hl) as (e & ts & De & T & Ev).
  destruct (Ev (fun _ => None)) as (E1 & E2 & E3).
  destruct (C33_text_partial fc flt flit c root (fun _ => None) p (prim_idl p) x "" " " " " e ts (z_to_string z) "" NL z Hk (cs_int _ x p _ Hk (or_introl eq_refl)) I N Cp gap_none eq_refl eq_refl eq_refl gap_nl De T ltac:(discriminate) E1 E2 E3) as (b & root' & Pa & Hb & Hn & Ho & He & _).
  assert (b = true) by (apply Hb, New). subst b. destruct (Hn eq_refl) as (d' & Ed & Hd'). eexists _, root', d'.
  split; [|split; [exact Pa|split; [exact Ed|split; [exact Hd'|split; [|exact He]]]]].
  - unfold const_idl, const_value_idl, cast_string. rewrite (proj1 Hd). destruct (is_int_operand d p z Hd) as (a & -> & _ & Hz). cbn [bind]. replace (is_float p) with false by (destruct p; try discriminate Hk; reflexivity).
    cbn [bind]. rewrite Hz. destruct p; try discriminate Hk; reflexivity.
  - intros q y [H|H]; apply Ho; auto.
Qed.
Example C39_const_nontrivial : is_int (ex_int PI16 (-340)) PI16 (-340) /\ const_idl no_node 0 "k" (ex_int PI16 (-340)) = Ok ("const int16 k = -340;" ++ NL).
Proof. split; [apply ex_is_int; [reflexivity|unfold fits, least, greatest, width; cbn; lia]|vm_compute; reflexivity]. Qed.

Print Assumptions C33_text_partial.
Print Assumptions C39_const_partial.
