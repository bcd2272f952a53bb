(** The text of a union declaration: the syntax tree of its labels and cases. *)
From Verif Require Import Base Types TypeBuild Peg0 Grammar Peg PegFacts PegRules ModuleSpec ModuleFacts IdlLit IdlLitFacts Module NumText DepTree IntOps IdlExpr IdlSpec IdlFacts IdlParse GenIdl GenSpec TypeText StructText ExprSpec ExprText ConstText AliasText.
From Verif Require Import GapSpec GapText.
Local Open Scope string_scope.

(** *** Labels *)
(** A text that is read as a constant expression when a single colon follows. *)
Definition spells (L : string) : Prop := (forall s, solid (L ++ s)) /\ forall s, first_is (Ascii.eqb ":") s = false -> exists a, ok (Ref R_CONST_EXPR) (L ++ ":" ++ s) [a] [] (":" ++ s).
Lemma stops_case : forall s, first_is (Ascii.eqb ":") s = false -> stops 0 "" (":" ++ s).
Proof.
  intros s FC. constructor; try reflexivity; [apply solid_firm; reflexivity| |].
  { destruct s as [|c s]; [reflexivity|]. cbn [first_is] in FC. cbn [append after]. change (Ascii.eqb ":" ":") with true. cbv iota. rewrite FC. reflexivity. }
  intros k w' K W'. apply no_op_char; [exact W'|reflexivity|lia].
Qed.
Lemma rd_primary : forall e ts, rderives 7 e ts -> rderives 0 e ts.
Proof. intros e ts H. do 7 (apply rd_up; [lia|]). exact H. Qed.
Lemma spells_expr : forall e ts L, rderives 7 e ts -> text_of ts L -> spells L.
Proof.
  intros e ts L D T. apply rd_primary in D. split; [intros s; apply start_solid; eapply text_start; eauto|]. intros s FC.
  destruct (ok_expr 0 e ts D L "" (":" ++ s) T (stops_case s FC)) as (a & w' & Hw & O & _). exists a. cbn [append] in O. destruct Hw as [-> | ->]; exact O.
Qed.
Lemma spells_number : forall v, spells (to_string v).
Proof. intros v. destruct (to_string_literal v) as (base & L). eapply spells_expr; [apply rd_lit|]. apply to_one. econstructor. exact L. Qed.
Lemma spells_name : forall e, is_ident e = true -> begins "TRUE" e = false -> begins "FALSE" e = false -> spells e.
Proof. intros e I B1 B2. eapply spells_expr; [apply rd_name|]. apply to_one. apply (tt_name [] e); [repeat constructor; exact I|exact B1|exact B2]. Qed.
Lemma spells_bool : spells "TRUE" /\ spells "FALSE".
Proof. split; (split; [intros s; reflexivity|intros s FC; eexists; eapply (ok_at 60); reflexivity]). Qed.
(** The line of a label. *)
Definition label_core (L : string) : string := (if String.eqb L "default" then "default" else "case " ++ L) ++ ":".
Definition label_node (L : string) : ast := Ast R_CASE_LABEL R_CASE_LABEL L [].
Definition good_label (L : string) : Prop := L = "default" \/ spells L.
Lemma gap_no_colon : forall w s, gap w -> w <> "" -> first_is (Ascii.eqb ":") (w ++ s) = false.
Proof.
  assert (SL : forall b r, all_chars is_ws b = true -> (b = "" -> first_is (Ascii.eqb ":") r = false) -> first_is (Ascii.eqb ":") (b ++ r) = false).
  { intros [|d b] r H F; [apply F; reflexivity|]. apply andb_true_iff in H as [H _]. pose proof (all_ascii (fun d => implb (is_ws d) (negb (Ascii.eqb ":" d))) eq_refl d) as K. cbv beta in K. rewrite H in K. apply negb_true_iff in K. exact K. }
  assert (SW : forall b, all_chars space_or_line b = true -> all_chars is_ws b = true). { induction b as [|d b IH]; intros H; [reflexivity|]. cbn [all_chars] in *. apply andb_true_iff in H as [H H']. rewrite (space_line_ws _ H), (IH H'). reflexivity. }
  intros w s G NE. destruct G as [w W|b t e g B T Us E G|b t g B T G].
  - apply SL; [exact W|intros ->; congruence].
  - rewrite !app_assoc_s. apply SL; [apply SW, B|reflexivity].
  - rewrite !app_assoc_s. apply SL; [apply SW, B|reflexivity].
Qed.
Lemma ok_label_gap : forall L w s, good_label L -> gap w -> w <> "" -> solid s -> ok (Ref R_CASE_LABEL) (label_core L ++ w ++ s) [label_node L] [] s.
Proof.
  intros L w s G W NE0 S. assert (D : ok (Ref R_CASE_LABEL) ("default" ++ ":" ++ w ++ s) [label_node "default"] [] s).
  { eapply ok_ref_token; [|reflexivity|reflexivity]. cbn [gram]. apply ok_alt_r; [no_by_text|].
    refine (ok_seq _ _ _ [] ["default"] _ [] [] _ (ok_tok _ "default" [] [] _ (ok_keyword R_KW_DEFAULT "default" "" "" (":" ++ w ++ s) _ eq_refl eq_refl _ _)) _); [kw|reflexivity|reflexivity|].
    exact (ok_close_gap R_COLON ":" w s ltac:(kw) eq_refl W S). }
  unfold label_core. destruct (String.eqb_spec L "default") as [->|NE]; rewrite !app_assoc_s; [exact D|].
  destruct G as [G|[So G]]; [contradiction|]. destruct (G (w ++ s) (gap_no_colon w s W NE0)) as (a & O).
  eapply ok_ref_token; [|reflexivity|reflexivity]. cbn [gram]. apply ok_alt_l.
  refine (ok_seq _ _ _ [] [] _ [_] _ _ (ok_keyword R_KW_CASE "case" "" " " _ _ eq_refl eq_refl _ _) _); [kw|apply So|reflexivity|].
  refine (ok_seq _ _ _ [a] [L] _ [] [] _ (ok_tok _ L [a] [] _ O) _).
  exact (ok_close_gap R_COLON ":" w s ltac:(kw) eq_refl W S).
Qed.
Lemma ok_label : forall L w s, good_label L -> all_chars is_ws w = true -> solid s -> ok (Ref R_CASE_LABEL) (label_core L ++ NL ++ w ++ s) [label_node L] [] s.
Proof.
  intros L w s G W S. pose proof (ok_label_gap L (NL ++ w) s G) as H. rewrite app_assoc_s in H. apply H; [apply gap_blank, ws_app; [reflexivity|exact W]|discriminate|exact S].
Qed.
Lemma label_solid : forall L s, solid (label_core L ++ s).
Proof. intros L s. unfold label_core. destruct (String.eqb L "default"); reflexivity. Qed.
Lemma no_label_plain : forall x s, plain x = true -> first_is id_char s = false -> no (Ref R_CASE_LABEL) (x ++ s).
Proof.
  intros x s P F. apply no_ref. cbn [gram]. apply no_alt; apply no_seq_l; [|apply no_tok]; no_word P F.
Qed.
Lemma no_label : forall name t w s, readable name t -> follows w s -> no (Ref R_CASE_LABEL) (type_text name t ++ w ++ s).
Proof.
  intros name t w s R F. assert (FI : first_is id_char (w ++ s) = false) by apply (f_id _ _ F).
  assert (X : forall z, plain_scoped z -> no (Ref R_CASE_LABEL) (z ++ w ++ s)).
  { intros z ([] & qs & y & -> & _ & P); cbn [render]; [rewrite ?app_assoc_s; no_by_text|]. destruct P as [P|P]; [discriminate P|]. destruct (qualified_first qs y (w ++ s)) as (s' & -> & F'). apply no_label_plain; [exact P|apply F', FI]. }
  destruct t as [p|nm sz vals|k b|nm c b|c b|k v b|k v|nm sz ms|nm sz ms ls dv iv d|nm a]; cbn [readable type_text] in *; try contradiction; try (apply X; exact R).
  - destruct p; no_by_text.
  - rewrite app_assoc_s. destruct k; no_by_text.
  - no_by_text.
  - no_by_text.
Qed.
(** The labels of a case, each on its own line. *)
Fixpoint labels_text (tabs : nat) (ls : list string) : string := match ls with [] => "" | L :: r => indent (S tabs) ++ label_core L ++ NL ++ labels_text tabs r end.
Lemma ok_labels : forall tabs w s ls, Forall good_label ls -> all_chars is_ws w = true -> solid s -> no (Ref R_CASE_LABEL) s ->
  exists w0 rest, labels_text tabs ls ++ w ++ s = w0 ++ rest /\ all_chars is_ws w0 = true /\ solid rest /\ ok (Star (Ref R_CASE_LABEL)) rest (map label_node ls) [] s.
Proof.
  intros tabs w s ls G W So N. induction G as [|L ls GL G IH]; cbn [labels_text map].
  - exists w, s. split; [reflexivity|]. split; [exact W|]. split; [exact So|]. apply ok_star_end, N.
  - destruct IH as (w0 & rest & E & W0 & S0 & O). exists (indent (S tabs)), (label_core L ++ NL ++ w0 ++ rest). rewrite !app_assoc_s, E. split; [reflexivity|]. split; [apply (indent_ws (S tabs))|]. split; [apply label_solid|].
    exact (ok_star_more _ _ [_] [] _ _ [] _ (ok_label L w0 rest GL W0 S0) O).
Qed.

(** *** Cases *)
Definition tcase := (list string * (string * ty))%type.
Definition case_text (name : ty -> ty -> string) (tabs : nat) (k : tcase) : string :=
  labels_text tabs (fst k) ++ indent (S (S tabs)) ++ member_core (name (snd (snd k))) (fst (snd k)) (snd (snd k)) ++ NL.
Fixpoint cases_text (name : ty -> ty -> string) (tabs : nat) (ks : list tcase) : string := match ks with [] => "" | k :: r => case_text name tabs k ++ cases_text name tabs r end.
Definition good_case (name : ty -> ty -> string) (k : tcase) : Prop := fst k <> [] /\ Forall good_label (fst k) /\ good_member name (snd k).
Definition element_tree (name : ty -> string) (x : string) (t : ty) (a : ast) : Prop :=
  exists ty_node, a = Ast R_ELEMENT_SPEC R_ELEMENT_SPEC "" [ty_node; optimized_declarator R_DECLARATOR x (array_dims t)] /\ reads name ty_node (array_base t) /\ a_orig ty_node = R_TYPE_SPEC.
Definition case_tree (name : ty -> ty -> string) (k : tcase) (a : ast) : Prop :=
  exists e, a = Ast R_CASE R_CASE "" (map label_node (fst k) ++ [e]) /\ element_tree (name (snd (snd k))) (fst (snd k)) (snd (snd k)) e.
Lemma member_core_follows : forall name x t s, is_ident x = true -> member_core name x t ++ s = type_text name (array_base t) ++ " " ++ (x ++ dims_idl (array_dims t) ++ ";" ++ s) /\
  follows " " (x ++ dims_idl (array_dims t) ++ ";" ++ s).
Proof. intros name x t s I. unfold member_core. rewrite !app_assoc_s. split; [reflexivity|apply follows_name, I]. Qed.
Lemma ok_element : forall name x t w s, readable name (array_base t) -> is_ident x = true -> all_chars is_ws w = true -> solid s ->
  exists a, ok (Seq (Ref R_ELEMENT_SPEC) (Ref R_SEMICOLON)) (member_core name x t ++ w ++ s) [a] [] s /\ element_tree name x t (optimize a).
Proof.
  intros name x t w s R I W S. destruct (member_core_follows name x t (w ++ s) I) as [-> F].
  destruct (ok_type_spec name _ R "" " " _ eq_refl F) as (a & O & D & G). cbn [append] in O.
  eexists. split.
  - refine (ok_seq _ _ _ [_] [] _ [] [] _ (ok_ref_node R_ELEMENT_SPEC _ _ _ (";" ++ w ++ s) _ eq_refl eq_refl) (ok_close R_SEMICOLON ";" w s ltac:(kw) eq_refl W S)). cbn [gram].
    refine (ok_seq _ _ _ [] [] _ _ [] _ (ok_star_end _ _ (no_annotation _ (text_at _ _ _ R))) _).
    refine (ok_seq _ _ _ [a] [] _ [_] [] _ O (ok_declarator x (array_dims t) (";" ++ w ++ s) I _)). constructor; reflexivity.
  - exists (optimize a). split; [|auto]. cbn [app]. unfold optimize at 1. fold optimize. cbn [map]. rewrite optimize_one, optimize_declarator. reflexivity.
Qed.
Lemma map_optimize_labels : forall ls, map optimize (map label_node ls) = map label_node ls.
Proof. intros ls. rewrite map_map. reflexivity. Qed.
Lemma ok_case : forall name tabs k w s, good_case name k -> all_chars is_ws w = true -> solid s ->
  exists w0 rest a, case_text name tabs k ++ w ++ s = w0 ++ rest /\ all_chars is_ws w0 = true /\ solid rest /\ ok (Ref R_CASE) rest [a] [] s /\ case_tree name k (optimize a).
Proof.
  intros name tabs [ls [x t]] w s (NE & GL & I & R) W Ss. cbn [fst snd] in *. destruct ls as [|L ls]; [congruence|]. inversion GL as [|? ? GL1 GL2]; subst.
  destruct (ok_element (name t) x t (NL ++ w) s R I (ws_app NL w eq_refl W) Ss) as (e & Oe & Te).
  assert (N : no (Ref R_CASE_LABEL) (member_core (name t) x t ++ (NL ++ w) ++ s)).
  { destruct (member_core_follows (name t) x t ((NL ++ w) ++ s) I) as [-> F]. apply no_label; assumption. }
  assert (So : solid (member_core (name t) x t ++ (NL ++ w) ++ s)) by (unfold member_core; rewrite !app_assoc_s; apply text_solid, R).
  destruct (ok_labels tabs (indent (S (S tabs))) _ ls GL2 (indent_ws (S (S tabs))) So N) as (w0 & rest & E & W0 & S0 & O).
  exists (indent (S tabs)), (label_core L ++ NL ++ w0 ++ rest), (Ast R_CASE R_CASE "" (map label_node (L :: ls) ++ [e])%list). split; [|split; [apply (indent_ws (S tabs))|split; [apply label_solid|split]]].
  - unfold case_text. cbn [fst snd labels_text]. rewrite <- E, !app_assoc_s. reflexivity.
  - eapply ok_ref_node; [|reflexivity|reflexivity]. cbn [gram].
    refine (ok_seq _ _ _ _ [] _ [e] [] _ _ Oe). exact (ok_plus _ _ [_] [] _ _ [] _ (ok_label L w0 rest GL1 W0 S0) O).
  - exists (optimize e). split; [|exact Te]. unfold optimize at 1. fold optimize. rewrite map_app, map_optimize_labels. cbn [map app fst]. destruct ls as [|L2 ls]; reflexivity.
Qed.
Lemma ok_cases : forall name tabs s ks, Forall (good_case name) ks -> exists w rest l, cases_text name tabs ks ++ indent tabs ++ "}" ++ s = w ++ rest /\ all_chars is_ws w = true /\ solid rest /\
  ok (Star (Ref R_CASE)) rest l [] ("}" ++ s) /\ Forall2 (fun k a => case_tree name k (optimize a)) ks l.
Proof.
  intros name tabs s ks G. induction G as [|k ks Gk G IH].
  - exists (indent tabs), ("}" ++ s), []. split; [reflexivity|]. split; [apply indent_ws|]. split; [reflexivity|]. split; [|constructor]. apply ok_star_end. no_by_text.
  - destruct IH as (w & rest & l & E & W & So & O & T). destruct (ok_case name tabs k w rest Gk W So) as (w0 & rest0 & a & E0 & W0 & S0 & O0 & T0).
    exists w0, rest0, (a :: l). cbn [cases_text]. rewrite app_assoc_s, E, E0. split; [reflexivity|]. split; [exact W0|]. split; [exact S0|]. split; [|constructor; assumption].
    exact (ok_star_more _ _ [a] [] _ l [] _ O0 O).
Qed.
(** *** The discriminator *)
Definition switchable (name : ty -> string) (t : ty) : Prop :=
  match t with TPrim p => int_kind p = true \/ p = PBool \/ p = PC8 \/ p = PWC | TEnum _ _ _ => plain_scoped (name t) | _ => False end.
Lemma ok_switch : forall name t s, switchable name t -> exists a, ok (Ref R_SWITCH_TYPE_SPEC) (type_text name t ++ ")" ++ s) [a] [] (")" ++ s) /\ reads name (optimize a) t /\ a_orig (optimize a) = R_SWITCH_TYPE_SPEC.
Proof.
  intros name t s H. destruct t as [p|nm sz vals|k b|nm c b|c b|k v b|k v|nm sz ms|nm sz ms ls dv iv d|nm a]; cbn [switchable type_text] in *; try contradiction.
  - assert (X : exists a, ok (Ref R_SWITCH_TYPE_SPEC) (prim_idl p ++ ")" ++ s) [a] [] (")" ++ s) /\ optimize a = Ast R_SWITCH_TYPE_SPEC (prim_rule p) "" []).
    { destruct p; try (exfalso; destruct H as [H|[H|[H|H]]]; discriminate H); (eexists; split; [eapply (ok_at 60); reflexivity|reflexivity]). }
    destruct X as (a & O & E). exists a. split; [exact O|]. rewrite E. split; [|reflexivity].
    intros n c root q C W _. destruct p; cbn [prim_rule type_spec]; rewrite ?C, ?W; try reflexivity; exfalso; destruct H as [H|[H|[H|H]]]; discriminate H.
  - destruct H as (abs & qs & y & E & I & P). cbn [type_text]. rewrite E. exists (Ast R_SWITCH_TYPE_SPEC R_SWITCH_TYPE_SPEC "" [name_node (render abs qs y)]). split; [|split; [|reflexivity]].
    + eapply ok_ref_node; [|reflexivity|reflexivity]. cbn [gram].
      destruct abs; [do 5 (apply ok_alt_r; [no_by_text|]); apply ok_absolute; [exact I|reflexivity|reflexivity]|]. destruct P as [P|P]; [discriminate P|]. cbn [render] in *.
      destruct (qualified_first qs y (")" ++ s)) as (s' & E' & F'). pose proof (F' eq_refl) as F.
      do 5 (apply ok_alt_r; [rewrite E'; no_words P F|]). apply ok_scoped; [exact I|reflexivity|reflexivity].
    + rewrite <- E. intros n c root q C W K. rewrite optimize_one. cbn. cbn [knows] in K. rewrite K. reflexivity.
Qed.

(** *** The union *)
Definition union_core (name : ty -> ty -> string) (tabs : nat) (x : string) (disc : ty) (ks : list tcase) : string :=
  "union " ++ x ++ " switch (" ++ type_text (name disc) disc ++ ")" ++ NL ++ indent tabs ++ "{" ++ NL ++ cases_text name tabs ks ++ indent tabs ++ "}".
Definition union_node (x : string) (d : ast) (l : list ast) : ast := Ast R_UNION_DEF R_UNION_DEF "" [ident_node x; d; Ast R_SWITCH_BODY R_SWITCH_BODY "" l].
Lemma switch_solid : forall name t s, switchable name t -> solid (type_text name t ++ s).
Proof.
  intros name t s H. destruct t as [p|nm sz vals|k b|nm c b|c b|k v b|k v|nm sz ms|nm sz ms ls dv iv d|nm a]; cbn [switchable type_text] in *; try contradiction; [destruct p; reflexivity|].
  apply text_solid with (t := TEnum nm sz vals). exact H.
Qed.
Lemma ok_union : forall name tabs x disc ks w s, is_ident x = true -> switchable (name disc) disc -> ks <> [] -> Forall (good_case name) ks -> all_chars is_ws w = true -> solid s ->
  exists d l, ok (Ref R_UNION_DEF) (union_core name tabs x disc ks ++ w ++ s) [union_node x d l] [] s /\ reads (name disc) (optimize d) disc /\ a_orig (optimize d) = R_SWITCH_TYPE_SPEC /\
    Forall2 (fun k a => case_tree name k (optimize a)) ks l.
Proof.
  intros name tabs x disc ks w s I D NE G W S. unfold union_core. rewrite !app_assoc_s.
  destruct ks as [|k ks]; [congruence|]. inversion G as [|? ? Gk G']; subst.
  destruct (ok_cases name tabs (w ++ s) ks G') as (w1 & rest & l & E & W1 & S1 & O & T).
  destruct (ok_case name tabs k w1 rest Gk W1 S1) as (w0 & rest0 & a & E0 & W0 & S0 & O0 & T0). cbn [cases_text]. rewrite !app_assoc_s, E, E0.
  destruct (ok_switch (name disc) disc (NL ++ indent tabs ++ "{" ++ NL ++ w0 ++ rest0) D) as (d & Od & Rd & Gd).
  exists d, (a :: l). split; [|split; [exact Rd|split; [exact Gd|constructor; assumption]]]. eapply ok_ref_node; [|reflexivity|reflexivity]. cbn [gram].
  refine (ok_seq _ _ _ [] [] _ _ [] _ (ok_keyword R_KW_UNION "union" "" " " _ _ eq_refl eq_refl _ _) _); [kw|apply ident_solid, I|reflexivity|].
  refine (ok_seq _ _ _ [_] [] _ _ [] _ (ok_ident x _ I _) _); [reflexivity|].
  refine (ok_seq _ _ _ [] [] _ _ [] _ (ok_keyword R_KW_SWITCH "switch" " " " " _ _ eq_refl eq_refl _ _) _); [kw|reflexivity|reflexivity|].
  refine (ok_seq _ _ _ [] [] _ _ [] _ (ok_open R_OPEN_PARENTHESES "(" _ ltac:(kw) eq_refl (switch_solid _ _ _ D)) _).
  refine (ok_seq _ _ _ [_] [] _ _ [] _ Od _).
  refine (ok_seq _ _ _ [] [] _ _ [] _ _ _).
  { pose proof (ok_close R_CLOSE_PARENTHESES ")" (NL ++ indent tabs) ("{" ++ NL ++ w0 ++ rest0) ltac:(kw) eq_refl (nl_indent_ws tabs) eq_refl) as Q. rewrite app_assoc_s in Q. exact Q. }
  refine (ok_seq _ _ _ [] [] _ _ [] _ _ _).
  { exact (ok_close R_OPEN_BRACE "{" (NL ++ w0) rest0 ltac:(kw) eq_refl (ws_app NL w0 eq_refl W0) S0). }
  refine (ok_seq _ _ _ [_] [] _ [] [] _ (ok_ref_node R_SWITCH_BODY _ _ _ _ _ eq_refl eq_refl) (ok_close R_CLOSE_BRACE "}" w s ltac:(kw) eq_refl W S)).
  cbn [gram]. exact (ok_plus _ _ [a] [] _ l [] _ O0 O).
Qed.
Definition union_definition (x : string) (d : ast) (l : list ast) : ast :=
  Ast R_DEFINITION R_DEFINITION "" [Ast R_TYPE_DCL R_TYPE_DCL "" [Ast R_CONSTR_TYPE_DLC R_CONSTR_TYPE_DLC "" [Ast R_UNION_DCL R_UNION_DCL "" [union_node x d l]]]].
Lemma ok_union_definition : forall name tabs x disc ks w s, is_ident x = true -> switchable (name disc) disc -> ks <> [] -> Forall (good_case name) ks -> gap w -> solid s ->
  exists d l, ok (Ref R_DEFINITION) (union_core name tabs x disc ks ++ ";" ++ w ++ s) [union_definition x d l] [] s /\ reads (name disc) (optimize d) disc /\ a_orig (optimize d) = R_SWITCH_TYPE_SPEC /\
    Forall2 (fun k a => case_tree name k (optimize a)) ks l.
Proof.
  intros name tabs x disc ks w s I D NE G W S. destruct (ok_union name tabs x disc ks "" (";" ++ w ++ s) I D NE G eq_refl eq_refl) as (d & l & O & R & Gd & T).
  exists d, l. split; [|split; [exact R|split; [exact Gd|exact T]]]. cbn [append] in O. eapply ok_ref_node; [|reflexivity|reflexivity]. cbn [gram]. apply ok_alt_l.
  refine (ok_seq _ _ _ [_] [] _ [] [] _ _ (ok_close_gap R_SEMICOLON ";" w s ltac:(kw) eq_refl W S)).
  apply ok_alt_r; [no_by_text|]. apply ok_alt_r; [no_by_text|]. apply ok_alt_l.
  eapply ok_ref_node; [|reflexivity|reflexivity]. cbn [gram]. apply ok_alt_l. eapply ok_ref_node; [|reflexivity|reflexivity]. cbn [gram].
  refine (ok_seq _ _ _ [] [] _ [_] [] _ (ok_star_end _ _ _) _); [no_by_text|]. apply ok_alt_r; [no_by_text|]. apply ok_alt_l.
  eapply ok_ref_node; [|reflexivity|reflexivity]. cbn [gram]. apply ok_alt_l. exact O.
Qed.
Definition union_tree (x : string) (d : ast) (l : list ast) : ast := Ast R_DEFINITION R_UNION_DEF "" [ident_node x; d; Ast R_SWITCH_BODY R_SWITCH_BODY "" l].
Lemma optimize_union : forall x d a b l, optimize (union_definition x d (a :: b :: l)) = union_tree x (optimize d) (map optimize (a :: b :: l)).
Proof. intros x d a b l. unfold union_definition. rewrite !optimize_one, !with_orig_twice. reflexivity. Qed.
