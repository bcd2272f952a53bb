(** The text of a struct declaration: matching, and what the parser's actions do with the tree. *)
From Verif Require Import Base Types TypeBuild Peg0 Grammar Peg PegFacts PegRules ModuleSpec ModuleFacts IdlLit IdlLitFacts Module NumText DepTree IdlParse GenIdl GenSpec TypeText.
From Verif Require Import GapSpec GapText.
Local Open Scope string_scope.

(** *** Declarators *)
Definition ident_node (x : string) : ast := Ast R_IDENTIFIER R_IDENTIFIER x [].
Lemma optimize_ident : forall x, optimize (ident_node x) = ident_node x.
Proof. reflexivity. Qed.
Definition size_node (d : N) : ast := Ast R_FIXED_ARRAY_SIZE R_FIXED_ARRAY_SIZE "" [Ast R_POSITIVE_INT_CONST R_POSITIVE_INT_CONST "" [number_node d]].
Lemma optimize_size : forall d, optimize (size_node d) = Ast R_FIXED_ARRAY_SIZE R_INTEGER_LITERAL (to_string d) [].
Proof. reflexivity. Qed.
Lemma ok_size : forall d s, solid s -> ok (Ref R_FIXED_ARRAY_SIZE) ("[" ++ to_string d ++ "]" ++ s) [size_node d] [] s.
Proof.
  intros d s S. eapply ok_ref_node; [|reflexivity|reflexivity]. cbn [gram].
  refine (ok_seq _ _ _ [] [] _ _ [] _ (ok_open R_OPEN_BRACKET "[" _ _ _ _) _); [kw|reflexivity|apply number_solid|].
  refine (ok_seq _ _ _ [_] [] _ [] [] _ (ok_positive d _ _) (ok_open R_CLOSE_BRACKET "]" s _ _ S)); [reflexivity|kw|reflexivity].
Qed.
Lemma no_size : forall s, solid s -> first_is (Ascii.eqb "[") s = false -> no (Ref R_FIXED_ARRAY_SIZE) s.
Proof. intros s S F. apply no_ref. cbn [gram]. apply no_seq_l. apply (no_punct R_OPEN_BRACKET "[" "" s); [kw|reflexivity|exact S|exact F]. Qed.
Lemma dims_solid : forall ds s, solid s -> solid (dims_idl ds ++ s).
Proof. intros [|d ds] s S; [exact S|reflexivity]. Qed.
Lemma ok_sizes : forall ds s, solid s -> first_is (Ascii.eqb "[") s = false -> ok (Star (Ref R_FIXED_ARRAY_SIZE)) (dims_idl ds ++ s) (map size_node ds) [] s.
Proof.
  induction ds as [|d ds IH]; intros s S F; cbn [dims_idl map].
  - apply ok_star_end, no_size; assumption.
  - rewrite !app_assoc_s. apply (ok_star_more _ _ [size_node d] [] (dims_idl ds ++ s) _ [] _); [apply ok_size, dims_solid, S|apply IH; assumption].
Qed.
Definition array_node (x : string) (ds : list N) : ast := Ast R_ARRAY_DECLARATOR R_ARRAY_DECLARATOR "" (ident_node x :: map size_node ds).
Lemma ok_array_declarator : forall x d ds s, is_ident x = true -> solid s -> first_is (Ascii.eqb "[") s = false ->
  ok (Ref R_ARRAY_DECLARATOR) (x ++ dims_idl (d :: ds) ++ s) [array_node x (d :: ds)] [] s.
Proof.
  intros x d ds s I S F. eapply ok_ref_node; [|reflexivity|reflexivity]. cbn [gram].
  refine (ok_seq _ _ _ [_] [] _ _ [] _ (ok_ident x _ I _) _); [reflexivity|]. cbn [dims_idl map]. rewrite !app_assoc_s.
  apply (ok_plus _ _ [size_node d] [] (dims_idl ds ++ s) _ [] _); [apply ok_size, dims_solid, S|apply ok_sizes; assumption].
Qed.
(** What a declarator must be followed by. *)
Record closes (s : string) : Prop := { c_solid : solid s; c_id : first_is id_char s = false; c_dim : first_is (Ascii.eqb "[") s = false }.
Lemma no_array_declarator : forall x s, is_ident x = true -> closes s -> no (Ref R_ARRAY_DECLARATOR) (x ++ s).
Proof.
  intros x s I C. apply no_ref. cbn [gram]. eapply no_seq_r; [apply ok_ident; [exact I|apply (c_id _ C)]|]. apply no_plus, no_size; [apply (c_solid _ C)|apply (c_dim _ C)].
Qed.
Definition declarator_node (x : string) (ds : list N) : ast :=
  match ds with [] => Ast R_SIMPLE_DECLARATOR R_SIMPLE_DECLARATOR "" [ident_node x] | _ => array_node x ds end.
Lemma ok_declarator_alt : forall e x ds s, is_ident x = true -> closes s -> ok (Alt (Ref R_ARRAY_DECLARATOR) (Alt (Ref R_SIMPLE_DECLARATOR) e)) (x ++ dims_idl ds ++ s) [declarator_node x ds] [] s /\
  ok (Alt (Ref R_ARRAY_DECLARATOR) (Ref R_SIMPLE_DECLARATOR)) (x ++ dims_idl ds ++ s) [declarator_node x ds] [] s.
Proof.
  intros e x [|d ds] s I C.
  - assert (O : ok (Ref R_SIMPLE_DECLARATOR) (x ++ s) [declarator_node x []] [] s).
    { eapply ok_ref_node; [|reflexivity|reflexivity]. cbn [gram]. apply ok_ident; [exact I|apply (c_id _ C)]. }
    cbn [dims_idl append]. split; (apply ok_alt_r; [apply no_array_declarator; assumption|]); [apply ok_alt_l|]; exact O.
  - split; apply ok_alt_l, ok_array_declarator; (exact I || apply (c_solid _ C) || apply (c_dim _ C)).
Qed.
Definition optimized_declarator (o : rule) (x : string) (ds : list N) : ast :=
  match ds with
  | [] => Ast o R_IDENTIFIER x []
  | _ => Ast o R_ARRAY_DECLARATOR "" (ident_node x :: map (fun d => Ast R_FIXED_ARRAY_SIZE R_INTEGER_LITERAL (to_string d) []) ds)
  end.
Lemma optimize_declarator : forall x ds o, with_orig o (optimize (declarator_node x ds)) = optimized_declarator o x ds.
Proof. intros x [|d ds] o; [reflexivity|]. cbn [declarator_node array_node optimize map with_orig optimized_declarator]. rewrite map_map. reflexivity. Qed.
(** DECLARATOR and DECLARATORS with one declarator. *)
Lemma ok_declarator : forall x ds s, is_ident x = true -> closes s ->
  ok (Ref R_DECLARATOR) (x ++ dims_idl ds ++ s) [Ast R_DECLARATOR R_DECLARATOR "" [declarator_node x ds]] [] s.
Proof. intros x ds s I C. eapply ok_ref_node; [|reflexivity|reflexivity]. cbn [gram]. apply (ok_declarator_alt Eps x ds s I C). Qed.
Lemma ok_declarators : forall x ds s, is_ident x = true -> closes s -> first_is (Ascii.eqb ",") s = false ->
  ok (Ref R_DECLARATORS) (x ++ dims_idl ds ++ s) [Ast R_DECLARATORS R_DECLARATORS "" [Ast R_DECLARATOR R_DECLARATOR "" [declarator_node x ds]]] [] s.
Proof.
  intros x ds s I C F. eapply ok_ref_node; [|reflexivity|reflexivity]. cbn [gram].
  refine (ok_seq _ _ _ [_] [] _ [] [] _ (ok_declarator x ds s I C) (ok_star_end _ _ _)). apply no_seq_l.
  apply (no_punct R_COMMA "," "" s); [kw|reflexivity|apply (c_solid _ C)|exact F].
Qed.

(** The parser's actions on a declarator. *)
Lemma declarator_parts_dims : forall n c root p ds x acc, Forall (fun d => d < 2 ^ 64)%N ds ->
  declarator_parts n c root p (map (fun d => Ast R_FIXED_ARRAY_SIZE R_INTEGER_LITERAL (to_string d) []) ds) x acc = Ok (x, (acc ++ map Z.of_N ds)%list).
Proof.
  induction ds as [|d ds IH]; intros x acc H; [cbn [map declarator_parts]; rewrite app_nil_r; reflexivity|]. inversion H as [|? ? Hd Hr]; subst.
  cbn [map declarator_parts a_tag a_tok]. rewrite stoul_to_string by exact Hd. cbn [bind]. rewrite IH by exact Hr. rewrite <- app_assoc. reflexivity.
Qed.
Lemma declarator_reads : forall n c root p o x ds, resolve_identifier n c root p x false = Ok x -> Forall (fun d => d < 2 ^ 64)%N ds ->
  declarator n c root p (optimized_declarator o x ds) = Ok (x, map Z.of_N ds).
Proof.
  intros n c root p o x ds R H. unfold declarator. destruct ds as [|d ds].
  - cbn [optimized_declarator a_tag a_tok]. rewrite R. reflexivity.
  - cbn [optimized_declarator a_tag a_sub]. cbn [declarator_parts ident_node a_tag a_tok]. rewrite R. cbn [bind].
    rewrite declarator_parts_dims by exact H. reflexivity.
Qed.

(** *** Arrays *)
Definition is_array (t : ty) : bool := match t with TArr _ _ _ => true | _ => false end.
Lemma array_dims_nil : forall t, is_array t = false -> array_dims t = [] /\ array_base t = t.
Proof. intros []; intros H; try discriminate H; split; reflexivity. Qed.
Lemma array_dims_small : forall t, canonical t -> Forall (fun d => d < 2 ^ 32)%N (array_dims t).
Proof. induction t; intros C; cbn [array_dims canonical] in *; try constructor; [tauto|]. apply IHt. tauto. Qed.
Lemma array_type_back : forall t, canonical t -> is_array t = true -> get_array_type (map Z.of_N (array_dims t)) (array_base t) = Ok t.
Proof.
  induction t as [p|nm sz vals|k b|nm c IHc d|c IHc b|k IHk v IHv b|k IHk v IHv|nm sz ms|nm sz ms ls dv iv d|nm a IHa]; intros C A; try discriminate A.
  cbn [canonical] in C. destruct C as (-> & L & C). cbn [array_dims array_base map]. destruct (is_array c) eqn:B.
  - assert (NE : map Z.of_N (array_dims c) <> []) by (destruct c; try discriminate B; discriminate).
    destruct (map Z.of_N (array_dims c)) as [|z zs] eqn:E; [congruence|]. cbn [get_array_type]. cbn [get_array_type] in IHc. rewrite (IHc C eq_refl). cbn [bind].
    rewrite to_u32_small by exact L. reflexivity.
  - destruct (array_dims_nil c B) as [-> ->]. cbn [map get_array_type]. rewrite to_u32_small by exact L. reflexivity.
Qed.
Lemma add_declared_one : forall t x ms, canonical t -> known_member x ms = false ->
  add_declared (array_base t) [(x, map Z.of_N (array_dims t))] ms = Ok (ms ++ [(x, t)])%list.
Proof.
  intros t x ms C K. cbn [add_declared]. rewrite K. destruct (is_array t) eqn:A.
  - pose proof (array_type_back t C A) as H. destruct (map Z.of_N (array_dims t)) eqn:E; [destruct t; discriminate|]. rewrite H. reflexivity.
  - destruct (array_dims_nil t A) as [-> ->]. reflexivity.
Qed.

(** *** Members *)
Definition member_core (name : ty -> string) (x : string) (t : ty) : string := type_text name (array_base t) ++ " " ++ x ++ dims_idl (array_dims t) ++ ";".
Lemma follows_name : forall x s, is_ident x = true -> follows " " (x ++ s).
Proof.
  intros x s I. constructor; [reflexivity|apply ident_solid, I|reflexivity|reflexivity|]. destruct x as [|c x]; [discriminate I|]. cbn [append first_is]. apply andb_true_iff in I as [I _]. cbn [first_is] in I.
  pose proof (all_ascii (fun c => implb (id_first c) (negb (Ascii.eqb "<" c))) eq_refl c) as K. cbv beta in K. rewrite I in K. apply negb_true_iff in K. exact K.
Qed.
Lemma no_annotation : forall s, first_is (Ascii.eqb "@") s = false -> no (Ref R_ANNOTATION_APPL) s.
Proof.
  intros s F. apply no_ref. cbn [gram]. apply no_seq_l, no_lit. destruct s as [|c s]; [reflexivity|]. cbn [first_is] in F. cbn [after]. rewrite F. reflexivity.
Qed.
Lemma id_first_at : forall c, id_first c = true -> Ascii.eqb "@" c = false.
Proof. intros c H. pose proof (all_ascii (fun c => implb (id_first c) (negb (Ascii.eqb "@" c))) eq_refl c) as K. cbv beta in K. rewrite H in K. apply negb_true_iff in K. exact K. Qed.
Lemma text_first_at : forall c, text_first c = true -> Ascii.eqb "@" c = false.
Proof. intros c H. apply orb_true_iff in H as [H|H]; [apply id_first_at, H|]. apply Ascii.eqb_eq in H. subst. reflexivity. Qed.
Lemma text_at : forall name t s, readable name t -> first_is (Ascii.eqb "@") (type_text name t ++ s) = false.
Proof. intros name t s R. destruct (text_ident name t R) as (c & r & -> & I). cbn [append first_is]. apply text_first_at, I. Qed.
(** The optimized tree of a member; the children of MEMBER. *)
Definition member_tree (name : ty -> string) (x : string) (t : ty) (a : ast) : Prop :=
  exists ty_node, a = Ast R_MEMBER R_MEMBER "" [ty_node; optimized_declarator R_DECLARATORS x (array_dims t)] /\ reads name ty_node (array_base t) /\ a_orig ty_node = R_TYPE_SPEC.
Lemma ok_member : forall name x t w s, readable name (array_base t) -> is_ident x = true -> all_chars is_ws w = true -> solid s ->
  exists a, ok (Ref R_MEMBER) (member_core name x t ++ w ++ s) [a] [] s /\ member_tree name x t (optimize a).
Proof.
  intros name x t w s R I W S. unfold member_core. rewrite !app_assoc_s.
  destruct (ok_type_spec name _ R "" " " (x ++ dims_idl (array_dims t) ++ ";" ++ w ++ s) eq_refl (follows_name _ _ I)) as (a & O & D & G). cbn [append] in O.
  eexists. split.
  - eapply ok_ref_node; [|reflexivity|reflexivity]. cbn [gram].
    refine (ok_seq _ _ _ [] [] _ _ [] _ (ok_star_end _ _ (no_annotation _ (text_at _ _ _ R))) _).
    refine (ok_seq _ _ _ [a] [] _ _ [] _ O _).
    refine (ok_seq _ _ _ [_] [] _ [] [] _ (ok_declarators x (array_dims t) (";" ++ w ++ s) I _ _) (ok_close R_SEMICOLON ";" w s _ _ W S)); [constructor; reflexivity|reflexivity|kw|reflexivity].
  - exists (optimize a). split; [|auto]. cbn [app]. unfold optimize at 1. fold optimize. cbn [map]. rewrite !optimize_one, with_orig_twice, optimize_declarator. reflexivity.
Qed.
Lemma member_def_type : forall n c root p a r t ms, a_orig a = R_TYPE_SPEC ->
  member_def n c root p (a :: r) t ms = (do x <- type_spec n c root p a; member_def n c root p r (Some x) ms).
Proof. intros n c root p [o tag k l] r t ms E. cbn [a_orig] in E. subst o. reflexivity. Qed.
Lemma member_def_names : forall n c root p a r t ms, a_orig a = R_DECLARATORS ->
  member_def n c root p (a :: r) (Some t) ms = (do ds <- identifier_list n c root p a; do ms <- add_declared t ds ms; member_def n c root p r (Some t) ms).
Proof. intros n c root p [o tag k l] r t ms E. cbn [a_orig] in E. subst o. reflexivity. Qed.
Lemma member_reads : forall name n c root p x t a ms, member_tree name x t a -> char_translation c = AsChar -> wide16 c = false -> knows name n root p (array_base t) ->
  canonical t -> resolve_identifier n c root p x false = Ok x -> known_member x ms = false ->
  member_def n c root p (a_sub a) None ms = Ok (ms ++ [(x, t)])%list.
Proof.
  intros name n c root p x t a ms (tn & -> & D & G) C W K Cn R M. cbn [a_sub]. rewrite (member_def_type _ _ _ _ _ _ _ _ G), (D n c root p C W K). cbn [bind].
  assert (O : a_orig (optimized_declarator R_DECLARATORS x (array_dims t)) = R_DECLARATORS) by (destruct (array_dims t); reflexivity). rewrite (member_def_names _ _ _ _ _ _ _ _ O).
  unfold identifier_list. rewrite O. assert (T : rule_eqb (a_tag (optimized_declarator R_DECLARATORS x (array_dims t))) R_DECLARATORS = false) by (destruct (array_dims t); reflexivity).
  rewrite T, declarator_reads; [|exact R|eapply Forall_impl; [|apply array_dims_small, Cn]; cbv beta; intros; lia].
  cbn [bind]. rewrite add_declared_one by assumption. reflexivity.
Qed.

(** *** Structs *)
(** The members, each on its own line. *)
Fixpoint members_text (name : ty -> ty -> string) (tabs : nat) (ms : list (string * ty)) : string :=
  match ms with [] => "" | (x, t) :: r => indent (S tabs) ++ member_core (name t) x t ++ NL ++ members_text name tabs r end.
Definition inherit_text (parent : option string) : string := match parent with Some b => " : " ++ b | None => "" end.
Definition struct_core (name : ty -> ty -> string) (tabs : nat) (x : string) (parent : option string) (ms : list (string * ty)) : string :=
  "struct " ++ x ++ inherit_text parent ++ NL ++ indent tabs ++ "{" ++ NL ++ members_text name tabs ms ++ indent tabs ++ "}".
Lemma indent_ws : forall k, all_chars is_ws (indent k) = true.
Proof. induction k as [|k IH]; [reflexivity|exact IH]. Qed.
Lemma ws_app : forall a b, all_chars is_ws a = true -> all_chars is_ws b = true -> all_chars is_ws (a ++ b) = true.
Proof. induction a as [|c a IH]; intros b A B; [exact B|]. cbn [append all_chars] in *. apply andb_true_iff in A as [-> A]. apply IH; assumption. Qed.
Lemma nl_indent_ws : forall k, all_chars is_ws (NL ++ indent k) = true.
Proof. intros k. apply ws_app; [reflexivity|apply indent_ws]. Qed.
Definition good_member (name : ty -> ty -> string) (m : string * ty) : Prop := is_ident (fst m) = true /\ readable (name (snd m)) (array_base (snd m)).
Lemma ok_members : forall name tabs s ms, Forall (good_member name) ms -> exists w rest l, members_text name tabs ms ++ indent tabs ++ "}" ++ s = w ++ rest /\ all_chars is_ws w = true /\ solid rest /\
  ok (Star (Ref R_MEMBER)) rest l [] ("}" ++ s) /\ Forall2 (fun m a => member_tree (name (snd m)) (fst m) (snd m) (optimize a)) ms l.
Proof.
  intros name tabs s. induction ms as [|[x t] ms IH]; intros G.
  - exists (indent tabs), ("}" ++ s), []. split; [reflexivity|]. split; [apply indent_ws|]. split; [reflexivity|]. split; [|constructor]. apply ok_star_end. no_by_text.
  - inversion G as [|? ? [I R] G']; subst. cbn [fst snd] in *. destruct (IH G') as (w & rest & l & E & W & So & O & T).
    destruct (ok_member (name t) x t (NL ++ w) rest R I) as (a & Oa & Ta); [apply ws_app; [reflexivity|exact W]|exact So|].
    exists (indent (S tabs)), (member_core (name t) x t ++ NL ++ w ++ rest), (a :: l). split; [|split; [apply (indent_ws (S tabs))|split; [|split]]].
    + cbn [members_text]. rewrite !app_assoc_s, E. reflexivity.
    + unfold member_core. rewrite !app_assoc_s. apply text_solid, R.
    + rewrite app_assoc_s in Oa. exact (ok_star_more _ _ [a] [] _ l [] _ Oa O).
    + constructor; assumption.
Qed.
Definition parent_nodes (parent : option string) : list ast := match parent with Some b => [Ast R_INHERITANCE R_INHERITANCE "" [name_node b]] | None => [] end.
Definition parent_trees (parent : option string) : list ast := match parent with Some b => [Ast R_INHERITANCE R_SCOPED_NAME b []] | None => [] end.
Definition good_parent (parent : option string) : Prop :=
  match parent with Some b => exists abs qs y, b = render abs qs y /\ Forall (fun y => is_ident y = true) (qs ++ [y]) | None => True end.
Lemma ok_inherit : forall parent w s, good_parent parent -> all_chars is_ws w = true -> exists w', (w' = w \/ w' = NL ++ w) /\
  ok (Opt (Ref R_INHERITANCE)) (inherit_text parent ++ NL ++ w ++ "{" ++ s) (parent_nodes parent) [] (w' ++ "{" ++ s).
Proof.
  intros [b|] w s G W; cbn [good_parent inherit_text parent_nodes] in *; exists (NL ++ w); (split; [right; reflexivity|]); rewrite !app_assoc_s.
  - destruct G as (abs & qs & y & -> & G). apply ok_opt_some. eapply ok_ref_node; [|reflexivity|reflexivity]. cbn [gram].
    assert (So : solid (render abs qs y ++ NL ++ w ++ "{" ++ s)).
    { destruct abs; [reflexivity|]. cbn [render]. destruct qs as [|q qs]; inversion G as [|? ? Hq _]; subst; cbn [qualified]; rewrite ?app_assoc_s; apply ident_solid, Hq. }
    refine (ok_seq _ _ _ [] [] _ _ [] _ (ok_punct R_COLON ":" " " " " _ _ _ _ _ _) _); [kw|reflexivity|reflexivity|reflexivity|exact So|].
    apply ok_absolute; [exact G|reflexivity|reflexivity].
  - apply ok_opt_none. apply no_ref. cbn [gram]. apply no_seq_l. rewrite <- app_assoc_s. apply (no_punct R_COLON ":" (NL ++ w)); [kw|apply ws_app; [reflexivity|exact W]|reflexivity|reflexivity].
Qed.
Lemma inherit_end : forall parent s, first_is id_char (inherit_text parent ++ NL ++ s) = false.
Proof. intros [b|] s; reflexivity. Qed.
Definition struct_node (x : string) (parent : option string) (l : list ast) : ast := Ast R_STRUCT_DEF R_STRUCT_DEF "" (ident_node x :: parent_nodes parent ++ l).
Lemma ok_struct : forall name tabs x parent ms w s, is_ident x = true -> good_parent parent -> Forall (good_member name) ms -> all_chars is_ws w = true -> solid s ->
  exists l, ok (Ref R_STRUCT_DEF) (struct_core name tabs x parent ms ++ w ++ s) [struct_node x parent l] [] s /\
    Forall2 (fun m a => member_tree (name (snd m)) (fst m) (snd m) (optimize a)) ms l.
Proof.
  intros name tabs x parent ms w s I P G W S. unfold struct_core. rewrite !app_assoc_s.
  destruct (ok_members name tabs (w ++ s) ms G) as (w1 & rest & l & E & W1 & S1 & O & T). rewrite E.
  destruct (ok_inherit parent (indent tabs) (NL ++ w1 ++ rest) P (indent_ws tabs)) as (w' & Hw & Oi).
  exists l. split; [|exact T]. eapply ok_ref_node; [|reflexivity|reflexivity]. cbn [gram].
  refine (ok_seq _ _ _ [] [] _ _ [] _ (ok_keyword R_KW_STRUCT "struct" "" " " _ _ eq_refl eq_refl _ _) _); [kw|apply ident_solid, I|reflexivity|].
  refine (ok_seq _ _ _ [_] [] _ _ [] _ (ok_ident x _ I (inherit_end _ _)) _).
  refine (ok_seq _ _ _ _ [] _ _ [] _ Oi _).
  assert (Ob : ok (Ref R_OPEN_BRACE) (w' ++ "{" ++ NL ++ w1 ++ rest) [] [] rest).
  { change (w' ++ "{" ++ NL ++ w1 ++ rest) with (w' ++ String "{" ((NL ++ w1) ++ rest)).
    apply ok_punct; [kw|reflexivity|destruct Hw as [->| ->]; [apply indent_ws|apply nl_indent_ws]|apply ws_app; [reflexivity|exact W1]|exact S1]. }
  refine (ok_seq _ _ _ [] [] _ _ [] _ Ob _). rewrite <- (app_nil_r l).
  exact (ok_seq _ _ _ l [] _ [] [] _ O (ok_close R_CLOSE_BRACE "}" w s ltac:(kw) eq_refl W S)).
Qed.
(** A definition of a type: TYPE_DCL with a struct, then the semicolon. *)
Definition struct_definition (x : string) (parent : option string) (l : list ast) : ast :=
  Ast R_DEFINITION R_DEFINITION "" [Ast R_TYPE_DCL R_TYPE_DCL "" [Ast R_CONSTR_TYPE_DLC R_CONSTR_TYPE_DLC "" [Ast R_STRUCT_DCL R_STRUCT_DCL "" [struct_node x parent l]]]].
Lemma ok_struct_definition : forall name tabs x parent ms w s, is_ident x = true -> good_parent parent -> Forall (good_member name) ms -> gap w -> solid s ->
  exists l, ok (Ref R_DEFINITION) (struct_core name tabs x parent ms ++ ";" ++ w ++ s) [struct_definition x parent l] [] s /\
    Forall2 (fun m a => member_tree (name (snd m)) (fst m) (snd m) (optimize a)) ms l.
Proof.
  intros name tabs x parent ms w s I P G W S. destruct (ok_struct name tabs x parent ms "" (";" ++ w ++ s) I P G eq_refl eq_refl) as (l & O & T).
  exists l. split; [|exact T]. cbn [append] in O. eapply ok_ref_node; [|reflexivity|reflexivity]. cbn [gram]. apply ok_alt_l.
  refine (ok_seq _ _ _ [_] [] _ [] [] _ _ (ok_close_gap R_SEMICOLON ";" w s ltac:(kw) eq_refl W S)).
  apply ok_alt_r; [no_by_text|]. apply ok_alt_r; [no_by_text|]. apply ok_alt_l.
  eapply ok_ref_node; [|reflexivity|reflexivity]. cbn [gram]. apply ok_alt_l. eapply ok_ref_node; [|reflexivity|reflexivity]. cbn [gram].
  refine (ok_seq _ _ _ [] [] _ [_] [] _ (ok_star_end _ _ _) _); [no_by_text|]. apply ok_alt_l.
  eapply ok_ref_node; [|reflexivity|reflexivity]. cbn [gram]. apply ok_alt_l. exact O.
Qed.
