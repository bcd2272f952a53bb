(** The text of a type is read back as that type: matching. *)
From Verif Require Import Base Types Peg0 Grammar Peg PegFacts PegRules ModuleSpec ModuleFacts IdlLit IdlLitFacts Module NumText DepTree IdlParse GenIdl GenSpec.
Local Open Scope string_scope.

(** [w] are the spaces behind a type name, [s] is what follows them. *)
Record follows (w s : string) : Prop := {
  f_ws : all_chars is_ws w = true; f_solid : solid s; f_id : first_is id_char (w ++ s) = false;
  f_colon : after "::" (w ++ s) = None; f_angle : first_is (Ascii.eqb "<") s = false }.
Lemma not_first : forall s, first_is id_char s = false -> first_is id_first s = false.
Proof. intros [|c s] H; [reflexivity|]. cbn [first_is] in *. destruct (id_first c) eqn:E; [|reflexivity]. apply id_first_char in E; congruence. Qed.

Ltac kw := repeat split.
Ltac no_by_text := apply (no_at 40); reflexivity.
Ltac drill := repeat first
  [ apply ok_alt_r; [solve [no_by_text]|]
  | apply ok_alt_l
  | eapply ok_ref_node; [|reflexivity|reflexivity]; cbn [gram] ].

(** *** Identifiers that are no keywords *)
Lemma plain_ident : forall x, plain x = true -> is_ident x = true.
Proof. intros x H. apply andb_true_iff in H as [H _]. exact H. Qed.
Lemma plain_clash : forall x k, plain x = true -> In k keywords -> clash k x = false.
Proof. intros x k H I. apply andb_true_iff in H as [_ H]. rewrite forallb_forall in H. apply negb_true_iff, H, I. Qed.
Lemma no_plain : forall q k w x s, plain x = true -> keyword q k -> In k keywords -> all_chars is_ws w = true -> first_is id_char s = false -> no (Ref q) (w ++ x ++ s).
Proof. intros q k w x s P K I W F. eapply no_keyword; [exact K|exact W|apply plain_ident, P|exact F|apply plain_clash; assumption]. Qed.
(** Keywords of several words. *)
Definition compound (q : rule) (k : string) (e e' : exp rule) : Prop := gram q = Seq (Opt (Ref R_WS)) (Seq (Tok (Seq (Lit k) (Seq (Ref R_WS) e))) e') /\ is_ident k = true.
Lemma no_ws : forall s, solid s -> no (Ref R_WS) s.
Proof.
  intros s H. apply no_ref. cbn [gram]. apply no_alt; [exact (no_comment "" s eq_refl H)|]. apply no_plus, no_cls. intros c r ->. apply solid_char in H as [H _]. exact H.
Qed.
Lemma no_compound : forall q k e e' w x s, plain x = true -> compound q k e e' -> In k keywords -> all_chars is_ws w = true -> first_is id_char s = false -> no (Ref q) (w ++ x ++ s).
Proof.
  intros q k e e' w x s P (G & K) I W F. apply no_ref. rewrite G. eapply no_seq_r; [apply (opt_ws w _ W), ident_solid, plain_ident, P|].
  apply no_seq_l, no_tok. pose proof (plain_clash _ _ P I) as C. apply andb_true_iff in K as [K1 K2]. unfold clash in C. destruct (after k x) as [r|] eqn:E.
  - apply negb_false_iff in C. eapply no_seq_r.
    + rewrite (after_app _ _ _ E), app_assoc_s. apply ok_lit, after_self.
    + apply no_seq_l, no_ws. destruct r as [|c r]; [discriminate C|]. apply id_char_solid, id_first_char, C.
  - apply no_seq_l, no_lit. rewrite after_prefix, E; [reflexivity|exact K2|exact F].
Qed.
Ltac in_keywords := cbv [keywords]; cbn [In]; repeat (first [left; reflexivity|right]).
Ltac no_word0 P F :=
  match goal with
  | |- no (Ref ?q) _ => first
      [ eapply (no_plain q _ ""); [exact P|solve [kw]|in_keywords|reflexivity|exact F]
      | eapply (no_compound q _ _ _ ""); [exact P|solve [kw]|in_keywords|reflexivity|exact F] ]
  end.
Ltac no_word P F := match goal with |- no _ ?t => change t with ("" ++ t); no_word0 P F end.
(** None of the types with keywords begins like this. *)
Ltac no_words P F := cbn [append]; repeat first
  [ no_word P F
  | apply no_alt
  | apply no_seq_l
  | apply no_ref; cbn [gram] ].
Lemma no_template_plain : forall x s, plain x = true -> first_is id_char s = false -> no (Ref R_TEMPLATE_TYPE_SPEC) (x ++ s).
Proof. intros x s P F. no_words P F. Qed.
Lemma no_base_plain : forall x s, plain x = true -> first_is id_char s = false -> no (Ref R_BASE_TYPE_SPEC) (x ++ s).
Proof. intros x s P F. no_words P F. Qed.

(** *** Scoped names *)
Lemma after_colon_app : forall s, after "::" ("::" ++ s) = Some s.
Proof. intros; reflexivity. Qed.
Lemma ok_scoped_exp : forall qs x s, Forall (fun y => is_ident y = true) (qs ++ [x]) -> first_is id_char s = false -> after "::" s = None ->
  exists ns ts, ok (gram R_SCOPED_NAME) (qualified qs x ++ s) ns (qualified qs x :: ts) s.
Proof.
  induction qs as [|q qs IH]; intros x s H F C; cbn [qualified app] in *; inversion H as [|? ? Hx Hr]; subst.
  - do 2 eexists. cbn [gram]. apply ok_tok. apply ok_alt_r; [|apply ok_alt_r; [|apply ok_ident; assumption]].
    + eapply no_seq_r; [apply ok_ident; assumption|]. apply no_seq_l, no_ref. cbn [gram]. apply no_lit, C.
    + apply no_seq_l, no_ref. cbn [gram]. apply no_lit. destruct x as [|c x]; [discriminate Hx|]. apply andb_true_iff in Hx as [Hx _]. cbn [first_is] in Hx.
      cbn [append after]. pose proof (all_ascii (fun c => implb (id_first c) (negb (Ascii.eqb ":" c))) eq_refl c) as K. cbv beta in K. rewrite Hx in K. apply negb_true_iff in K. rewrite K. reflexivity.
  - destruct (IH x s Hr F C) as (ns & ts & E). do 2 eexists. cbn [gram]. apply ok_tok. rewrite !app_assoc_s. apply ok_alt_l.
    refine (ok_seq _ _ _ _ [] _ _ _ _ (ok_ident q _ Hx _) _); [reflexivity|].
    refine (ok_seq _ _ _ [] [] _ _ _ _ _ _).
    + eapply ok_ref_ignored; [|reflexivity]. cbn [gram]. apply ok_lit. apply after_colon_app.
    + eapply ok_ref_token; [exact E|reflexivity|reflexivity].
Qed.
Definition name_node (x : string) : ast := Ast R_SCOPED_NAME R_SCOPED_NAME x [].
Lemma ok_scoped : forall qs x s, Forall (fun y => is_ident y = true) (qs ++ [x]) -> first_is id_char s = false -> after "::" s = None ->
  ok (Ref R_SCOPED_NAME) (qualified qs x ++ s) [name_node (qualified qs x)] [] s.
Proof. intros qs x s H F C. destruct (ok_scoped_exp qs x s H F C) as (ns & ts & E). eapply ok_ref_token; [exact E|reflexivity|reflexivity]. Qed.
Lemma ok_absolute : forall abs qs x s, Forall (fun y => is_ident y = true) (qs ++ [x]) -> first_is id_char s = false -> after "::" s = None ->
  ok (Ref R_SCOPED_NAME) (render abs qs x ++ s) [name_node (render abs qs x)] [] s.
Proof.
  intros [] qs x s H F C; [|apply ok_scoped; assumption]. cbn [render]. destruct (ok_scoped_exp qs x s H F C) as (ns & ts & E). eapply ok_ref_token; [|reflexivity|reflexivity].
  cbn [gram]. apply ok_tok. rewrite !app_assoc_s. apply ok_alt_r; [no_by_text|]. apply ok_alt_l. refine (ok_seq _ _ _ [] [] _ _ _ _ _ _).
  + eapply ok_ref_ignored; [|reflexivity]. cbn [gram]. apply ok_lit. apply after_colon_app.
  + eapply ok_ref_token; [exact E|reflexivity|reflexivity].
Qed.
Lemma qualified_first : forall qs x s, exists s', qualified qs x ++ s = hd x qs ++ s' /\ (first_is id_char s = false -> first_is id_char s' = false).
Proof.
  intros [|q qs] x s; cbn [qualified hd]; [eauto|]. exists ("::" ++ qualified qs x ++ s). rewrite !app_assoc_s. split; [reflexivity|intros _; reflexivity].
Qed.

(** *** Basic types *)
Lemma no_template_prim : forall p r, no (Ref R_TEMPLATE_TYPE_SPEC) (prim_idl p ++ r).
Proof. intros p r; destruct p; no_by_text. Qed.
Definition prim_rule (p : prim) : rule :=
  match p with
  | PBool => R_BOOLEAN_TYPE | PC8 => R_CHAR_TYPE | PC16 | PWC => R_WIDE_CHAR_TYPE | PI8 => R_SIGNED_TINY_INT | PU8 => R_UNSIGNED_TINY_INT
  | PI16 => R_SIGNED_SHORT_INT | PU16 => R_UNSIGNED_SHORT_INT | PI32 => R_SIGNED_LONG_INT | PU32 => R_UNSIGNED_LONG_INT
  | PI64 => R_SIGNED_LONGLONG_INT | PU64 => R_UNSIGNED_LONGLONG_INT | PF32 => R_FLOAT_TYPE | PF64 => R_DOUBLE_TYPE | PF128 => R_LONG_DOUBLE_TYPE
  end.
Lemma ok_long_double : forall w s, all_chars is_ws w = true -> solid s -> first_is id_first (w ++ s) = false -> ok (Ref R_KW_LONG_DOUBLE) ("long double" ++ w ++ s) [] [] s.
Proof.
  intros w s W S F. eapply ok_ref_ignored; [|reflexivity]. cbn [gram].
  refine (ok_seq _ _ _ [] [] _ [] _ _ (opt_ws0 _ _) _); [reflexivity|].
  refine (ok_seq _ _ _ [] _ _ [] [] _ (ok_tok _ "long double" [] [] _ _) (ok_seq _ _ _ [] [] _ [] [] _ (end_kw _ F) (opt_ws w s W S))).
  refine (ok_seq (Lit "long") _ ("long double" ++ w ++ s) [] [] (" double" ++ w ++ s) [] [] _ (ok_lit _ _ _ _) _); [reflexivity|].
  refine (ok_seq (Ref R_WS) (Lit "double") (" double" ++ w ++ s) [] [] ("double" ++ w ++ s) [] [] _ _ (ok_lit _ _ _ _)); [|reflexivity].
  eapply ok_ref_ignored; [|reflexivity]. cbn [gram]. apply ok_alt_r; [no_by_text|].
  refine (ok_plus _ _ [] [] ("double" ++ w ++ s) [] [] _ (ok_cls _ " " _ _) (ok_star_end _ _ (no_cls _ _ _))); [reflexivity|].
  intros c r E. injection E as <- _. reflexivity.
Qed.
Lemma ok_base_prim : forall p w s, follows w s -> exists a, ok (Ref R_BASE_TYPE_SPEC) (prim_idl p ++ w ++ s) [a] [] s /\
  optimize a = Ast R_BASE_TYPE_SPEC (prim_rule p) "" [].
Proof.
  intros p w s F. pose proof (not_first _ (f_id _ _ F)) as NI.
  assert (K : forall q k, keyword q k -> ok (Ref q) (k ++ w ++ s) [] [] s).
  { intros q k Hk. exact (ok_keyword q k "" w s Hk eq_refl (f_ws _ _ F) (f_solid _ _ F) NI). }
  destruct p.
  1: eexists; split; [drill; apply (K R_KW_BOOLEAN "boolean"); kw|reflexivity].
  1: eexists; split; [drill; apply (K R_KW_INT8 "int8"); kw|reflexivity].
  1: eexists; split; [drill; apply (K R_KW_UINT8 "uint8"); kw|reflexivity].
  1: eexists; split; [drill; apply (K R_KW_INT16 "int16"); kw|reflexivity].
  1: eexists; split; [drill; apply (K R_KW_UINT16 "uint16"); kw|reflexivity].
  1: eexists; split; [drill; apply (K R_KW_INT32 "int32"); kw|reflexivity].
  1: eexists; split; [drill; apply (K R_KW_UINT32 "uint32"); kw|reflexivity].
  1: eexists; split; [drill; apply (K R_KW_INT64 "int64"); kw|reflexivity].
  1: eexists; split; [drill; apply (K R_KW_UINT64 "uint64"); kw|reflexivity].
  1: eexists; split; [drill; apply (K R_KW_FLOAT "float"); kw|reflexivity].
  1: eexists; split; [drill; apply (K R_KW_DOUBLE "double"); kw|reflexivity].
  1: eexists; split; [drill; apply (ok_long_double w s (f_ws _ _ F) (f_solid _ _ F) NI)|reflexivity].
  1: eexists; split; [drill; apply (K R_KW_CHAR "char"); kw|reflexivity].
  all: eexists; split; [drill; apply (K R_KW_WCHAR "wchar"); kw|reflexivity].
Qed.

(** *** Types *)
(** The text of a type, [name] being how a named type is written. *)
Fixpoint type_text (name : ty -> string) (t : ty) : string :=
  match t with
  | TPrim p => prim_idl p
  | TArr _ c _ => type_text name c
  | TSeq c b => "sequence<" ++ type_text name c ++ bound_idl b ++ ">"
  | TMap k v b => "map<" ++ type_text name k ++ ", " ++ type_text name v ++ bound_idl b ++ ">"
  | TStr k b => match k with SK8 => "string" | _ => "wstring" end ++ (if (0 <? b)%N then "<" ++ to_string b ++ ">" else "")
  | _ => name t
  end.
(** The module at [p] knows the types mentioned in [t] by their names; no constant is named by a number. *)
Fixpoint knows (name : ty -> string) (n : nat) (root : modl) (p : place) (t : ty) : Prop :=
  match t with
  | TPrim _ => True
  | TArr _ c _ => knows name n root p c
  | TSeq c _ => knows name n root p c
  | TMap k v _ => knows name n root p k /\ knows name n root p v
  | TStr k b => find_in n root p consts (if (0 <? b)%N then to_string b else "") = Ok None
  | _ => type_named n root p (name t) = Ok (Some t)
  end.
Definition reads (name : ty -> string) (a : ast) (t : ty) : Prop := forall n c root p,
  char_translation c = AsChar -> wide16 c = false -> knows name n root p t -> type_spec n c root p a = Ok t.
Definition with_orig (o : rule) (a : ast) : ast := match a with Ast _ t k l => Ast o t k l end.
Lemma reads_orig : forall name o a t, reads name a t -> reads name (with_orig o a) t.
Proof. intros name o [o' tag k l] t H n c root p C W K. specialize (H n c root p C W K). exact H. Qed.
Lemma optimize_one : forall q a, optimize (Ast q q "" [a]) = with_orig q (optimize a).
Proof. intros q a. cbn [optimize]. destruct (optimize a). reflexivity. Qed.
Lemma with_orig_twice : forall o o' a, with_orig o (with_orig o' a) = with_orig o a.
Proof. intros o o' []; reflexivity. Qed.

Definition any_type : exp rule := Alt (Ref R_TEMPLATE_TYPE_SPEC) (Ref R_SIMPLE_TYPE_SPEC).
Definition text_first (c : ascii) : bool := id_first c || Ascii.eqb c ":".
Lemma scoped_first : forall z, plain_scoped z -> exists c r, z = String c r /\ text_first c = true.
Proof.
  intros z ([] & qs & x & -> & F & _); cbn [render]; [do 2 eexists; split; reflexivity|]. unfold text_first. destruct qs as [|q qs]; inversion F as [|? ? Hx _]; subst; cbn [qualified].
  - destruct x as [|c x]; [discriminate Hx|]. apply andb_true_iff in Hx as [Hx _]. cbn [first_is] in Hx. exists c, x. rewrite Hx. split; reflexivity.
  - destruct q as [|c q]; [discriminate Hx|]. apply andb_true_iff in Hx as [Hx _]. cbn [first_is] in Hx. cbn [append]. do 2 eexists. rewrite Hx. split; reflexivity.
Qed.
Lemma text_ident : forall name t, readable name t -> exists c r, type_text name t = String c r /\ text_first c = true.
Proof.
  intros name t H. destruct t as [p|nm sz vals|k b|nm c b|c b|k v b|a b|nm sz ms|nm sz ms ls dv iv d|nm a]; cbn [readable type_text] in *; try contradiction; try (apply scoped_first; exact H).
  - destruct p; cbn; eauto.
  - destruct k; cbn; eauto.
  - cbn; eauto.
  - cbn; eauto.
Qed.
Lemma text_first_solid : forall c r, text_first c = true -> solid (String c r).
Proof. intros c r H. apply orb_true_iff in H as [H|H]; [apply id_char_solid, id_first_char, H|]. apply Ascii.eqb_eq in H. subst. reflexivity. Qed.
Lemma text_solid : forall name t s, readable name t -> solid (type_text name t ++ s).
Proof. intros name t s H. destruct (text_ident name t H) as (c & r & -> & I). apply text_first_solid, I. Qed.

(** A named type. *)
Lemma ok_named : forall x w s, plain_scoped x -> follows w s -> exists a, ok any_type (x ++ w ++ s) [a] [] (w ++ s) /\ optimize a = Ast R_SIMPLE_TYPE_SPEC R_SCOPED_NAME x [].
Proof.
  intros x w s (abs & qs & y & -> & I & P) F. 
  assert (X : no (Ref R_TEMPLATE_TYPE_SPEC) (render abs qs y ++ w ++ s) /\ no (Ref R_BASE_TYPE_SPEC) (render abs qs y ++ w ++ s)).
  { destruct abs; cbn [render]; [split; no_by_text|]. destruct P as [P|P]; [discriminate P|]. destruct (qualified_first qs y (w ++ s)) as (r & E & Hr). specialize (Hr (f_id _ _ F)).
    rewrite E. split; [apply no_template_plain; assumption|apply no_base_plain; assumption]. }
  eexists. split; [apply ok_alt_r|].
  - apply X.
  - eapply ok_ref_node; [|reflexivity|reflexivity]. cbn [gram]. apply ok_alt_r; [apply X|].
    apply ok_absolute; [exact I|apply (f_id _ _ F)|apply (f_colon _ _ F)].
  - reflexivity.
Qed.
Lemma ok_prim : forall p w s, follows w s -> exists a, ok any_type (prim_idl p ++ w ++ s) [a] [] s /\ optimize a = Ast R_SIMPLE_TYPE_SPEC (prim_rule p) "" [].
Proof.
  intros p w s F. destruct (ok_base_prim p w s F) as (a & H & E). eexists. split.
  - apply ok_alt_r; [apply no_template_prim|]. eapply ok_ref_node; [|reflexivity|reflexivity]. cbn [gram]. apply ok_alt_l. exact H.
  - rewrite optimize_one, E. reflexivity.
Qed.
Lemma solid_gt : forall s, solid (">" ++ s).
Proof. intros; reflexivity. Qed.
Lemma num_end_gt : forall s, num_end (">" ++ s).
Proof. intros; reflexivity. Qed.
Lemma ok_open : forall q c s, punct q c -> ignored q = true -> solid s -> ok (Ref q) (String c s) [] [] s.
Proof. intros q c s P I S. exact (ok_punct q c "" "" s P I eq_refl eq_refl S). Qed.
Lemma ok_close : forall q c w s, punct q c -> ignored q = true -> all_chars is_ws w = true -> solid s -> ok (Ref q) (String c (w ++ s)) [] [] s.
Proof. intros q c w s P I W S. exact (ok_punct q c "" w s P I eq_refl W S). Qed.
(** The bound of a string. *)
Lemma ok_size_exp : forall b w s, all_chars is_ws w = true -> solid s ->
  exists ns, ok (Seq (Ref R_OPEN_ANG_BRACKET) (Seq (Tok (Ref R_POSITIVE_INT_CONST)) (Ref R_CLOSE_ANG_BRACKET))) ("<" ++ to_string b ++ ">" ++ w ++ s) ns [to_string b] s.
Proof.
  intros b w s W S. eexists.
  refine (ok_seq _ _ _ [] [] _ _ _ _ (ok_open R_OPEN_ANG_BRACKET "<" _ _ _ _) _); [kw|reflexivity|apply number_solid|].
  refine (ok_seq _ _ _ _ [to_string b] (">" ++ w ++ s) [] [] _ (ok_tok _ (to_string b) _ [] _ (ok_positive b _ (num_end_gt _))) (ok_close R_CLOSE_ANG_BRACKET ">" w s _ _ W S)); [kw|reflexivity].
Qed.
Lemma ok_str : forall k b w s, k <> SK16 -> follows w s -> exists a, ok any_type (match k with SK8 => "string" | _ => "wstring" end ++ (if (0 <? b)%N then "<" ++ to_string b ++ ">" else "") ++ w ++ s) [a] [] s /\
  optimize a = Ast R_TEMPLATE_TYPE_SPEC (match k with SK8 => if (0 <? b)%N then R_STRING_SIZE else R_STRING_TYPE | _ => if (0 <? b)%N then R_WSTRING_SIZE else R_WIDE_STRING_TYPE end)
    (if (0 <? b)%N then to_string b else "") [].
Proof.
  intros k b w s K F. pose proof (not_first _ (f_id _ _ F)) as NI. pose proof (f_ws _ _ F) as W. pose proof (f_solid _ _ F) as S.
  assert (NO : forall q, gram q = Seq (Ref R_OPEN_ANG_BRACKET) (Seq (Tok (Ref R_POSITIVE_INT_CONST)) (Ref R_CLOSE_ANG_BRACKET)) -> no (Ref q) s).
  { intros q G. apply no_ref. rewrite G. apply no_seq_l. apply (no_punct R_OPEN_ANG_BRACKET "<" "" s); [kw|reflexivity|exact S|apply (f_angle _ _ F)]. }
  destruct (N.ltb_spec 0 b) as [L|L].
  - destruct (ok_size_exp b w s W S) as (ns & Z). destruct k; [| |congruence]; rewrite !app_assoc_s; (eexists; split;
    [apply ok_alt_l; eapply ok_ref_node; [|reflexivity|reflexivity]; cbn [gram]; drill|]).
    + refine (ok_seq _ _ _ [] [] _ _ [] _ (ok_keyword R_KW_STRING "string" "" "" _ _ eq_refl eq_refl _ _) (ok_opt_some _ _ _ _ _ (ok_ref_token R_STRING_SIZE _ ns (to_string b) [] s _ _ _))); try reflexivity; [kw|].
      cbn [gram]. exact Z.
    + reflexivity.
    + refine (ok_seq _ _ _ [] [] _ _ [] _ (ok_keyword R_KW_WSTRING "wstring" "" "" _ _ eq_refl eq_refl _ _) (ok_opt_some _ _ _ _ _ (ok_ref_token R_WSTRING_SIZE _ ns (to_string b) [] s _ _ _))); try reflexivity; [kw|].
      cbn [gram]. exact Z.
    + reflexivity.
  - destruct k; [| |congruence]; (eexists; split; [apply ok_alt_l; eapply ok_ref_node; [|reflexivity|reflexivity]; cbn [gram]; drill|]).
    + refine (ok_seq _ _ _ [] [] _ [] [] _ (ok_keyword R_KW_STRING "string" "" w s _ eq_refl W S NI) (ok_opt_none _ _ (NO R_STRING_SIZE eq_refl))). kw.
    + reflexivity.
    + refine (ok_seq _ _ _ [] [] _ [] [] _ (ok_keyword R_KW_WSTRING "wstring" "" w s _ eq_refl W S NI) (ok_opt_none _ _ (NO R_WSTRING_SIZE eq_refl))). kw.
    + reflexivity.
Qed.

(** The bound of a collection, up to the closing bracket. *)
Definition collection_nodes (q : rule) (b : N) : ast :=
  Ast q q "" (if (b =? 0)%N then [] else [Ast R_COLLECTION_SIZE R_COLLECTION_SIZE "" [Ast R_POSITIVE_INT_CONST R_POSITIVE_INT_CONST "" [number_node b]]]).
Lemma ok_collection : forall q b s, gram q = Opt (Ref R_COLLECTION_SIZE) -> ignored q = false -> is_token_rule q = false ->
  ok (Ref q) (bound_idl b ++ ">" ++ s) [collection_nodes q b] [] (">" ++ s).
Proof.
  intros q b s G I T. unfold bound_idl, collection_nodes. eapply ok_ref_node; [rewrite G|exact I|exact T]. destruct (N.eqb_spec b 0) as [E|E].
  - apply ok_opt_none. no_by_text.
  - apply ok_opt_some. eapply ok_ref_node; [|reflexivity|reflexivity]. cbn [gram]. rewrite !app_assoc_s.
    refine (ok_seq _ _ _ [] [] _ _ [] _ (ok_close R_COMMA "," " " _ _ _ _ _) (ok_positive b _ (num_end_gt s))); [kw|reflexivity|reflexivity|apply number_solid].
Qed.
Lemma collection_dimension : forall n root p q b, (b < 2 ^ 32)%N -> q <> R_SCOPED_NAME -> get_dimension n root p (optimize (collection_nodes q b)) = Ok (Z.of_N b).
Proof.
  intros n root p q b H NE. unfold collection_nodes. destruct (N.eqb_spec b 0) as [->|E]; [destruct q; first [reflexivity|congruence]|].
  rewrite !optimize_one. unfold get_dimension. cbn [optimize number_node with_orig a_tag a_tok]. rewrite stoul_to_string by lia.
  destruct (String.eqb_spec (to_string b) ""); [|reflexivity]. destruct (number_cons b) as (c & r & E' & _). congruence.
Qed.
Lemma to_u32_small : forall b, (b < 2 ^ 32)%N -> to_u32 (Z.of_N b) = b.
Proof. intros b H. unfold to_u32. rewrite Z.mod_small by lia. apply N2Z.id. Qed.
Lemma follows_gt : forall s, follows "" (">" ++ s).
Proof. intros s; constructor; reflexivity. Qed.
Lemma follows_bound : forall b s, follows "" (bound_idl b ++ ">" ++ s).
Proof. intros b s. unfold bound_idl. destruct (b =? 0)%N; constructor; reflexivity. Qed.

Lemma optimize_nil : forall q, optimize (Ast q q "" []) = Ast q q "" [].
Proof. reflexivity. Qed.
Lemma with_orig_sub : forall o a, a_sub (with_orig o a) = a_sub a /\ a_tag (with_orig o a) = a_tag a /\ a_tok (with_orig o a) = a_tok a /\ a_orig (with_orig o a) = o.
Proof. intros o []; repeat split. Qed.
(** *** All the types *)
Lemma spec_of_type : forall name t, (forall w s, follows w s -> exists a w', (w' = "" \/ w' = w) /\ ok any_type (type_text name t ++ w ++ s) [a] [] (w' ++ s) /\ reads name (optimize a) t) ->
  readable name t -> forall w0 w s, all_chars is_ws w0 = true -> follows w s ->
  exists a, ok (Ref R_TYPE_SPEC) (w0 ++ type_text name t ++ w ++ s) [a] [] s /\ reads name (optimize a) t /\ a_orig (optimize a) = R_TYPE_SPEC.
Proof.
  intros name t H R w0 w s W0 F. destruct (H w s F) as (a & w' & W' & O & D). eexists. split; [|split].
  - eapply ok_ref_node; [|reflexivity|reflexivity]. cbn [gram].
    refine (ok_seq _ _ _ [] [] _ [a] [] _ (opt_ws w0 _ W0 (text_solid name t _ R)) _).
    refine (ok_seq _ _ _ [a] [] _ [] [] _ O (opt_ws w' s _ (f_solid _ _ F))). destruct W' as [->| ->]; [reflexivity|apply (f_ws _ _ F)].
  - cbn [app]. rewrite optimize_one. apply reads_orig, D.
  - cbn [app]. rewrite optimize_one. apply with_orig_sub.
Qed.
Lemma ok_type : forall name t, readable name t -> forall w s, follows w s ->
  exists a w', (w' = "" \/ w' = w) /\ ok any_type (type_text name t ++ w ++ s) [a] [] (w' ++ s) /\ reads name (optimize a) t.
Proof.
  intros name. induction t as [p|nm sz vals|k b|nm c IHc b|c IHc b|k IHk v IHv b|k IHk v IHv|nm sz ms|nm sz ms ls dv iv d|nm a IHa]; intros R w s F; cbn [readable] in R; try contradiction.
  - destruct (ok_prim p w s F) as (a & O & E). exists a, "". split; [left; reflexivity|]. split; [exact O|]. rewrite E.
    intros n c root q C W _. destruct p; cbn [prim_rule type_spec]; rewrite ?C, ?W; try reflexivity. congruence.
  - destruct (ok_named _ w s R F) as (a & O & E). exists a, w. split; [right; reflexivity|]. split; [exact O|]. rewrite E.
    intros n c root q C W K. cbn [type_spec]. cbn [knows] in K. rewrite K. reflexivity.
  - destruct R as [K L]. destruct (ok_str k b w s K F) as (a & O & E). exists a, "". split; [left; reflexivity|]. cbn [type_text]. rewrite app_assoc_s. split; [exact O|]. rewrite E.
    intros n c root q C W H. cbn [knows] in H. destruct (N.ltb_spec 0 b) as [P|P].
    + destruct k; cbn [type_spec]; [| |congruence].
      * rewrite H. cbn [bind]. rewrite atoi_to_string by lia. cbn [bind]. unfold string_type. rewrite to_u32_small by lia. reflexivity.
      * rewrite atoi_to_string by lia. cbn [bind]. unfold string_type, wide_kind. rewrite W, to_u32_small by lia. reflexivity.
    + assert (b = 0%N) by lia; subst b. destruct k; cbn [type_spec]; [reflexivity| |congruence]. rewrite H. cbn [bind]. unfold wide_kind. rewrite W. reflexivity.
  - destruct R as [R L]. destruct (spec_of_type name c (IHc R) R "" "" (bound_idl b ++ ">" ++ w ++ s) eq_refl (follows_bound _ _)) as (a & O & D & _).
    exists (Ast R_TEMPLATE_TYPE_SPEC R_TEMPLATE_TYPE_SPEC "" [Ast R_SEQUENCE_TYPE R_SEQUENCE_TYPE "" [Ast R_SEQUENCE_INNER_TYPE R_SEQUENCE_INNER_TYPE "" [a]; collection_nodes R_SEQUENCE_SIZE b]]), "".
    split; [left; reflexivity|]. split.
    + apply ok_alt_l. eapply ok_ref_node; [|reflexivity|reflexivity]. cbn [gram type_text]. rewrite !app_assoc_s. apply ok_alt_r; [no_by_text|]. apply ok_alt_l.
      eapply ok_ref_node; [|reflexivity|reflexivity]. cbn [gram].
      refine (ok_seq _ _ _ [] [] _ _ [] _ (ok_keyword R_KW_SEQUENCE "sequence" "" "" _ _ eq_refl eq_refl _ _) _); [kw|reflexivity|reflexivity|].
      refine (ok_seq _ _ _ [] [] _ _ [] _ (ok_open R_OPEN_ANG_BRACKET "<" _ _ _ _) _); [kw|reflexivity|apply text_solid, R|].
      refine (ok_seq _ _ _ [_] [] _ _ [] _ (ok_ref_node R_SEQUENCE_INNER_TYPE _ _ _ _ O eq_refl eq_refl) _).
      refine (ok_seq _ _ _ [_] [] _ [] [] _ (ok_collection R_SEQUENCE_SIZE b _ eq_refl eq_refl eq_refl) (ok_close R_CLOSE_ANG_BRACKET ">" w s _ eq_refl (f_ws _ _ F) (f_solid _ _ F))). kw.
    + intros n x root q C W K. cbn [knows] in K. rewrite optimize_one. cbn [optimize map with_orig type_spec].
      change (match optimize a with Ast _ t' k' l' => Ast R_SEQUENCE_INNER_TYPE t' k' l' end) with (with_orig R_SEQUENCE_INNER_TYPE (optimize a)).
      rewrite (reads_orig _ _ _ _ D n x root q C W K). cbn [bind]. rewrite collection_dimension by (exact L || discriminate). cbn [bind]. rewrite to_u32_small by exact L. reflexivity.
  - destruct R as (R1 & R2 & L). destruct (spec_of_type name v (IHv R2) R2 "" "" (bound_idl b ++ ">" ++ w ++ s) eq_refl (follows_bound _ _)) as (av & Ov & Dv & _).
    destruct (spec_of_type name k (IHk R1) R1 "" "" (", " ++ type_text name v ++ bound_idl b ++ ">" ++ w ++ s) eq_refl) as (ak & Ok_ & Dk & _).
    { constructor; reflexivity. }
    exists (Ast R_TEMPLATE_TYPE_SPEC R_TEMPLATE_TYPE_SPEC "" [Ast R_MAP_TYPE R_MAP_TYPE "" [Ast R_MAP_KEY_TYPE R_MAP_KEY_TYPE "" [ak]; Ast R_MAP_INNER_TYPE R_MAP_INNER_TYPE "" [av]; collection_nodes R_MAP_SIZE b]]), "".
    split; [left; reflexivity|]. split.
    + apply ok_alt_l. eapply ok_ref_node; [|reflexivity|reflexivity]. cbn [gram type_text]. rewrite !app_assoc_s. apply ok_alt_l.
      eapply ok_ref_node; [|reflexivity|reflexivity]. cbn [gram].
      refine (ok_seq _ _ _ [] [] _ _ [] _ (ok_keyword R_KW_MAP "map" "" "" _ _ eq_refl eq_refl _ _) _); [kw|reflexivity|reflexivity|].
      refine (ok_seq _ _ _ [] [] _ _ [] _ (ok_open R_OPEN_ANG_BRACKET "<" _ _ _ _) _); [kw|reflexivity|apply text_solid, R1|].
      refine (ok_seq _ _ _ [_] [] _ _ [] _ (ok_ref_node R_MAP_KEY_TYPE _ _ _ _ Ok_ eq_refl eq_refl) _).
      refine (ok_seq _ _ _ [] [] _ _ [] _ (ok_close R_COMMA "," " " _ _ _ eq_refl _) _); [kw|reflexivity|apply text_solid, R2|].
      refine (ok_seq _ _ _ [_] [] _ _ [] _ (ok_ref_node R_MAP_INNER_TYPE _ _ _ _ Ov eq_refl eq_refl) _).
      refine (ok_seq _ _ _ [_] [] _ [] [] _ (ok_collection R_MAP_SIZE b _ eq_refl eq_refl eq_refl) (ok_close R_CLOSE_ANG_BRACKET ">" w s _ eq_refl (f_ws _ _ F) (f_solid _ _ F))). kw.
    + intros n x root q C W K. cbn [knows] in K. destruct K as [K1 K2]. rewrite optimize_one. cbn [optimize map with_orig type_spec].
      change (match optimize ak with Ast _ t' k' l' => Ast R_MAP_KEY_TYPE t' k' l' end) with (with_orig R_MAP_KEY_TYPE (optimize ak)).
      change (match optimize av with Ast _ t' k' l' => Ast R_MAP_INNER_TYPE t' k' l' end) with (with_orig R_MAP_INNER_TYPE (optimize av)).
      rewrite (reads_orig _ _ _ _ Dk n x root q C W K1). cbn [bind]. rewrite (reads_orig _ _ _ _ Dv n x root q C W K2). cbn [bind].
      rewrite collection_dimension by (exact L || discriminate). cbn [bind]. rewrite to_u32_small by exact L. reflexivity.
  - destruct (ok_named _ w s R F) as (a & O & E). exists a, w. split; [right; reflexivity|]. split; [exact O|]. rewrite E.
    intros n c root q C W K. cbn [type_spec]. cbn [knows] in K. rewrite K. reflexivity.
  - destruct (ok_named _ w s R F) as (a & O & E). exists a, w. split; [right; reflexivity|]. split; [exact O|]. rewrite E.
    intros n c root q C W K. cbn [type_spec]. cbn [knows] in K. rewrite K. reflexivity.
  - destruct (ok_named _ w s R F) as (x & O & E). exists x, w. split; [right; reflexivity|]. split; [exact O|]. rewrite E.
    intros n c root q C W K. cbn [type_spec]. cbn [knows] in K. rewrite K. reflexivity.
Qed.
Lemma ok_type_spec : forall name t, readable name t -> forall w0 w s, all_chars is_ws w0 = true -> follows w s ->
  exists a, ok (Ref R_TYPE_SPEC) (w0 ++ type_text name t ++ w ++ s) [a] [] s /\ reads name (optimize a) t /\ a_orig (optimize a) = R_TYPE_SPEC.
Proof. intros name t R. exact (spec_of_type name t (ok_type name t R) R). Qed.
