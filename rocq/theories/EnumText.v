(** The sentence of an enumeration declares the enumeration and the constants of its enumerators. *)
From Verif Require Import Base Types TypeBuild Compat CompatFacts TypeSpec Mem MemSpec MemFacts ConstructFacts ProgSpec ProgFacts Hash MapOps Ops OpsSpec ValueSpec ValueFacts DataSpec DataFacts IntOps IntSpec IntFacts ModuleSpec ModuleFacts Module DepTree DepSolve Peg0 Grammar Peg PegFacts PegRules IdlParse IdlParseFacts GenIdl GenSpec TypeText StructText StructRead NumText IdlLitFacts IdlLit IdlExpr GrowFacts DocFacts GenStruct EnumFacts.
From Verif Require Import GapSpec GapText.
Local Open Scope string_scope.

Definition enum_core (tabs : nat) (x : string) (es : list (string * N)) : string :=
  "enum " ++ x ++ NL ++ indent tabs ++ "{" ++ NL ++ enumerators_idl tabs es ++ indent tabs ++ "}".
Definition enumerator_node (e : string * N) : ast := Ast R_ENUMERATOR R_ENUMERATOR "" [ident_node (fst e)].
Lemma ident_at : forall x s, is_ident x = true -> first_is (Ascii.eqb "@") (x ++ s) = false.
Proof. intros x s I. destruct x as [|c x]; [discriminate I|]. cbn [append first_is]. apply id_first_at. apply andb_true_iff in I as [I _]. exact I. Qed.
Lemma ok_enumerator : forall e s, is_ident (fst e) = true -> first_is id_char s = false -> ok (Ref R_ENUMERATOR) (fst e ++ s) [enumerator_node e] [] s.
Proof.
  intros e s I F. eapply ok_ref_node; [|reflexivity|reflexivity]. cbn [gram]. refine (ok_seq _ _ _ [] [] _ [_] [] _ (ok_star_end _ _ (no_annotation _ (ident_at _ _ I))) (ok_ident _ _ I F)).
Qed.
(** The enumerators behind the first one, to the closing brace. *)
Fixpoint more_enumerators (tabs : nat) (es : list (string * N)) (s : string) : string :=
  match es with [] => NL ++ indent tabs ++ "}" ++ s | e :: r => "," ++ NL ++ indent (S tabs) ++ fst e ++ more_enumerators tabs r s end.
Lemma enumerators_text : forall tabs es e s, enumerators_idl tabs (e :: es) ++ indent tabs ++ "}" ++ s = indent (S tabs) ++ fst e ++ more_enumerators tabs es s.
Proof.
  intros tabs. induction es as [|f es IH]; intros e s.
  - cbn [enumerators_idl more_enumerators]. rewrite !app_assoc_s. reflexivity.
  - change (enumerators_idl tabs (e :: f :: es)) with (indent (S tabs) ++ fst e ++ "," ++ NL ++ enumerators_idl tabs (f :: es)). rewrite !app_assoc_s, IH. reflexivity.
Qed.
Lemma more_end : forall tabs es s, first_is id_char (more_enumerators tabs es s) = false.
Proof. intros tabs [|e es] s; reflexivity. Qed.
Lemma ok_more : forall tabs es s, Forall (fun e => is_ident (fst e) = true) es ->
  ok (Star (Seq (Ref R_COMMA) (Ref R_ENUMERATOR))) (more_enumerators tabs es s) (map enumerator_node es) [] (NL ++ indent tabs ++ "}" ++ s).
Proof.
  intros tabs es s. induction es as [|e es IH]; intros H.
  - cbn [more_enumerators map]. apply ok_star_end, no_seq_l. rewrite <- app_assoc_s. apply (no_punct R_COMMA "," (NL ++ indent tabs)); [kw|apply nl_indent_ws|reflexivity|reflexivity].
  - inversion H as [|? ? He Hr]; subst. cbn [more_enumerators map]. refine (ok_star_more _ _ [_] [] _ _ [] _ _ (IH Hr)). refine (ok_seq _ _ _ [] [] _ [_] [] _ _ (ok_enumerator e _ He (more_end tabs es s))).
    pose proof (ok_close R_COMMA "," (NL ++ indent (S tabs)) (fst e ++ more_enumerators tabs es s)) as C. rewrite app_assoc_s in C. apply C; [kw|reflexivity|apply nl_indent_ws|apply ident_solid, He].
Qed.
Definition enum_definition (x : string) (es : list (string * N)) : ast :=
  Ast R_DEFINITION R_DEFINITION "" [Ast R_TYPE_DCL R_TYPE_DCL "" [Ast R_CONSTR_TYPE_DLC R_CONSTR_TYPE_DLC "" [Ast R_ENUM_DCL R_ENUM_DCL "" (ident_node x :: map enumerator_node es)]]].
Definition enum_tree (x : string) (es : list (string * N)) : ast := Ast R_DEFINITION R_ENUM_DCL "" (ident_node x :: map (fun e => Ast R_ENUMERATOR R_IDENTIFIER (fst e) []) es).
Lemma optimize_enum : forall x es, es <> [] -> optimize (enum_definition x es) = enum_tree x es.
Proof.
  intros x es NE. unfold enum_definition, enum_tree. rewrite !optimize_one, !with_orig_twice. destruct es as [|e es]; [congruence|]. cbn [map optimize with_orig]. rewrite map_map. reflexivity.
Qed.
Lemma ok_enum : forall tabs x es w s, is_ident x = true -> es <> [] -> Forall (fun e => is_ident (fst e) = true) es -> gap w -> solid s ->
  ok (Ref R_DEFINITION) (enum_core tabs x es ++ ";" ++ w ++ s) [enum_definition x es] [] s.
Proof.
  intros tabs x es w s I NE H W So. unfold enum_core. rewrite !app_assoc_s. destruct es as [|e es]; [congruence|]. rewrite enumerators_text. inversion H as [|? ? He Hr]; subst.
  eapply ok_ref_node; [|reflexivity|reflexivity]. cbn [gram]. apply ok_alt_l.
  refine (ok_seq _ _ _ [_] [] _ [] [] _ _ (ok_close_gap R_SEMICOLON ";" w s ltac:(kw) eq_refl W So)).
  apply ok_alt_r; [no_by_text|]. apply ok_alt_r; [no_by_text|]. apply ok_alt_l.
  eapply ok_ref_node; [|reflexivity|reflexivity]. cbn [gram]. apply ok_alt_l. eapply ok_ref_node; [|reflexivity|reflexivity]. cbn [gram].
  refine (ok_seq _ _ _ [] [] _ [_] [] _ (ok_star_end _ _ _) _); [no_by_text|]. apply ok_alt_r; [no_by_text|]. apply ok_alt_r; [no_by_text|]. apply ok_alt_l.
  eapply ok_ref_node; [|reflexivity|reflexivity]. cbn [gram].
  refine (ok_seq _ _ _ [] [] _ _ [] _ (ok_keyword R_KW_ENUM "enum" "" " " _ _ eq_refl eq_refl _ _) _); [kw|apply ident_solid, I|reflexivity|].
  refine (ok_seq _ _ _ [_] [] _ _ [] _ (ok_ident x _ I _) _); [reflexivity|].
  refine (ok_seq _ _ _ [] [] _ _ [] _ _ _).
  - pose proof (ok_punct R_OPEN_BRACE "{" (NL ++ indent tabs) (NL ++ indent (S tabs)) (fst e ++ more_enumerators tabs es (";" ++ w ++ s))) as C. rewrite !app_assoc_s in C.
    apply C; [kw|reflexivity|apply nl_indent_ws|apply nl_indent_ws|apply ident_solid, He].
  - refine (ok_seq _ _ _ [_] [] _ _ [] _ (ok_enumerator e _ He (more_end _ _ _)) _).
    assert (C : ok (Ref R_CLOSE_BRACE) (NL ++ indent tabs ++ "}" ++ ";" ++ w ++ s) [] [] (";" ++ w ++ s)).
    { pose proof (ok_punct R_CLOSE_BRACE "}" (NL ++ indent tabs) "" (";" ++ w ++ s)) as C. rewrite !app_assoc_s in C. apply C; [kw|reflexivity|apply nl_indent_ws|reflexivity|reflexivity]. }
    pose proof (ok_seq _ _ _ _ _ _ _ _ _ (ok_more tabs es (";" ++ w ++ s) Hr) C) as Q. rewrite !app_nil_r in Q. exact Q.
Qed.

Section Values.
  Variable fc : prim -> prim -> list N -> list N.
  Variable flt : arith -> prim -> list N -> list N -> list N.
  Variable flit : prim -> string -> res (list N).
  Lemma constant_same : forall root p x e d, exists_module root p = true -> is_ident e = true ->
    exists root0, call_create_constant fc (x ++ "::" ++ e) d false true root p = Ok (false, root0) /\ exists_module root0 p = true /\
      forall e', call_create_constant fc e' d false true root0 p = call_create_constant fc e' d false true root p.
  Proof.
    intros root p x e d E I. destruct (with_tables_ok root p (tab_at root p) E) as (root0 & W). exists root0.
    destruct (with_tables_here _ _ _ _ E W) as [T E0]. split; [|split; [exact E0|]].
    - unfold call_create_constant. erewrite (on_tables_with bool root p _ false (tab_at root p)); [rewrite W; reflexivity|exact E|]. unfold create_constant.
      destruct (split_last_app x e) as [X _]; [apply is_ident_name in I; apply I|]. destruct (split_scope (x ++ "::" ++ e)) as [[]|]; [reflexivity|congruence].
    - intros e'. unfold call_create_constant, on_tables. pose proof E as E'. unfold exists_module, tab_at in E', E0, T. destruct (mod_at root p) as [m|] eqn:M; [|discriminate E']. destruct (mod_at root0 p) as [m0|] eqn:M0; [|discriminate E0].
      rewrite T. destruct (create_constant fc e' d false true (m_tab m)) as [r|]; [|reflexivity]. cbn [bind]. fold (with_tables root0 p (snd r)). rewrite (with_tables_twice _ _ _ _ _ W). reflexivity.
  Qed.
  Lemma constant_stored : forall v w, holds v w -> copy_ok (d_type v) -> vselected (d_type v) w ->
    exists t t1 d, new_data (d_type v) = Ok t /\ assign_data fc t v = Ok t1 /\ copy_data fc t1 = Ok d /\ d_type d = d_type v /\ holds d w.
  Proof.
    intros v w Hv Hcok Hsel. pose proof (holds_good _ _ Hv) as Hg. pose proof Hv as (G1 & G2 & Hrg & _).
    destruct (construct_spec (d_type v) Hg (fresh (msize (d_type v))) 0 (fresh_alloc _)) as (b0 & E0 & A0 & L0 & R0).
    assert (Hnew : new_data (d_type v) = Ok (mkData (d_type v) b0)) by (unfold new_data; rewrite Hrg, E0; reflexivity).
    assert (Hh0 : holds (mkData (d_type v) b0) (default_value (d_type v))) by (unfold holds; cbn [d_type d_mem]; auto).
    destruct (assign_holds fc _ _ _ _ Hh0 Hv eq_refl Hcok Hsel) as (d1 & E1 & T1 & H1). cbn [d_type] in T1.
    destruct (copy_holds fc d1 w H1) as (d2 & E2 & T2 & H2); [rewrite T1; exact Hcok|rewrite T1; exact Hsel|].
    exists (mkData (d_type v) b0), d1, d2. split; [exact Hnew|]. split; [exact E1|]. split; [exact E2|]. split; [congruence|exact H2].
  Qed.
  Lemma constant_new : forall root p e d z fe, exists_module root p = true -> is_ident e = true -> is_int d PU32 z ->
    exists b root', call_create_constant fc e d false fe root p = Ok (b, root') /\ exists_module root' p = true.
  Proof.
    intros root p e d z fe E I (T & bs & Hh & _). destruct (constant_stored d _ Hh) as (t & t1 & d' & N1 & N2 & N3 & _); [rewrite T; exact Logic.I|rewrite T; exact Logic.I|].
    assert (C : exists b tab', create_constant fc e d false fe (tab_at root p) = Ok (b, tab')).
    { unfold create_constant. rewrite (ident_split e I). cbn [andb bind]. destruct (mem e (const_types (tab_at root p))); [eauto|].
      rewrite N1. cbn [bind]. rewrite N2. cbn [bind]. destruct (mem e (consts (tab_at root p))); [eauto|]. rewrite N3. cbn [bind]. eauto. }
    destruct C as (b & tab' & C). destruct (with_tables_ok root p tab' E) as (root' & W). exists b, root'. unfold call_create_constant.
    rewrite (on_tables_with bool root p _ b tab' E C), W. split; [reflexivity|]. eapply with_tables_here; eauto.
  Qed.
  (** The constants of the enumerators. *)
  Fixpoint declare_enumerators (p : place) (es : list (string * N)) (root : modl) : res modl :=
    match es with
    | [] => Ok root
    | (e, v) :: r => do d <- result fc PU32 (int_bytes PU32 (Z.of_N v)); do x <- call_create_constant fc e d false true root p; declare_enumerators p r (snd x)
    end.
  Lemma declares_enumerators : forall p es root, exists_module root p = true -> Forall (fun e => is_ident (fst e) = true) es ->
    exists root', declare_enumerators p es root = Ok root' /\ exists_module root' p = true.
  Proof.
    intros p. induction es as [|[e v] es IH]; intros root E H; [exists root; split; [reflexivity|exact E]|]. inversion H as [|? ? He Hr]; subst. cbn [declare_enumerators].
    destruct (result_int fc PU32 (Z.of_N v) ltac:(discriminate)) as (d & r & -> & D & _). cbn [bind]. destruct (constant_new root p e d r true E He D) as (b & root1 & -> & E1). cbn [bind snd]. apply IH; assumption.
  Qed.
  Fixpoint emplaced (es vals : list (string * N)) : list (string * N) := match es with [] => vals | (e, v) :: r => emplaced r (emplace_name e v vals) end.
  Lemma enumerators_read : forall p x es k vals root, exists_module root p = true -> (k + N.of_nat (List.length es) <= 2 ^ 32)%N -> numbered k es ->
    Forall (fun e => is_ident (fst e) = true) es -> NoDup (map fst es) -> (forall e, In e (map fst es) -> assoc e vals = None) ->
    exists k', enumerators fc (map (fun e => Ast R_ENUMERATOR R_IDENTIFIER (fst e) []) es) p {| es_name := x; es_size := 4; es_vals := vals; es_next := k mod 2 ^ 32 |} root =
      do root' <- declare_enumerators p es root; Ok ({| es_name := x; es_size := 4; es_vals := emplaced es vals; es_next := k' |}, root').
  Proof.
    intros p x. induction es as [|[e v] es IH]; intros k vals root E L Nu I ND F; [eexists; reflexivity|]. destruct Nu as [-> Nu]. inversion I as [|? ? Ie Ir]; subst. cbn [fst] in Ie.
    cbn [map fst] in ND. inversion ND as [|? ? Ne Nr]; subst. cbn [List.length] in L.
    cbn [map enumerators fst a_tok declare_enumerators emplaced]. unfold add_enumerator_next, add_enumerator. cbn [es_next es_vals es_name es_size]. rewrite N.ltb_irrefl.
    assert (Fe : assoc e vals = None) by (apply F; left; reflexivity). unfold has_enumerator. rewrite Fe. rewrite N.mod_small by lia. cbn [es_vals].
    assert (V : enum_value (emplace_name e k vals) e = Ok k). { unfold enum_value. rewrite assoc_emplace by exact Fe. rewrite String.eqb_refl. reflexivity. }
    rewrite V. cbn [bind]. destruct (result_int fc PU32 (Z.of_N k) ltac:(discriminate)) as (d & r & -> & D & _). cbn [bind].
    destruct (constant_same root p x e d E Ie) as (root0 & -> & E0 & S0). cbn [bind snd]. rewrite S0.
    destruct (constant_new root p e d r true E Ie D) as (b & root1 & -> & E1). cbn [bind snd].
    apply (IH (k + 1)%N); try assumption; [lia|]. intros e' H'. rewrite assoc_emplace by exact Fe. destruct (String.eqb_spec e' e) as [->|]; [contradiction|]. apply F. right. exact H'.
  Qed.
  (** Two maps with the same entries are the same list. *)
  Lemma sorted_ext : forall l l' : list (string * N), sorted_names l -> sorted_names l' -> (forall e, assoc e l = assoc e l') -> l = l'.
  Proof.
    induction l as [|[e v] l IH]; intros [|[e' v'] l'] Hs Hs' H.
    - reflexivity.
    - specialize (H e'). cbn [assoc] in H. rewrite String.eqb_refl in H. discriminate H.
    - specialize (H e). cbn [assoc] in H. rewrite String.eqb_refl in H. discriminate H.
    - destruct Hs as [F Hs], Hs' as [F' Hs'].
      assert (Lt : forall (a : string) b (w : N) r, Forall (fun p => String.compare a (fst p) = Datatypes.Lt) r -> assoc b r = Some w -> String.compare a b = Datatypes.Lt).
      { intros a b w r G A. apply assoc_in in A. rewrite Forall_forall in G. apply (G _ A). }
      assert (EE : e = e').
      { destruct (String.eqb_spec e e') as [|NE]; [assumption|]. exfalso. pose proof (H e) as H1. pose proof (H e') as H2. cbn [assoc] in H1, H2. rewrite String.eqb_refl in H1, H2.
        destruct (String.eqb_spec e e') as [?|_]; [contradiction|]. destruct (String.eqb_spec e' e) as [Q|_]; [congruence|].
        symmetry in H1. apply (Lt e' e v l' F') in H1. apply (Lt e e' v' l F) in H2. pose proof (scompare_trans _ _ _ H1 H2) as Q. rewrite scompare_refl in Q. discriminate Q. }
      subst e'. pose proof (H e) as H1. cbn [assoc] in H1. rewrite String.eqb_refl in H1. injection H1 as ->. f_equal. apply IH; try assumption.
      intros b. specialize (H b). cbn [assoc] in H. destruct (String.eqb_spec b e) as [Qb|_]; [rewrite Qb|exact H].
      destruct (assoc e l) as [w|] eqn:A; [apply (Lt e e w l F) in A; rewrite scompare_refl in A; discriminate A|]. destruct (assoc e l') as [w|] eqn:A'; [apply (Lt e e w l' F') in A'; rewrite scompare_refl in A'; discriminate A'|]. reflexivity.
  Qed.
  Lemma emplaced_spec : forall es vals, NoDup (map fst es) -> (forall e, In e (map fst es) -> assoc e vals = None) -> sorted_names vals ->
    sorted_names (emplaced es vals) /\ forall e, assoc e (emplaced es vals) = match assoc e es with Some v => Some v | None => assoc e vals end.
  Proof.
    induction es as [|[e v] es IH]; intros vals ND F Hs; [split; [exact Hs|reflexivity]|]. cbn [map fst] in ND. inversion ND as [|? ? Ne Nr]; subst. cbn [emplaced].
    assert (Fe : assoc e vals = None) by (apply F; left; reflexivity).
    destruct (IH (emplace_name e v vals)) as [A B]; [exact Nr| |apply emplace_sorted; assumption|].
    { intros e' H'. rewrite assoc_emplace by exact Fe. destruct (String.eqb_spec e' e) as [->|]; [contradiction|]. apply F. right. exact H'. }
    split; [exact A|]. intros e'. rewrite B, assoc_emplace by exact Fe. cbn [assoc]. destruct (String.eqb_spec e' e) as [->|]; [|reflexivity].
    destruct (assoc e es) as [w|] eqn:Q; [|reflexivity]. apply assoc_in in Q. exfalso. apply Ne. apply (in_map fst) in Q. exact Q.
  Qed.
  Lemma sort_in : forall x l, In x (sort_by_value l) <-> In x l.
  Proof.
    intros x. assert (X : forall e l, In x (insert_by_value e l) <-> x = e \/ In x l).
    { intros e. induction l as [|f l IH]; cbn [insert_by_value]; [cbn; intuition|]. destruct (snd e <=? snd f)%N; cbn [In]; [intuition|]. rewrite IH. intuition. }
    induction l as [|e l IH]; [reflexivity|]. cbn [sort_by_value fold_right]. fold (sort_by_value l). rewrite X, IH. cbn [In]. intuition.
  Qed.
  Lemma sort_nodup : forall l, NoDup (map fst l) -> NoDup (map fst (sort_by_value l)).
  Proof.
    assert (X : forall (e : string * N) l, ~ In (fst e) (map fst l) -> NoDup (map fst l) -> NoDup (map fst (insert_by_value e l))).
    { intros e. induction l as [|f l IH]; intros N D; cbn [insert_by_value]; [repeat constructor; intros []|]. destruct (snd e <=? snd f)%N; [constructor; assumption|]. cbn [map] in *. inversion D as [|? ? Nf Dl]; subst.
      constructor; [|apply IH; [intros H; apply N; right; exact H|exact Dl]]. intros H. apply in_map_iff in H as (g & Eg & H).
      assert (Y : g = e \/ In g l). { clear -H. induction l as [|h l IH]; cbn [insert_by_value] in H; [cbn in H; intuition|]. destruct (snd e <=? snd h)%N; cbn [In] in *; intuition. }
      destruct Y as [->|Y]; [apply N; left; symmetry; exact Eg|]. apply Nf. rewrite <- Eg. apply in_map, Y. }
    induction l as [|e l IH]; intros D; [constructor|]. cbn [map] in D. inversion D as [|? ? Ne Dl]; subst. cbn [sort_by_value fold_right]. fold (sort_by_value l). apply X; [|apply IH, Dl].
    intros H. apply in_map_iff in H as (g & Eg & H). apply (proj1 (sort_in _ _)) in H. apply Ne. rewrite <- Eg. apply in_map, H.
  Qed.
  Lemma emplaced_sort : forall vals, sorted_names vals -> emplaced (sort_by_value vals) [] = vals.
  Proof.
    intros vals Hs. pose proof (sorted_names_nodup _ Hs) as D. destruct (emplaced_spec (sort_by_value vals) [] (sort_nodup _ D)) as [A B]; [reflexivity|exact Logic.I|].
    apply sorted_ext; try assumption. intros e. rewrite B. cbn [assoc]. destruct (assoc e (sort_by_value vals)) as [v|] eqn:Q.
    - symmetry. apply in_assoc; [exact D|]. apply (proj1 (sort_in _ _)), assoc_in, Q.
    - destruct (assoc e vals) as [v|] eqn:Q'; [|reflexivity]. apply assoc_in in Q'. apply (proj2 (sort_in _ _)) in Q'. rewrite (in_assoc _ _ _ (sort_nodup _ D) Q') in Q. discriminate Q.
  Qed.
  Lemma enum_sentence_of : forall c p text root x vals, (forall s, solid (text ++ s)) ->
    (forall w s, gap w -> solid s -> ok (Ref R_DEFINITION) (text ++ ";" ++ w ++ s) [enum_definition x (sort_by_value vals)] [] s) -> exists_module root p = true -> is_ident x = true -> vals <> [] -> Forall (fun e => is_ident (fst e) = true) vals -> sorted_names vals ->
    numbered 0 (sort_by_value vals) -> (N.of_nat (List.length vals) <= 2 ^ 32)%N ->
    exists root1 b root', declare_enumerators p (sort_by_value vals) root = Ok root1 /\ call_register Enums (TEnum x 4 vals) false root1 p = Ok (b, root') /\
      sentence fc flt flit c p text root root'.
  Proof.
    intros c p text root x vals Sol Rds E I NE Iv Hs Nu L. set (es := sort_by_value vals) in *.
    assert (Ie : Forall (fun e => is_ident (fst e) = true) es). { apply Forall_forall. intros e H. apply (proj1 (sort_in _ _)) in H. rewrite Forall_forall in Iv. apply Iv, H. }
    assert (NE' : es <> []). { intros Q. destruct vals as [|e vals]; [congruence|]. assert (H : In e es) by (apply (proj2 (sort_in _ _)); left; reflexivity). rewrite Q in H. destruct H. }
    assert (Le : List.length es = List.length vals).
    { unfold es. clear. induction vals as [|e l IH]; [reflexivity|]. cbn [sort_by_value fold_right List.length]. fold (sort_by_value l). rewrite <- IH. clear IH. induction (sort_by_value l) as [|f r IH]; [reflexivity|]. cbn [insert_by_value]. destruct (snd e <=? snd f)%N; cbn [List.length]; congruence. }
    destruct (declares_enumerators p es root E Ie) as (root1 & D1 & E1).
    assert (RG : exists b root', call_register Enums (TEnum x 4 vals) false root1 p = Ok (b, root')).
    { unfold call_register. edestruct (register Enums (scope p) (TEnum x 4 vals) false (tab_at root1 p)) as [b tab'] eqn:R. destruct (with_tables_ok root1 p tab' E1) as (root' & W).
      exists b, root'. erewrite (on_tables_with bool root1 p _ b tab'); [rewrite W; reflexivity|exact E1|rewrite R; reflexivity]. }
    destruct RG as (b & root' & RG). exists root1, b, root'. split; [exact D1|]. split; [exact RG|]. constructor.
    - exact Sol.
    - intros w s W So. exists (enum_definition x es). split; [apply Rds; assumption|]. exists O. intros n _. rewrite optimize_enum by exact NE'. cbn [IdlParse.build enum_tree].
      change (enum_dcl fc p (enum_tree x es) root = Ok root'). unfold enum_dcl, enum_tree. cbn [a_sub ident_node a_tok].
      destruct (enumerators_read p x es 0 [] root E) as (k' & R); [rewrite Le; lia|exact Nu|exact Ie|apply sort_nodup, sorted_names_nodup, Hs|reflexivity|].
      change (enum_new x 4) with {| es_name := x; es_size := 4; es_vals := []; es_next := 0 mod 2 ^ 32 |}. rewrite R, D1. cbn [bind fst snd enum_type es_name es_size es_vals].
      unfold es. rewrite (emplaced_sort vals Hs). unfold enum_type. cbn [es_name es_size es_vals fst snd bind]. rewrite RG. reflexivity.
  Qed.
  Lemma enum_sentence : forall c p tabs root x vals, exists_module root p = true -> is_ident x = true -> vals <> [] -> Forall (fun e => is_ident (fst e) = true) vals -> sorted_names vals ->
    numbered 0 (sort_by_value vals) -> (N.of_nat (List.length vals) <= 2 ^ 32)%N ->
    exists root1 b root', declare_enumerators p (sort_by_value vals) root = Ok root1 /\ call_register Enums (TEnum x 4 vals) false root1 p = Ok (b, root') /\
      sentence fc flt flit c p (enum_core tabs x (sort_by_value vals)) root root'.
  Proof.
    intros c p tabs root x vals E I NE Iv Hs Nu L. apply enum_sentence_of; try assumption; [intros s; reflexivity|]. intros w s W So. apply ok_enum; try assumption.
    - intros Q. destruct vals as [|e vals]; [congruence|]. assert (H : In e (sort_by_value (e :: vals))) by (apply (proj2 (sort_in _ _)); left; reflexivity). rewrite Q in H. destruct H.
    - apply Forall_forall. intros e H. apply (proj1 (sort_in _ _)) in H. rewrite Forall_forall in Iv. apply Iv, H.
  Qed.
End Values.
