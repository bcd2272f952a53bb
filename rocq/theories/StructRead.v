(** What the parser's actions do with the tree of a struct declaration. *)
From Verif Require Import Base Types TypeBuild Peg0 Grammar Peg PegFacts PegRules ModuleSpec ModuleFacts IdlLit IdlLitFacts Module NumText DepTree IdlParse IdlParseFacts GenIdl GenSpec TypeText StructText.
Local Open Scope string_scope.

(** *** With enough fuel *)
Definition eventually (P : nat -> Prop) : Prop := exists n0, forall n, (n0 <= n)%nat -> P n.
Lemma ev_and : forall P Q, eventually P -> eventually Q -> eventually (fun n => P n /\ Q n).
Proof. intros P Q (a & A) (b & B). exists (a + b)%nat. intros n L. split; [apply A|apply B]; lia. Qed.
Lemma ev_impl : forall P Q : nat -> Prop, (forall n, P n -> Q n) -> eventually P -> eventually Q.
Proof. intros P Q H (a & A). exists a. intros n L. apply H, A, L. Qed.
Lemma ev_all : forall A (P : A -> nat -> Prop) l, (forall x, In x l -> eventually (P x)) -> eventually (fun n => forall x, In x l -> P x n).
Proof.
  intros A P. induction l as [|x l IH]; intros H.
  - exists O. intros n _ x [].
  - destruct (H x (or_introl eq_refl)) as (a & Ha). destruct (IH (fun y I => H y (or_intror I))) as (b & Hb). exists (a + b)%nat. intros n L y [<-|I]; [apply Ha|apply Hb; [|exact I]]; lia.
Qed.
Lemma ev_const : forall P : Prop, P -> eventually (fun _ => P).
Proof. intros P H. exists O. intros; exact H. Qed.
Lemma ev_steady : forall A (f : nat -> res A) r, steady f -> (exists n, f n = r) -> r <> Fail Loop -> eventually (fun n => f n = r).
Proof. intros A f r S (n & E) NL. exists n. intros m L. rewrite (S n m L); congruence. Qed.

(** *** Plain identifiers are no keywords *)
Lemma no_matches : forall q x, no (Ref q) x -> exists n, matches n q x = Some false.
Proof. intros q x (n & H). exists n. unfold matches. rewrite H. reflexivity. Qed.
Lemma plain_no_rule : forall x q, plain x = true -> In q kw_rules -> no (Ref q) x.
Proof.
  intros x q P I. rewrite <- (app_nil_s x). assert (F : first_is id_char "" = false) by reflexivity.
  assert (D : forall l, first_is id_first l = false -> l <> "" -> after l (x ++ "") = None).
  { intros l L NE. apply plain_ident in P. destruct l as [|a l]; [congruence|]. destruct x as [|b x]; [discriminate P|]. apply andb_true_iff in P as [P _]. cbn [first_is] in *.
    cbn [append after]. destruct (Ascii.eqb_spec a b) as [->|]; [congruence|reflexivity]. }
  assert (S : solid (x ++ "")) by (apply ident_solid, plain_ident, P).
  unfold kw_rules in I. repeat (destruct I as [<-|I]; [first
    [ no_word P F
    | apply no_ref; cbn [gram]; apply no_tok, no_lit, D; [reflexivity|discriminate]
    | apply no_ref; cbn [gram]; eapply no_seq_r; [apply opt_ws0, S|]; apply no_seq_l, no_tok, no_lit, D; [reflexivity|discriminate] ]|]). destruct I.
Qed.
Lemma any_matches_no : forall l x, (forall q, In q l -> exists n, matches n q x = Some false) -> eventually (fun n => any_matches n l x = Ok false).
Proof.
  induction l as [|q l IH]; intros x H; [exists O; reflexivity|]. destruct (H q (or_introl eq_refl)) as (a & Ha). destruct (IH x (fun y I => H y (or_intror I))) as (b & Hb).
  exists (a + b)%nat. intros n L. cbn [any_matches]. rewrite (steady_matches q x a n ltac:(lia)) by congruence. rewrite Ha. apply Hb; lia.
Qed.
Lemma plain_not_token : forall c x, ignore_case c = false -> plain x = true -> eventually (fun n => is_token n c x = Ok false).
Proof.
  intros c x C P. unfold is_token. rewrite C. apply any_matches_no. intros q I. apply no_matches. apply plain_no_rule; assumption.
Qed.
Lemma plain_resolves : forall c root p x b, ignore_case c = false -> plain_name x = true -> (b = false -> has_symbol root p x = false) ->
  eventually (fun n => resolve_identifier n c root p x b = Ok x).
Proof.
  intros c root p x b C P H. apply andb_true_iff in P as [P U]. eapply ev_impl; [|apply (plain_not_token c x C P)]. intros n T. cbv beta in T.
  unfold resolve_identifier. rewrite T. cbn [bind andb]. destruct b.
  - rewrite andb_false_r. destruct x as [|a x]; [reflexivity|]. apply negb_true_iff in U. cbn [first_is] in U. destruct a as [[] [] [] [] [] [] [] []]; first [reflexivity|discriminate U].
  - rewrite (H eq_refl). cbn [andb]. destruct x as [|a x]; [reflexivity|]. apply negb_true_iff in U. cbn [first_is] in U. destruct a as [[] [] [] [] [] [] [] []]; first [reflexivity|discriminate U].
Qed.

(** *** The parts of a struct *)
Lemma parts_ident : forall n c p a r s, a_orig a = R_IDENTIFIER -> struct_parts n c p (a :: r) s =
  (do d <- declare_struct n c (sa_root s) p (a_tok a); struct_parts n c p r (SA (snd d) (fst d) (sa_parent s) (sa_ms s))).
Proof. intros n c p [o tag k l] r s E. cbn [a_orig] in E. subst o. reflexivity. Qed.
Lemma parts_inherit : forall n c p a r s, a_orig a = R_INHERITANCE -> struct_parts n c p (a :: r) s =
  (do t <- find_in n (sa_root s) p structs (a_tok a);
   match t with Some _ => struct_parts n c p r (SA (sa_root s) (sa_name s) (a_tok a) (sa_ms s)) | None => Fail Throw end).
Proof. intros n c p [o tag k l] r s E. cbn [a_orig] in E. subst o. reflexivity. Qed.
Lemma parts_member : forall n c p a r s, a_orig a = R_MEMBER -> struct_parts n c p (a :: r) s =
  (do ms <- member_def n c (sa_root s) p (a_sub a) None (sa_ms s); struct_parts n c p r (SA (sa_root s) (sa_name s) (sa_parent s) ms)).
Proof. intros n c p [o tag k l] r s E. cbn [a_orig] in E. subst o. reflexivity. Qed.
Lemma parts_members : forall name n c p root nm b, char_translation c = AsChar -> wide16 c = false -> forall ms l acc,
  Forall2 (fun m a => member_tree (name (snd m)) (fst m) (snd m) a) ms l ->
  (forall m, In m ms -> knows (name (snd m)) n root p (array_base (snd m)) /\ canonical (snd m) /\ resolve_identifier n c root p (fst m) false = Ok (fst m)) ->
  NoDup (map fst (acc ++ ms)) ->
  struct_parts n c p l (SA root nm b acc) = Ok (SA root nm b (acc ++ ms)%list).
Proof.
  intros name n c p root nm b C W. induction ms as [|[x t] ms IH]; intros l acc T K D; inversion T as [|? a ? l' Ta Tl]; subst.
  - cbn [struct_parts]. rewrite app_nil_r. reflexivity.
  - destruct (K (x, t) (or_introl eq_refl)) as (K1 & K2 & K3). cbn [fst snd] in *.
    assert (O : a_orig a = R_MEMBER) by (destruct Ta as (tn & -> & _); reflexivity).
    rewrite (parts_member _ _ _ _ _ _ O). cbn [sa_root sa_ms sa_name sa_parent].
    rewrite (member_reads (name t) n c root p x t a acc Ta C W K1 K2 K3).
    + cbn [bind]. rewrite (IH l' (acc ++ [(x, t)])%list Tl); [rewrite <- app_assoc; reflexivity|intros m I; apply K; right; exact I|rewrite <- app_assoc; exact D].
    + unfold known_member. destruct (existsb (fun m => String.eqb (fst m) x) acc) eqn:E; [|reflexivity]. apply existsb_exists in E as (m & I & E). apply String.eqb_eq in E.
      rewrite map_app in D. cbn [map fst] in D. exfalso. apply NoDup_remove_2 in D. apply D. apply in_or_app. left. apply in_map_iff. exists m. auto.
Qed.

(** *** Two calls on the tables of one module *)
Lemma replace_twice : forall c (y z : modl) l,
  map (fun e => if String.eqb c (fst e) then (fst e, Some z) else e) (map (fun e => if String.eqb c (fst e) then (fst e, Some y) else e) l) =
  map (fun e : string * option modl => if String.eqb c (fst e) then (fst e, Some z) else e) l.
Proof.
  intros c y z l. rewrite map_map. apply map_ext. intros [k v]. cbn [fst]. destruct (String.eqb c k) eqn:E; cbn [fst]; rewrite E; reflexivity.
Qed.
Lemma at_module_twice : forall f g l m m1, at_module l f m = Ok m1 -> at_module l g m1 = at_module l (fun m => do y <- f m; g y) m.
Proof.
  intros f g. induction l as [|c l IH]; intros m m1 H; cbn [at_module] in *.
  - rewrite H. reflexivity.
  - destruct (assoc c (m_inner m)) as [[x|]|] eqn:E; try discriminate H. apply bind_ok_iff in H as (y & Hy & H). injection H as <-. cbn [m_inner m_name_ m_tab].
    rewrite (assoc_map_entry c y _ x E), String.eqb_refl, (IH _ _ Hy). destruct (at_module l (fun m0 => do y0 <- f m0; g y0) x) as [z|]; [|reflexivity]. cbn [bind]. rewrite replace_twice. reflexivity.
Qed.
Lemma at_module_ext : forall f g l m, (forall x, walk l m = Some x -> f x = g x) -> at_module l f m = at_module l g m.
Proof.
  intros f g. induction l as [|c l IH]; intros m H; cbn [at_module]; [apply H; reflexivity|]. cbn [walk] in H. destruct (assoc c (m_inner m)) as [[x|]|]; try reflexivity. rewrite (IH x H). reflexivity.
Qed.
Definition with_tables (root : modl) (p : place) (tab : tables) : res modl := at_module (rev p) (fun m => Ok (Mod (m_name_ m) tab (m_inner m))) root.
Lemma on_tables_with : forall A root p (f : tables -> res (A * tables)) a tab', exists_module root p = true -> f (tab_at root p) = Ok (a, tab') ->
  on_tables root p f = (do r <- with_tables root p tab'; Ok (a, r)).
Proof. intros A root p f a tab' E F. unfold on_tables, exists_module, tab_at in *. destruct (mod_at root p); [|discriminate E]. rewrite F. reflexivity. Qed.
Lemma with_tables_ok : forall root p tab', exists_module root p = true -> exists root', with_tables root p tab' = Ok root'.
Proof.
  intros root p tab' E. destruct (on_tables_ok root p (fun _ => Ok (tt, tab')) tt tab' E eq_refl) as (r & H).
  rewrite (on_tables_with _ _ _ _ tt tab' E eq_refl) in H. destruct (with_tables root p tab') as [x|]; [eauto|discriminate H].
Qed.
Lemma with_tables_retabled : forall root p tab' root', exists_module root p = true -> with_tables root p tab' = Ok root' -> retabled root p tab' root'.
Proof.
  intros root p tab' root' E W. assert (H : on_tables root p (fun _ => Ok (tt, tab')) = Ok (tt, root')) by (rewrite (on_tables_with _ _ _ _ tt tab' E eq_refl), W; reflexivity).
  apply on_tables_spec in H as (_ & t & Et & R). injection Et as <-. exact R.
Qed.
Lemma with_tables_twice : forall root p tab1 tab2 root1, with_tables root p tab1 = Ok root1 -> with_tables root1 p tab2 = with_tables root p tab2.
Proof. intros root p tab1 tab2 root1 H. unfold with_tables in *. rewrite (at_module_twice _ _ _ _ _ H). apply at_module_ext. intros x _. reflexivity. Qed.
Lemma with_tables_here : forall root p tab' root', exists_module root p = true -> with_tables root p tab' = Ok root' -> tab_at root' p = tab' /\ exists_module root' p = true.
Proof.
  intros root p tab' root' E W. pose proof (with_tables_retabled _ _ _ _ E W) as R. rewrite (retabled_tab _ _ _ _ p E R), (retabled_exists _ _ _ _ p R).
  destruct (list_eq_dec string_dec p p); [auto|congruence].
Qed.

(** *** Tables *)
Lemma replace_emplaced : forall A (x : string) (v t : A) l, mem x l = false ->
  map (fun e => if String.eqb x (fst e) then (fst e, t) else e) (emplace x v l) = emplace x t l.
Proof.
  intros A x v t l M. unfold emplace. rewrite M. assert (N : assoc x l = None) by (unfold mem in M; destruct (assoc x l); [discriminate M|reflexivity]). clear M.
  assert (Id : forall r : list (string * A), assoc x r = None -> map (fun e => if String.eqb x (fst e) then (fst e, t) else e) r = r).
  { induction r as [|[k w] r IH]; intros H; [reflexivity|]. cbn [assoc] in H. cbn [map fst]. destruct (String.eqb x k); [discriminate H|]. rewrite IH by exact H. reflexivity. }
  induction l as [|[k w] l IH]; cbn [emplace_name assoc map fst] in *; [rewrite String.eqb_refl; reflexivity|]. destruct (String.eqb x k) eqn:E; [discriminate N|].
  destruct (String.compare x k) eqn:C; cbn [map fst].
  - apply String.compare_eq_iff in C. subst k. rewrite String.eqb_refl in E. discriminate E.
  - rewrite String.eqb_refl, E, (Id l N). reflexivity.
  - rewrite E, (IH N). reflexivity.
Qed.
Lemma remove_emplaced : forall A (x : string) (v : A) l, mem x l = false -> remove_name x (emplace x v l) = l.
Proof.
  intros A x v l M. unfold emplace. rewrite M. assert (N : assoc x l = None) by (unfold mem in M; destruct (assoc x l); [discriminate M|reflexivity]). clear M.
  assert (Id : forall r : list (string * A), assoc x r = None -> remove_name x r = r).
  { unfold remove_name. induction r as [|[k w] r IH]; intros H; [reflexivity|]. cbn [assoc] in H. cbn [filter fst]. destruct (String.eqb x k); [discriminate H|]. cbn [negb]. rewrite IH by exact H. reflexivity. }
  induction l as [|[k w] l IH]; cbn [emplace_name assoc] in *; [unfold remove_name; cbn [filter fst]; rewrite String.eqb_refl; reflexivity|]. destruct (String.eqb x k) eqn:E; [discriminate N|].
  destruct (String.compare x k) eqn:C.
  - apply String.compare_eq_iff in C. subst k. rewrite String.eqb_refl in E. discriminate E.
  - unfold remove_name at 1. cbn [filter fst]. rewrite String.eqb_refl, E. cbn [negb]. f_equal. apply (Id l N).
  - unfold remove_name in *. cbn [filter fst]. rewrite E. cbn [negb]. rewrite (IH N). reflexivity.
Qed.
Lemma get_set_table : forall k v t, get_table k (set_table k v t) = v.
Proof. intros [] v t; reflexivity. Qed.
Lemma set_set_table : forall k v w t, set_table k w (set_table k v t) = set_table k w t.
Proof. intros [] v w t; reflexivity. Qed.
Lemma mem_emplace : forall A (x : string) (v : A) l, mem x l = false -> assoc x (emplace x v l) = Some v.
Proof. intros A x v l M. rewrite emplace_assoc, String.eqb_refl. unfold mem in M. destruct (assoc x l); [discriminate M|reflexivity]. Qed.

(** *** Names *)
Lemma is_ident_name : forall x, is_ident x = true -> ident x.
Proof.
  intros x H. split; [intros ->; discriminate H|]. apply andb_true_iff in H as [_ H]. induction x as [|c x IH]; [reflexivity|]. cbn [all_chars no_colon] in *. apply andb_true_iff in H as [Hc H].
  pose proof (all_ascii (fun c => implb (id_char c) (negb (Ascii.eqb c ":"))) eq_refl c) as K. cbv beta in K. rewrite Hc in K. cbn [implb] in K. rewrite K. apply IH, H.
Qed.
Lemma ident_split : forall x, is_ident x = true -> split_scope x = None.
Proof. intros x H. apply split_ident, is_ident_name, H. Qed.
Lemma add_members_rename : forall y ms t t', add_members t ms = Ok t' -> (exists nm s l, t = TStruct nm s l) -> add_members (rename t y) ms = Ok (rename t' y).
Proof.
  intros y. induction ms as [|[x mt] ms IH]; intros t t' H (nm & s & l & ->).
  - injection H as <-. reflexivity.
  - cbn [add_members rename add_member] in *. destruct (has_member x l); [discriminate H|]. apply (IH _ _ H). eauto.
Qed.
Lemma add_members_name : forall ms nm s l t', add_members (TStruct nm s l) ms = Ok t' -> exists s' l', t' = TStruct nm s' l'.
Proof.
  induction ms as [|[x mt] ms IH]; intros nm s l t' H; cbn [add_members add_member] in H.
  - injection H as <-. eauto.
  - destruct (has_member x l); [discriminate H|]. eapply IH, H.
Qed.
Lemma lookup_here : forall n k root p x t, (0 < n)%nat -> exists_module root p = true -> is_ident x = true -> assoc x (get_table k (tab_at root p)) = Some t ->
  lookup n k root p x = Ok (p, x, t).
Proof.
  intros n k root p x t N E I A. unfold lookup, resolve. destruct n as [|n]; [lia|]. cbn [resolve_scope]. unfold exists_module, tab_at in *. destruct (mod_at root p) as [m|] eqn:M; [|discriminate E].
  cbn [negb andb]. rewrite (ident_split x I).
  assert (S : has_symbol_here m x = true).
  { unfold has_symbol_here, mem. destruct k; cbn [get_table] in A; rewrite A; cbn; rewrite ?orb_true_r; reflexivity. }
  rewrite S. cbn [bind]. unfold tab_at. rewrite M, A. reflexivity.
Qed.

(** *** struct_def *)
Definition struct_tree (o : rule) (x : string) (parent : option string) (l : list ast) : ast :=
  match (parent_trees parent ++ l)%list with [] => Ast o R_IDENTIFIER x [] | r => Ast o R_STRUCT_DEF "" (ident_node x :: r) end.
Lemma optimize_struct : forall x parent l, optimize (struct_definition x parent l) = struct_tree R_DEFINITION x parent (map optimize l).
Proof.
  intros x parent l. unfold struct_definition. rewrite !optimize_one, !with_orig_twice. unfold struct_node, struct_tree. destruct parent as [b|]; [reflexivity|]. cbn [parent_nodes parent_trees app].
  destruct l as [|a l]; reflexivity.
Qed.
Lemma rename_id : forall x y t, (exists s l, t = TStruct x s l) -> tname (rename t y) = y /\ tname t = x.
Proof. intros x y t (s & l & ->). split; reflexivity. Qed.
Lemma declare_struct_ok : forall n c root p x b root1, resolve_identifier n c root p x true = Ok x -> call_register Structs (TStruct x 0 []) false root p = Ok (b, root1) ->
  declare_struct n c root p x = Ok (x, root1).
Proof. intros n c root p x b root1 R C. unfold declare_struct. rewrite R. cbn [bind]. rewrite C. reflexivity. Qed.
Lemma register_new : forall root p x t, exists_module root p = true -> is_ident x = true -> tname t = x -> mem x (structs (tab_at root p)) = false ->
  call_register Structs t false root p = (do r <- with_tables root p (set_structs (emplace x (rename t (scoped (scope p) x)) (structs (tab_at root p))) (tab_at root p)); Ok (true, r)).
Proof.
  intros root p x t E I T M. unfold call_register. apply on_tables_with; [exact E|]. unfold register. rewrite T, (ident_split x I). cbn [get_table set_table]. rewrite M. reflexivity.
Qed.
Lemma store_struct : forall root p tab x v t root1, exists_module root p = true -> mem x (structs tab) = false ->
  with_tables root p (set_structs (emplace x v (structs tab)) tab) = Ok root1 ->
  store_at Structs x t root1 p = with_tables root p (set_structs (emplace x t (structs tab)) tab).
Proof.
  intros root p tab x v t root1 E M W. destruct (with_tables_here _ _ _ _ E W) as [T E1]. unfold store_at. erewrite (on_tables_with unit root1 p _ tt); [|exact E1|reflexivity].
  rewrite T, (with_tables_twice _ _ _ _ _ W).
  assert (X : store Structs x t (set_structs (emplace x v (structs tab)) tab) = set_structs (emplace x t (structs tab)) tab).
  { unfold store. rewrite <- (replace_emplaced _ x v t _ M). reflexivity. }
  rewrite X. destruct (with_tables root p (set_structs (emplace x t (structs tab)) tab)); reflexivity.
Qed.
(** [from] is [root], or what declaring [x] made of it. *)
Lemma struct_def_from : forall n c p o root from fresh x parent bt ms l t root1, (0 < n)%nat ->
  exists_module root p = true -> is_ident x = true -> mem x (structs (tab_at root p)) = false -> resolve_identifier n c from p x true = Ok x ->
  call_register Structs (TStruct x 0 []) false root p = Ok (true, root1) -> call_register Structs (TStruct x 0 []) false from p = Ok (fresh, root1) ->
  struct_parts n c p l (SA root1 x (match parent with Some b => b | None => "" end) []) = Ok (SA root1 x (match parent with Some b => b | None => "" end) ms) -> (l = [] -> ms = []) ->
  match parent with Some b => b <> "" /\ exists q y bt', bt = Some bt' /\ lookup n Structs root1 p b = Ok (q, y, bt') | None => bt = None end ->
  struct_of x bt ms = Ok t ->
  exists root', call_register Structs t false root p = Ok (true, root') /\ struct_def n c p (struct_tree o x parent l) from = Ok root'.
Proof.
  intros n c p o root from fresh x parent bt ms l t root1 N E I M R C1 CF K T P S.
  assert (Pn : forall b, parent = Some b -> exists bt', bt = Some bt' /\ find_in n root1 p structs b = Ok (Some bt')).
  { intros b ->. destruct P as (_ & q & y & bt' & -> & L). exists bt'. split; [reflexivity|]. unfold lookup in L. unfold find_in. destruct (resolve n root1 p b) as [[[q' y']|]|e]; try discriminate L. cbn [bind] in *.
    cbn [found]. unfold get_table in L. destruct (assoc y' (structs (tab_at root1 q'))); [|discriminate L]. injection L as _ _ ->. reflexivity. }
  assert (Dp : struct_parts n c p (ident_node x :: parent_trees parent ++ l) (SA from "" "" []) = Ok (SA root1 x (match parent with Some b => b | None => "" end) ms)).
  { rewrite parts_ident by reflexivity. cbn [ident_node a_tok sa_root sa_parent sa_ms]. rewrite (declare_struct_ok _ _ _ _ _ _ _ R CF). cbn [bind fst snd]. destruct parent as [b|]; cbn [parent_trees app].
    - rewrite parts_inherit by reflexivity. cbn [a_tok sa_root sa_name sa_ms]. destruct (Pn b eq_refl) as (bt' & _ & ->). cbn [bind].
      exact K.
    - exact K. }
  assert (G : exists t0 s0 l0, struct_new x bt = Ok t0 /\ t0 = TStruct x s0 l0 /\ add_members t0 ms = Ok t).
  { unfold struct_of in S. destruct bt as [[]|]; cbn [struct_new bind] in *; try discriminate S; do 3 eexists; (split; [reflexivity|split; [reflexivity|exact S]]). }
  destruct G as (t0 & s0 & l0 & G0 & -> & GA). destruct (add_members_name _ _ _ _ _ GA) as (s1 & l1 & ->).
  pose proof (add_members_rename (scoped (scope p) x) _ _ _ GA ltac:(eauto)) as GR. cbn [rename] in GR.
  rewrite (register_new root p x (TStruct x s1 l1) E I eq_refl M). cbn [rename].
  destruct (with_tables_ok root p (set_structs (emplace x (TStruct (scoped (scope p) x) s1 l1) (structs (tab_at root p))) (tab_at root p)) E) as (root' & W').
  exists root'. rewrite W'. split; [reflexivity|].
  rewrite (register_new root p x (TStruct x 0 []) E I eq_refl M) in C1. cbn [rename] in C1.
  destruct (with_tables root p (set_structs (emplace x (TStruct (scoped (scope p) x) 0 []) (structs (tab_at root p))) (tab_at root p))) as [r1|] eqn:W1; [|discriminate C1]. cbn [bind] in C1. injection C1 as ->.
  destruct (with_tables_here _ _ _ _ E W1) as [T1 E1].
  assert (L1 : lookup n Structs root1 p x = Ok (p, x, TStruct (scoped (scope p) x) 0 [])).
  { apply lookup_here; [exact N|exact E1|exact I|]. rewrite T1. cbn [get_table set_structs structs]. apply mem_emplace, M. }
  assert (Main : (do e <- lookup n Structs root1 p x;
    let '(q, y, t) := e in
    match members_of t with
    | _ :: _ => if ignore_redefinition c then Ok root1 else Fail Throw
    | [] =>
      do d <- (if String.eqb (match parent with Some b => b | None => "" end) "" then Ok (root1, q, y, t)
               else do b <- lookup n Structs root1 p (match parent with Some b => b | None => "" end);
                    do t' <- struct_new x (Some (snd b));
                    do r <- call_register Structs t' true root1 p;
                    do e <- lookup n Structs (snd r) p x;
                    Ok (snd r, fst (fst e), snd (fst e), snd e));
      let '(root2, q, y, t) := d in
      do t <- add_members t ms; store_at Structs y t root2 q
    end) = Ok root').
  { rewrite L1. cbn [bind members_of]. destruct parent as [b|].
    - destruct P as (NE & q & y & bt' & -> & L). destruct (String.eqb_spec b ""); [congruence|]. rewrite L. cbn [bind snd].
      rewrite G0. cbn [bind]. unfold call_register. erewrite (on_tables_with bool root1 p _ true); [|exact E1|].
      2:{ unfold register. cbn [tname]. rewrite (ident_split x I). rewrite T1. cbn [get_table set_structs structs set_table]. rewrite (remove_emplaced _ x _ _ M), M. cbn [negb]. reflexivity. }
      cbn [rename]. rewrite (with_tables_twice _ _ _ _ _ W1).
      change (set_structs (emplace x (TStruct (scoped (scope p) x) s0 l0) (structs (tab_at root p))) (set_structs (emplace x (TStruct (scoped (scope p) x) 0 []) (structs (tab_at root p))) (tab_at root p)))
        with (set_structs (emplace x (TStruct (scoped (scope p) x) s0 l0) (structs (tab_at root p))) (tab_at root p)).
      destruct (with_tables_ok root p (set_structs (emplace x (TStruct (scoped (scope p) x) s0 l0) (structs (tab_at root p))) (tab_at root p)) E) as (root2 & W2). rewrite W2. cbn [bind snd].
      destruct (with_tables_here _ _ _ _ E W2) as [T2 E2].
      rewrite (lookup_here n Structs root2 p x (TStruct (scoped (scope p) x) s0 l0) N E2 I); [|rewrite T2; cbn [get_table set_structs structs]; apply mem_emplace, M].
      cbn [bind fst snd]. rewrite GR. cbn [bind]. rewrite (store_struct root p (tab_at root p) x _ _ root2 E M W2). exact W'.
    - subst bt. injection G0 as <- <-. change (String.eqb "" "") with true. cbn iota. cbn [bind]. rewrite GR. cbn [bind]. rewrite (store_struct root p (tab_at root p) x _ _ root1 E M W1). exact W'. }
  unfold struct_tree. destruct (parent_trees parent ++ l)%list as [|a0 r0] eqn:EL.
  - unfold struct_def. cbn [a_sub struct_parts bind a_tag a_tok sa_root sa_name sa_parent sa_ms]. change (String.eqb "" "" && rule_eqb R_IDENTIFIER R_IDENTIFIER) with true. cbn iota.
    rewrite (declare_struct_ok _ _ _ _ _ _ _ R CF).
    cbn [bind fst snd sa_root sa_name sa_parent sa_ms]. destruct parent as [b|]; [discriminate EL|]. cbn [parent_trees app] in EL. subst l. rewrite (T eq_refl) in Main. exact Main.
  - rewrite <- EL in Dp |- *. unfold struct_def. cbn [a_sub]. rewrite Dp. cbn [bind sa_name sa_root sa_parent sa_ms]. 
    destruct (String.eqb_spec x "") as [->|NE]; [discriminate I|]. cbn [andb bind sa_name sa_root sa_parent sa_ms]. exact Main.
Qed.
Lemma struct_def_parts : forall n c p o root x parent bt ms l t root1, (0 < n)%nat ->
  exists_module root p = true -> is_ident x = true -> mem x (structs (tab_at root p)) = false -> resolve_identifier n c root p x true = Ok x ->
  call_register Structs (TStruct x 0 []) false root p = Ok (true, root1) ->
  struct_parts n c p l (SA root1 x (match parent with Some b => b | None => "" end) []) = Ok (SA root1 x (match parent with Some b => b | None => "" end) ms) -> (l = [] -> ms = []) ->
  match parent with Some b => b <> "" /\ exists q y bt', bt = Some bt' /\ lookup n Structs root1 p b = Ok (q, y, bt') | None => bt = None end ->
  struct_of x bt ms = Ok t ->
  exists root', call_register Structs t false root p = Ok (true, root') /\ struct_def n c p (struct_tree o x parent l) root = Ok root'.
Proof. intros n c p o root x parent bt ms l t root1 N E I M R C1 K T P S. eapply (struct_def_from n c p o root root true); eassumption. Qed.
Lemma struct_def_reads : forall name n c p o root x parent bt ms l t root1, (0 < n)%nat -> char_translation c = AsChar -> wide16 c = false ->
  exists_module root p = true -> is_ident x = true -> mem x (structs (tab_at root p)) = false -> resolve_identifier n c root p x true = Ok x ->
  call_register Structs (TStruct x 0 []) false root p = Ok (true, root1) ->
  Forall2 (fun m a => member_tree (name (snd m)) (fst m) (snd m) a) ms l ->
  (forall m, In m ms -> knows (name (snd m)) n root1 p (array_base (snd m)) /\ canonical (snd m) /\ resolve_identifier n c root1 p (fst m) false = Ok (fst m)) ->
  NoDup (map fst ms) ->
  match parent with Some b => b <> "" /\ exists q y bt', bt = Some bt' /\ lookup n Structs root1 p b = Ok (q, y, bt') | None => bt = None end ->
  struct_of x bt ms = Ok t ->
  exists root', call_register Structs t false root p = Ok (true, root') /\ struct_def n c p (struct_tree o x parent l) root = Ok root'.
Proof.
  intros name n c p o root x parent bt ms l t root1 N C W E I M R C1 T K D P S.
  eapply (struct_def_parts n c p o root x parent bt ms l t root1); try eassumption.
  - exact (parts_members name n c p root1 x _ C W ms l [] T K D).
  - intros ->. inversion T. reflexivity.
Qed.
