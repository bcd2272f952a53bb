(** Members as a user writes them, and the struct made of them. *)
From Verif Require Import Base Types TypeBuild Mem Hash MapOps Ops IntOps ModuleSpec ModuleFacts Module IntSpec IntFacts Peg0 Grammar Peg PegFacts PegRules IdlParse IdlParseFacts GenIdl GenSpec TypeText StructText StructRead NumText IdlLitFacts IdlLit IdlExpr GrowFacts DocFacts GenStruct NoteSpec NoteText NoteDecl FreeSpec FreeText.
From Verif Require Import GapSpec GapText.
Local Open Scope string_scope.

(** *** The same text under more names *)
Section More.
  Variables (T T' : string -> ty -> Prop) (K K' : string -> N -> Prop).
  Hypothesis HT : forall s t, plain_scoped s -> T s t -> T' s t.
  Hypothesis HK : forall abs qs x b, ident_path qs x -> K (render abs qs x) b -> K' (render abs qs x) b.
  Lemma size_more : forall top s b, size_says K top s b -> size_says K' top s b.
  Proof. intros top s b [b' L|abs qs x b' L I H]; [constructor; exact L|]. apply size_constant; auto. Qed.
  Lemma type_more : forall s t, type_says T K s t -> type_says T' K' s t.
  Proof.
    intros s t H. induction H; try (constructor; (assumption || apply size_more; assumption)).
    apply ts_name; [assumption|]. apply HT; assumption.
  Qed.
  Lemma dims_more_names : forall top s ds, dims_say K top s ds -> dims_say K' top s ds.
  Proof. intros top s ds H. induction H; constructor; [apply size_more; assumption|assumption]. Qed.
  Lemma names_more_names : forall s l, names_say K s l -> names_say K' s l.
  Proof. intros s l H. induction H; constructor; try assumption; apply dims_more_names; assumption. Qed.
  Lemma members_more_names : forall s ms, members_say T K s ms -> members_say T' K' s ms.
  Proof. intros s ms H. induction H; constructor; (assumption || (apply type_more; assumption) || (apply names_more_names; assumption)). Qed.
  Lemma body_more_names : forall s ms, body_says T K s ms -> body_says T' K' s ms.
  Proof. intros s ms [w r l G H]. constructor; [exact G|apply members_more_names, H]. Qed.
End More.
Lemma plain_body : forall T K s ms, members_say T K s ms -> body_says T K s ms.
Proof. intros T K s ms H. exact (body_led T K "" s ms gap_none H). Qed.
Lemma gap_led : forall w, gap w -> gap (" " ++ w).
Proof.
  intros w H. destruct H as [w W|b t e g B T Us E G|b t g B T G]; [apply gap_blank; exact W|exact (gap_line (" " ++ b) t e g B T Us E G)|exact (gap_block (" " ++ b) t g B T G)].
Qed.
Lemma grows_size : forall root p x root' p0 abs qs y b, no_nulls root -> grows root p x root' -> exists_module root p0 = true -> ident_path qs y -> (y = x -> (abs = true -> around p (rev qs)) -> p = []) ->
  names_size root p0 (render abs qs y) b -> names_size root' p0 (render abs qs y) b.
Proof.
  intros root p x root' p0 abs qs y b N G E I P (n & d & q & H & Kq & Iq). unfold find_in in H. destruct (resolve n root p0 (render abs qs y)) as [r|] eqn:R; [|discriminate H]. cbn [bind] in H.
  destruct r as [[m z]|]; [|discriminate H]. destruct (grows_resolve _ _ _ _ _ _ _ _ _ _ _ N G E I P R) as (-> & NQ & n' & R'). exists n', d, q. split; [|auto]. unfold find_in. rewrite R'. cbn [bind found] in *.
  destruct (tab_kept _ _ _ _ _ _ G NQ) as (_ & _ & _ & _ & ->). exact H.
Qed.

(** *** Arrays *)
Lemma array_type_of : forall t ds, ds <> [] -> Forall (fun d => d < 2 ^ 32)%N ds -> get_array_type (map Z.of_N ds) t = Ok (array_of t ds).
Proof.
  intros t. induction ds as [|d ds IH]; intros NE L; [congruence|]. inversion L as [|? ? Ld Lr]; subst. destruct ds as [|e ds].
  - cbn [map get_array_type array_of fold_right]. rewrite to_u32_small by exact Ld. reflexivity.
  - change (get_array_type (map Z.of_N (d :: e :: ds)) t) with (do a <- get_array_type (map Z.of_N (e :: ds)) t; Ok (mk_array a (to_u32 (Z.of_N d)))).
    rewrite IH; [|discriminate|exact Lr]. cbn [bind]. rewrite to_u32_small by exact Ld. reflexivity.
Qed.
Lemma known_no : forall x ms, ~ In x (map fst ms) -> known_member x ms = false.
Proof.
  intros x ms H. unfold known_member. destruct (existsb (fun m => String.eqb (fst m) x) ms) eqn:E; [|reflexivity]. apply existsb_exists in E as (m & I & E). apply String.eqb_eq in E.
  destruct H. apply in_map_iff. exists m. auto.
Qed.
Definition declared_as (t : ty) (l : list (string * list N)) : list (string * ty) := map (fun x => (fst x, array_of t (snd x))) l.
Lemma declared_names : forall t l, map fst (declared_as t l) = map fst l.
Proof. intros t l. unfold declared_as. rewrite map_map. apply map_ext. reflexivity. Qed.
Lemma add_declared_all : forall t l ms, Forall (fun x => Forall (fun d => d < 2 ^ 32)%N (snd x)) l -> NoDup (map fst (ms ++ declared_as t l)) ->
  add_declared t (map (fun x => (fst x, map Z.of_N (snd x))) l) ms = Ok (ms ++ declared_as t l)%list.
Proof.
  intros t. induction l as [|[x ds] l IH]; intros ms L D; [cbn; rewrite app_nil_r; reflexivity|]. inversion L as [|? ? Ld Lr]; subst. cbn [map add_declared fst snd declared_as] in *.
  rewrite known_no.
  - assert (Q : match map Z.of_N ds with [] => Ok t | _ => get_array_type (map Z.of_N ds) t end = Ok (array_of t ds)).
    { destruct ds as [|d ds]; [reflexivity|]. exact (array_type_of t (d :: ds) ltac:(discriminate) Ld). }
    rewrite Q. cbn [bind]. fold (declared_as t l). rewrite IH; [rewrite <- app_assoc; reflexivity|exact Lr|rewrite <- app_assoc; exact D].
  - rewrite map_app in D. cbn [map fst] in D. apply NoDup_remove_2 in D. intros H. apply D, in_or_app. left. exact H.
Qed.

Section Members.
  Variables (T : string -> ty -> Prop) (K : string -> N -> Prop).
  Notation known_at := (known_at T K).
  Notation means := (means T K).
  (** *** Declarators *)
  Definition dim_tree (d : N) (a : ast) : Prop := (d < 2 ^ 32)%N /\ exists s z, a = Ast R_FIXED_ARRAY_SIZE R_FIXED_ARRAY_SIZE "" [z] /\ sized K s d z.
  Lemma ok_dim : forall s d r, size_says K (2 ^ 32) s d -> solid r -> exists a, ok (Ref R_FIXED_ARRAY_SIZE) ("[" ++ s ++ "]" ++ r) [a] [] r /\ dim_tree d a.
  Proof.
    intros s d r H S. destruct (ok_size_says K _ s d ("]" ++ r) H eq_refl eq_refl eq_refl) as (z & O & Z). eexists. split.
    - eapply ok_ref_node; [|reflexivity|reflexivity]. cbn [gram].
      refine (ok_seq _ _ _ [] [] _ _ [] _ (ok_open R_OPEN_BRACKET "[" _ _ _ _) _); [kw|reflexivity|eapply size_solid, H|].
      refine (ok_seq _ _ _ [_] [] _ [] [] _ O (ok_open R_CLOSE_BRACKET "]" r _ _ S)); [kw|reflexivity].
    - split; [eapply size_less, H|]. exists s, z. split; [reflexivity|exact Z].
  Qed.
  Lemma dims_say_solid : forall top x ds s, dims_say K top x ds -> solid s -> solid (x ++ s).
  Proof. intros top x ds s [|] S; [exact S|reflexivity]. Qed.
  Lemma ok_dims : forall x ds, dims_say K (2 ^ 32) x ds -> forall s, solid s -> first_is (Ascii.eqb "[") s = false -> exists l, ok (Star (Ref R_FIXED_ARRAY_SIZE)) (x ++ s) l [] s /\ Forall2 dim_tree ds l.
  Proof.
    intros x ds H. induction H as [|x d r ds Hs Hr IH]; intros s S F.
    - exists []. split; [apply ok_star_end, no_size; assumption|constructor].
    - destruct (IH s S F) as (l & O & D). destruct (ok_dim x d (r ++ s) Hs (dims_say_solid _ _ _ _ Hr S)) as (a & Oa & Da). exists (a :: l). split; [|constructor; assumption].
      rewrite !app_assoc_s. exact (ok_star_more _ _ [a] [] _ l [] _ Oa O).
  Qed.
  Definition decl_node (x : string) (l : list ast) : ast := match l with [] => Ast R_SIMPLE_DECLARATOR R_SIMPLE_DECLARATOR "" [ident_node x] | _ => Ast R_ARRAY_DECLARATOR R_ARRAY_DECLARATOR "" (ident_node x :: l) end.
  Lemma ok_decl_alt : forall e x d ds s, is_ident x = true -> dims_say K (2 ^ 32) d ds -> closes s -> exists l, Forall2 dim_tree ds l /\
    ok (Alt (Ref R_ARRAY_DECLARATOR) (Alt (Ref R_SIMPLE_DECLARATOR) e)) (x ++ d ++ s) [decl_node x l] [] s /\ ok (Alt (Ref R_ARRAY_DECLARATOR) (Ref R_SIMPLE_DECLARATOR)) (x ++ d ++ s) [decl_node x l] [] s.
  Proof.
    intros e x d ds s I H C. destruct H as [|y d r ds Hs Hr].
    - exists []. split; [constructor|]. assert (O : ok (Ref R_SIMPLE_DECLARATOR) (x ++ s) [decl_node x []] [] s) by (eapply ok_ref_node; [|reflexivity|reflexivity]; cbn [gram]; apply ok_ident; [exact I|apply (c_id _ C)]).
      cbn [append]. split; (apply ok_alt_r; [apply no_array_declarator; assumption|]); [apply ok_alt_l|]; exact O.
    - destruct (ok_dim y d (r ++ s) Hs (dims_say_solid _ _ _ _ Hr (c_solid _ C))) as (a & Oa & Da). destruct (ok_dims r ds Hr s (c_solid _ C) (c_dim _ C)) as (l & O & D).
      exists (a :: l). split; [constructor; assumption|]. rewrite !app_assoc_s.
      assert (OA : ok (Ref R_ARRAY_DECLARATOR) (x ++ "[" ++ y ++ "]" ++ r ++ s) [decl_node x (a :: l)] [] s).
      { eapply ok_ref_node; [|reflexivity|reflexivity]. cbn [gram]. refine (ok_seq _ _ _ [_] [] _ _ [] _ (ok_ident x _ I _) _); [reflexivity|]. exact (ok_plus _ _ [a] [] (r ++ s) l [] s Oa O). }
      split; apply ok_alt_l; exact OA.
  Qed.
  Definition opt_decl (o : rule) (x : string) (l : list ast) : ast := match l with [] => Ast o R_IDENTIFIER x [] | _ => Ast o R_ARRAY_DECLARATOR "" (ident_node x :: map optimize l) end.
  Lemma optimize_decl : forall x l o, with_orig o (optimize (decl_node x l)) = opt_decl o x l.
  Proof. intros x [|a l] o; reflexivity. Qed.
  Lemma dims_read : forall c root p x ds l, known_at root p -> Forall2 dim_tree ds l -> eventually (fun n => forall acc, declarator_parts n c root p (map optimize l) x acc = Ok (x, (acc ++ map Z.of_N ds)%list)).
  Proof.
    intros c root p x ds l N H. induction H as [|d a ds l Ha Hl IH]; [exists O; intros n _ acc; cbn [map declarator_parts]; rewrite app_nil_r; reflexivity|].
    destruct Ha as (L & s & z & -> & Z). rewrite <- (app_nil_l (Ast _ _ _ _ :: l)). cbn [map app]. rewrite optimize_one. destruct N as (N0 & N1 & N2 & N3). destruct Z as [[-> ->]|(Hk & NE & ->)].
    - eapply ev_impl; [|exact IH]. intros n Q acc. cbv beta in Q. cbn [with_orig declarator_parts a_tag a_tok]. rewrite stoul_to_string by lia. cbn [bind]. rewrite Q, <- app_assoc. reflexivity.
    - eapply ev_impl; [|apply (ev_and _ _ IH (size_named root p s d L (N3 _ _ Hk)))]. intros n [Q [Q' _]] acc. cbn [with_orig declarator_parts a_tag a_tok]. rewrite Q'. cbn [bind]. rewrite Q, <- app_assoc. reflexivity.
  Qed.
  Lemma decl_reads : forall c root p o x ds l, known_at root p -> Forall2 dim_tree ds l -> eventually (fun n => resolve_identifier n c root p x false = Ok x) ->
    eventually (fun n => declarator n c root p (opt_decl o x l) = Ok (x, map Z.of_N ds)).
  Proof.
    intros c root p o x ds l N H R. eapply ev_impl; [|apply (ev_and _ _ R (dims_read c root p x ds l N H))]. intros n [Q1 Q2]. cbv beta in *. unfold declarator. destruct H as [|d a ds l Ha Hl].
    - cbn [opt_decl a_tag a_tok]. rewrite Q1. reflexivity.
    - cbn [opt_decl a_tag a_sub]. cbn [declarator_parts ident_node a_tag a_tok]. rewrite Q1. cbn [bind]. rewrite Q2. reflexivity.
  Qed.
  (** *** Several declarators *)
  Definition decl_tree (x : string * list N) (a : ast) : Prop := exists l, Forall2 dim_tree (snd x) l /\ a = Ast R_DECLARATOR R_DECLARATOR "" [decl_node (fst x) l].
  Lemma ok_decl : forall x d ds s, is_ident x = true -> dims_say K (2 ^ 32) d ds -> closes s -> exists a, ok (Ref R_DECLARATOR) (x ++ d ++ s) [a] [] s /\ decl_tree (x, ds) a.
  Proof.
    intros x d ds s I H C. destruct (ok_decl_alt Eps x d ds s I H C) as (l & D & _ & O). eexists. split; [eapply ok_ref_node; [exact O|reflexivity|reflexivity]|]. exists l. split; [exact D|reflexivity].
  Qed.
  Lemma closes_comma : forall s, closes ("," ++ s).
  Proof. intros s. constructor; reflexivity. Qed.
  Lemma ok_names : forall s l, names_say K s l -> Forall (fun x => is_ident (fst x) = true) l -> forall r, closes r -> first_is (Ascii.eqb ",") r = false ->
    exists a r' q, ok (Ref R_DECLARATOR) (s ++ r) [a] [] r' /\ ok (Star (Seq (Ref R_COMMA) (Ref R_DECLARATOR))) r' q [] r /\ Forall2 decl_tree l (a :: q).
  Proof.
    intros s l H. induction H as [x d ds H|x d ds w s l H G Hn IH]; intros I r C F; inversion I as [|? ? Ix Il]; subst; cbn [fst] in Ix.
    - destruct (ok_decl x d ds r Ix H C) as (a & O & D). exists a, r, []. rewrite app_assoc_s. split; [exact O|]. split; [|constructor; [exact D|constructor]].
      apply ok_star_end, no_seq_l. apply (no_punct R_COMMA "," "" r); [kw|reflexivity|apply (c_solid _ C)|exact F].
    - destruct (ok_decl x d ds ("," ++ w ++ s ++ r) Ix H (closes_comma _)) as (a & O & D). destruct (IH Il r C F) as (a' & r' & q & O' & Oq & Dq).
      exists a, ("," ++ w ++ s ++ r), (a' :: q). rewrite !app_assoc_s. split; [exact O|]. split; [|constructor; assumption].
      assert (Sn : solid (s ++ r)).
      { destruct Hn as [y d' ds' H'|y d' ds' w' s l H' G' Hn]; inversion Il as [|? ? Iy _]; subst; cbn [fst] in Iy; rewrite !app_assoc_s; apply ident_solid, Iy. }
      refine (ok_star_more _ _ [a'] [] r' q [] r _ Oq). refine (ok_seq _ _ _ [] [] _ [a'] [] _ (ok_close_gap R_COMMA "," w (s ++ r) ltac:(kw) eq_refl G Sn) O').
  Qed.
  Definition names_tree (l : list (string * list N)) (a : ast) : Prop := exists q, Forall2 decl_tree l q /\ l <> [] /\ a = Ast R_DECLARATORS R_DECLARATORS "" q.
  Lemma ok_declarators_say : forall s l r, names_say K s l -> Forall (fun x => is_ident (fst x) = true) l -> closes r -> first_is (Ascii.eqb ",") r = false -> exists a, ok (Ref R_DECLARATORS) (s ++ r) [a] [] r /\ names_tree l a.
  Proof.
    intros s l r H I C F. destruct (ok_names s l H I r C F) as (a & r' & q & O & Oq & D). eexists. split.
    - eapply ok_ref_node; [|reflexivity|reflexivity]. cbn [gram]. exact (ok_seq _ _ _ [a] [] _ q [] _ O Oq).
    - exists (a :: q). split; [exact D|]. split; [inversion D; discriminate|reflexivity].
  Qed.
  Lemma decls_read : forall c root p l q, known_at root p -> Forall2 decl_tree l q -> (forall x, In x (map fst l) -> eventually (fun n => resolve_identifier n c root p x false = Ok x)) ->
    eventually (fun n => map_res (declarator n c root p) (map optimize q) = Ok (map (fun x => (fst x, map Z.of_N (snd x))) l)).
  Proof.
    intros c root p l q N H. induction H as [|[x ds] a l q Ha Hl IH]; intros R; [exists O; reflexivity|]. destruct Ha as (la & D & ->). cbn [fst snd] in D.
    eapply ev_impl; [|apply (ev_and _ _ (decl_reads c root p R_DECLARATOR x ds la N D (R x (or_introl eq_refl))) (IH (fun y I => R y (or_intror I))))]. intros n [Q1 Q2]. cbv beta in *.
    cbn [map map_res fst snd]. rewrite optimize_one, optimize_decl, Q1. cbn [bind]. rewrite Q2. reflexivity.
  Qed.
  Lemma names_read : forall c root p l a, known_at root p -> names_tree l a -> (forall x, In x (map fst l) -> eventually (fun n => resolve_identifier n c root p x false = Ok x)) ->
    eventually (fun n => identifier_list n c root p (optimize a) = Ok (map (fun x => (fst x, map Z.of_N (snd x))) l)).
  Proof.
    intros c root p l a N (q & D & NE & ->) R. destruct D as [|[x ds] b l q Hb Hq]; [congruence|]. destruct Hq as [|[x' ds'] b' l q Hb' Hq].
    - destruct Hb as (la & D & ->). cbn [fst snd] in D. eapply ev_impl; [|apply (decl_reads c root p R_DECLARATORS x ds la N D (R x (or_introl eq_refl)))]. intros n Q. cbv beta in Q.
      rewrite !optimize_one, with_orig_twice, optimize_decl. unfold identifier_list. assert (X : rule_eqb (a_tag (opt_decl R_DECLARATORS x la)) (a_orig (opt_decl R_DECLARATORS x la)) = false) by (destruct la; reflexivity).
      cbn [fst]. rewrite X, Q. reflexivity.
    - pose proof (Forall2_cons _ _ Hb (Forall2_cons _ _ Hb' Hq)) as D. eapply ev_impl; [|apply (decls_read c root p _ _ N D R)]. intros n Q. cbv beta in Q. exact Q.
  Qed.
  Lemma names_orig : forall l a, names_tree l a -> a_orig (optimize a) = R_DECLARATORS.
  Proof.
    intros l a (q & D & NE & ->). destruct D as [|x b l q Hb Hq]; [congruence|]. destruct Hq as [|x' b' l q Hb' Hq]; [|reflexivity]. rewrite optimize_one. apply with_orig_sub.
  Qed.
  Lemma dims_less : forall s l, names_say K s l -> Forall (fun x => Forall (fun d => d < 2 ^ 32)%N (snd x)) l.
  Proof.
    assert (D : forall top s ds, dims_say K top s ds -> Forall (fun d => d < top)%N ds) by (intros top s ds H; induction H; constructor; [eapply size_less; eassumption|assumption]).
    intros s l H. induction H; constructor; cbn [snd]; try assumption; try constructor; eapply D; eassumption.
  Qed.

  (** *** Members *)
  Definition a_member (ms : list (string * ty)) (a : ast) : Prop := a_orig (optimize a) = R_MEMBER /\ forall c root p acc, usual c -> known_at root p ->
    (forall x, In x (map fst ms) -> eventually (fun n => resolve_identifier n c root p x false = Ok x)) -> NoDup (map fst (acc ++ ms)) ->
    eventually (fun n => member_def n c root p (a_sub (optimize a)) None acc = Ok (acc ++ ms)%list).
  Lemma plain_first : forall x s, plain x = true -> first_is id_char s = false -> ends " " (x ++ s).
  Proof. intros x s P F. constructor; [apply follows_name, plain_ident, P|]. right. eauto. Qed.
  Lemma names_first : forall s l r, names_say K s l -> Forall (fun x => plain (fst x) = true) l -> first_is id_char r = false -> ends " " (s ++ r).
  Proof.
    intros s l r H P F. destruct H as [x d ds H|x d ds w s l H G Hn]; inversion P as [|? ? Px _]; subst; cbn [fst] in Px; rewrite !app_assoc_s; apply plain_first; try exact Px; destruct H; cbn; auto.
  Qed.
  Lemma ok_member_says : forall s t d l w r, type_says T K s t -> names_say K d l -> Forall (fun x => plain (fst x) = true) l -> gap w -> solid r ->
    exists a, ok (Ref R_MEMBER) (s ++ " " ++ d ++ ";" ++ w ++ r) [a] [] r /\ a_member (declared_as t l) a.
  Proof.
    intros s t d l w r Hs Hd P W S. assert (I : Forall (fun x => is_ident (fst x) = true) l) by (eapply Forall_impl; [|exact P]; intros x; apply plain_ident).
    destruct (spec_says T K s t (ok_says T K s t Hs) (fun q => says_solid T K s t q Hs) " " (d ++ ";" ++ w ++ r) (names_first d l (";" ++ w ++ r) Hd P eq_refl)) as (a & O & M & G).
    destruct (ok_declarators_say d l (";" ++ w ++ r) Hd I) as (b & Ob & B); [constructor; reflexivity|reflexivity|].
    assert (NA : first_is (Ascii.eqb "@") (s ++ " " ++ d ++ ";" ++ w ++ r) = false) by (destruct (says_first T K s t Hs) as (ch & q & -> & If); cbn [append first_is]; apply text_first_at, If).
    eexists. split; [|split].
    - eapply ok_ref_node; [|reflexivity|reflexivity]. cbn [gram]. refine (ok_seq _ _ _ [] [] _ _ [] _ (ok_star_end _ _ (no_annotation _ NA)) _).
      refine (ok_seq _ _ _ [a] [] _ _ [] _ O _). refine (ok_seq _ _ _ [b] [] _ [] [] _ Ob (ok_close_gap R_SEMICOLON ";" w r _ _ W S)); [kw|reflexivity].
    - reflexivity.
    - intros c root p acc U N R D. rewrite declared_names in R. eapply ev_impl; [|apply (ev_and _ _ (M c root p U N) (names_read c root p l b N B R))]. intros n [Q1 Q2]. cbv beta in *.
      cbn [app]. unfold optimize at 1. fold optimize. cbn [map a_sub]. rewrite (member_def_type _ _ _ _ _ _ _ _ G), Q1. cbn [bind]. rewrite (member_def_names _ _ _ _ _ _ _ _ (names_orig _ _ B)), Q2. cbn [bind].
      rewrite (add_declared_all t l acc (dims_less _ _ Hd) D). reflexivity.
  Qed.
  Lemma member_skip : forall n c root p l r t ms, Forall note_node l -> member_def n c root p (map optimize l ++ r)%list t ms = member_def n c root p r t ms.
  Proof. intros n c root p l r t ms H. induction H as [|a l (t' & k & l' & E & _) Hl IH]; [reflexivity|]. cbn [map app]. rewrite E. cbn [member_def a_orig]. exact IH. Qed.
  Lemma ok_member_noted : forall b text ms a r, notes b -> solid text -> first_is (Ascii.eqb "@") text = false -> first_is (Ascii.eqb "(") text = false ->
    ok (Ref R_MEMBER) text [a] [] r -> a_member ms a -> exists a', ok (Ref R_MEMBER) (b ++ text) [a'] [] r /\ a_member ms a'.
  Proof.
    intros b text ms a r H So F1 F2 O [_ M]. apply ok_ref_inv in O as (l & u & O & E & _); [|reflexivity|reflexivity]. injection E as ->. cbn [gram] in O.
    apply ok_seq_inv in O as (n1 & t1 & m & n2 & t2 & O1 & O & -> & ->). destruct (ok_fun _ _ _ _ _ _ _ _ O1 (ok_star_end _ _ (no_annotation _ F1))) as (-> & -> & ->).
    assert (Two : exists x y q, n2 = x :: y :: q).
    { apply ok_seq_inv in O as (n3 & t3 & m3 & n4 & t4 & O3 & O & -> & ->). destruct (ok_ref_any _ _ _ _ _ O3 eq_refl) as (x & -> & _). apply ok_seq_inv in O as (n5 & t5 & m5 & n6 & t6 & O5 & O & -> & ->). destruct (ok_ref_any _ _ _ _ _ O5 eq_refl) as (y & -> & _). cbn [app]. eauto. }
    destruct Two as (x & y & q & ->). destruct (ok_notes b H text So F1 F2) as (ln & wn & Wn & On & Fn).
    assert (Z : optimize (Ast R_MEMBER R_MEMBER "" (ln ++ x :: y :: q)) = Ast R_MEMBER R_MEMBER "" (map optimize ln ++ map optimize (x :: y :: q))).
    { rewrite <- map_app. destruct ln as [|z ln]; [reflexivity|]. destruct ln as [|z' ln]; reflexivity. }
    exists (Ast R_MEMBER R_MEMBER "" (ln ++ x :: y :: q)%list). split; [|split].
    - eapply ok_ref_node; [|reflexivity|reflexivity]. cbn [gram]. eapply ok_seq; [exact On|]. apply (slides_seq _ _ slides_type wn text Wn So), O.
    - rewrite Z. reflexivity.
    - intros c root p acc U N R D. eapply ev_impl; [|apply (M c root p acc U N R D)]. intros n Q. cbv beta in Q. rewrite Z. cbn [a_sub]. rewrite member_skip by exact Fn. exact Q.
  Qed.
  Lemma members_solid : forall body ms s, members_say T K body ms -> solid s -> solid (body ++ s).
  Proof. intros body ms s H S. destruct H as [|s' t d l w r ms Hs Hd Hw Hr|a s' t d l w r ms Ha Hs Hd Hw Hr]; [exact S| |]; rewrite !app_assoc_s; [|apply notes_solid; [exact Ha|]]; eapply says_solid, Hs. Qed.
  Inductive members_tree : list (string * ty) -> list ast -> Prop :=
  | mt_nil : members_tree [] []
  | mt_more : forall ms a ms' l, a_member ms a -> members_tree ms' l -> members_tree (ms ++ ms') (a :: l).
  Lemma ok_members_say : forall body ms, members_say T K body ms -> Forall (fun m => plain (fst m) = true) ms -> forall s, exists l, ok (Star (Ref R_MEMBER)) (body ++ "}" ++ s) l [] ("}" ++ s) /\ members_tree ms l.
  Proof.
    intros body ms H. induction H as [|s' t d l w r ms Hs Hd Hw Hr IH|b s' t d l w r ms Hb Hs Hd Hw Hr IH]; intros P s.
    - exists []. split; [apply ok_star_end; no_by_text|constructor].
    - apply Forall_app in P as [P1 P2]. destruct (IH P2 s) as (q & O & M). destruct (ok_member_says s' t d l w (r ++ "}" ++ s) Hs Hd) as (a & Oa & Ma).
      + apply Forall_forall. intros x I. rewrite Forall_forall in P1. specialize (P1 (fst x, array_of t (snd x))). cbn [fst] in P1. apply P1. apply in_map_iff. eauto.
      + exact Hw.
      + eapply members_solid; [exact Hr|reflexivity].
      + exists (a :: q). split; [|constructor; assumption]. rewrite !app_assoc_s. exact (ok_star_more _ _ [a] [] _ q [] _ Oa O).
    - apply Forall_app in P as [P1 P2]. destruct (IH P2 s) as (q & O & M). destruct (ok_member_says s' t d l w (r ++ "}" ++ s) Hs Hd) as (a0 & Oa0 & Ma0).
      + apply Forall_forall. intros x I. rewrite Forall_forall in P1. specialize (P1 (fst x, array_of t (snd x))). cbn [fst] in P1. apply P1. apply in_map_iff. eauto.
      + exact Hw.
      + eapply members_solid; [exact Hr|reflexivity].
      + assert (F : forall k, In k ["@"; "("]%char -> first_is (Ascii.eqb k) (s' ++ " " ++ d ++ ";" ++ w ++ r ++ "}" ++ s) = false).
        { intros k Ik. destruct (says_first T K s' t Hs) as (ch & u & -> & If). cbn [append first_is]. pose proof (all_ascii (fun c => implb (text_first c) (negb (Ascii.eqb "@" c) && negb (Ascii.eqb "(" c))) eq_refl ch) as X. cbv beta in X. rewrite If in X.
          apply andb_true_iff in X as [X1 X2]. apply negb_true_iff in X1, X2. destruct Ik as [<-|[<-|[]]]; assumption. }
        destruct (ok_member_noted b _ _ a0 _ Hb (says_solid T K s' t _ Hs) (F _ (or_introl eq_refl)) (F _ (or_intror (or_introl eq_refl))) Oa0 Ma0) as (a & Oa & Ma).
        exists (a :: q). split; [|constructor; assumption]. rewrite !app_assoc_s. exact (ok_star_more _ _ [a] [] _ q [] _ Oa O).
  Qed.
  Lemma members_read : forall c p root nm b ms l, usual c -> known_at root p -> members_tree ms l -> forall acc,
    (forall x, In x (map fst ms) -> eventually (fun n => resolve_identifier n c root p x false = Ok x)) -> NoDup (map fst (acc ++ ms)) ->
    eventually (fun n => struct_parts n c p (map optimize l) (SA root nm b acc) = Ok (SA root nm b (acc ++ ms)%list)).
  Proof.
    intros c p root nm b ms l U N H. induction H as [|ms a ms' l [Oa Ma] Hl IH]; intros acc R D; [exists O; intros n _; rewrite app_nil_r; reflexivity|].
    rewrite app_assoc in D. assert (D1 : NoDup (map fst (acc ++ ms))) by (rewrite map_app in D; clear - D; revert D; generalize (map fst (acc ++ ms)); intros k; induction k as [|y k IHk]; intros D; [constructor|]; cbn [app] in D; inversion D as [|? ? H1 H2]; subst; constructor; [intros X; apply H1, in_or_app; auto|auto]).
    eapply ev_impl; [|apply (ev_and _ _ (Ma c root p acc U N (fun x I => R x ltac:(rewrite map_app; apply in_or_app; left; exact I)) D1) (IH (acc ++ ms)%list (fun x I => R x ltac:(rewrite map_app; apply in_or_app; right; exact I)) D))].
    intros n [Q1 Q2]. cbv beta in *. cbn [map]. rewrite (parts_member _ _ _ _ _ _ Oa). cbn [sa_root sa_ms sa_name sa_parent]. rewrite Q1. cbn [bind]. rewrite Q2, <- app_assoc. reflexivity.
  Qed.
  (** *** The struct *)
  Lemma ok_inherit_says : forall parent s, good_parent parent -> ok (Opt (Ref R_INHERITANCE)) (inherit_text parent ++ " { " ++ s) (parent_nodes parent) [] (" { " ++ s).
  Proof.
    intros [b|] s G; cbn [good_parent inherit_text parent_nodes] in *; rewrite ?app_assoc_s.
    - destruct G as (abs & qs & y & -> & G). apply ok_opt_some. eapply ok_ref_node; [|reflexivity|reflexivity]. cbn [gram].
      refine (ok_seq _ _ _ [] [] _ _ [] _ (ok_punct R_COLON ":" " " " " _ _ _ _ _ _) _); [kw|reflexivity|reflexivity|reflexivity|apply path_solid, G|].
      apply ok_absolute; [exact G|reflexivity|reflexivity].
    - apply ok_opt_none. apply no_ref. cbn [gram]. apply no_seq_l. change (" { " ++ s) with (" " ++ ("{ " ++ s)). apply (no_punct R_COLON ":" " "); [kw|reflexivity|reflexivity|reflexivity].
  Qed.
  Lemma ok_struct_says : forall x parent body ms w s, is_ident x = true -> good_parent parent -> body_says T K body ms -> Forall (fun m => plain (fst m) = true) ms -> gap w -> solid s ->
    exists l, ok (Ref R_DEFINITION) (struct_text x parent body ++ ";" ++ w ++ s) [struct_definition x parent l] [] s /\ members_tree ms l.
  Proof.
    intros x parent body0 ms w s I P H0 F W S. destruct H0 as [lead body ms GL H]. destruct (ok_members_say body ms H F (";" ++ w ++ s)) as (l & O & M). exists l. split; [|exact M]. unfold struct_text.
    change (match parent with Some b => " : " ++ b | None => "" end) with (inherit_text parent). rewrite !app_assoc_s.
    assert (OS : ok (Ref R_STRUCT_DEF) ("struct " ++ x ++ inherit_text parent ++ " { " ++ lead ++ body ++ "}" ++ ";" ++ w ++ s) [struct_node x parent l] [] (";" ++ w ++ s)).
    { eapply ok_ref_node; [|reflexivity|reflexivity]. cbn [gram].
      refine (ok_seq _ _ _ [] [] _ _ [] _ (ok_keyword R_KW_STRUCT "struct" "" " " _ _ eq_refl eq_refl _ _) _); [kw|apply ident_solid, I|reflexivity|].
      refine (ok_seq _ _ _ [_] [] _ _ [] _ (ok_ident x _ I _) _); [destruct parent; reflexivity|].
      refine (ok_seq _ _ _ _ [] _ _ [] _ (ok_inherit_says parent _ P) _).
      refine (ok_seq _ _ _ [] [] _ _ [] _ (ok_punct_gap R_OPEN_BRACE "{" " " (" " ++ lead) _ _ _ _ _ _) _); [kw|reflexivity|reflexivity|apply gap_led, GL|eapply members_solid; [exact H|reflexivity]|]. rewrite <- (app_nil_r l).
      refine (ok_seq _ _ _ l [] _ [] [] _ O (ok_close R_CLOSE_BRACE "}" "" (";" ++ w ++ s) _ _ eq_refl _)); [kw|reflexivity|reflexivity]. }
    eapply ok_ref_node; [|reflexivity|reflexivity]. cbn [gram]. apply ok_alt_l.
    refine (ok_seq _ _ _ [_] [] _ [] [] _ _ (ok_close_gap R_SEMICOLON ";" w s ltac:(kw) eq_refl W S)).
    apply ok_alt_r; [no_by_text|]. apply ok_alt_r; [no_by_text|]. apply ok_alt_l.
    eapply ok_ref_node; [|reflexivity|reflexivity]. cbn [gram]. apply ok_alt_l. eapply ok_ref_node; [|reflexivity|reflexivity]. cbn [gram].
    refine (ok_seq _ _ _ [] [] _ [_] [] _ (ok_star_end _ _ _) _); [no_by_text|]. apply ok_alt_l.
    eapply ok_ref_node; [|reflexivity|reflexivity]. cbn [gram]. apply ok_alt_l. exact OS.
  Qed.
End Members.
