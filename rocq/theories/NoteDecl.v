(** Annotations in front of declarations. *)
From Verif Require Import Base Types Mem ModuleSpec Module Peg0 Grammar Peg PegFacts PegRules IdlParse IdlParseFacts TypeText StructText IdlLitFacts StructRead DocFacts IntOps NoteSpec NoteText.
Local Open Scope string_scope.

(** *** How a match came about *)
Lemma ok_seq_inv : forall a b s ns ts r, ok (Seq a b) s ns ts r -> exists n1 t1 m n2 t2, ok a s n1 t1 m /\ ok b m n2 t2 r /\ ns = (n1 ++ n2)%list /\ ts = (t1 ++ t2)%list.
Proof.
  intros a b s ns ts r (n & c & O). destruct n as [|n]; [discriminate O|]. rewrite peg_eq in O. destruct (peg n a s) as [[|c1 n1 t1 m]|] eqn:E1; try discriminate O.
  destruct (peg n b m) as [[|c2 n2 t2 m2]|] eqn:E2; try discriminate O. injection O as _ <- <- <-. exists n1, t1, m, n2, t2. split; [exists n, c1; exact E1|]. split; [exists n, c2; exact E2|]. auto.
Qed.
Lemma ok_no : forall e s ns ts r, ok e s ns ts r -> no e s -> False.
Proof. intros e s ns ts r (n & c & H) (m & H'). pose proof (peg_fun _ _ _ _ _ _ H H') as X. discriminate X. Qed.
Lemma ok_fun : forall e s ns ts r ns' ts' r', ok e s ns ts r -> ok e s ns' ts' r' -> ns = ns' /\ ts = ts' /\ r = r'.
Proof. intros e s ns ts r ns' ts' r' (n & c & H) (m & c' & H'). pose proof (peg_fun _ _ _ _ _ _ H H') as X. injection X as _ -> -> ->. auto. Qed.
Lemma ok_alt_inv : forall a b s ns ts r, ok (Alt a b) s ns ts r -> ok a s ns ts r \/ (no a s /\ ok b s ns ts r).
Proof.
  intros a b s ns ts r (n & c & O). destruct n as [|n]; [discriminate O|]. rewrite peg_eq in O. destruct (peg n a s) as [[|c1 n1 t1 m]|] eqn:E1; try discriminate O.
  - right. split; [exists n; exact E1|exists n, c; exact O].
  - left. exists n, c1. rewrite E1. injection O as -> -> -> ->. reflexivity.
Qed.
Lemma ok_ref_inv : forall q s ns ts r, ok (Ref q) s ns ts r -> ignored q = false -> is_token_rule q = false -> exists l u, ok (gram q) s l u r /\ ns = [Ast q q "" l] /\ ts = [].
Proof.
  intros q s ns ts r (n & c & O) I T. destruct n as [|n]; [discriminate O|]. rewrite peg_eq in O. destruct (peg n (gram q) s) as [[|c1 n1 t1 m]|] eqn:E1; try discriminate O.
  injection O as _ <- <- <-. unfold node_of. rewrite I, T. exists n1, t1. split; [exists n, c1; exact E1|auto].
Qed.
Lemma ok_ref_any : forall q s ns ts r, ok (Ref q) s ns ts r -> ignored q = false -> exists a, ns = [a] /\ ts = [].
Proof.
  intros q s ns ts r (n & c & O) I. destruct n as [|n]; [discriminate O|]. rewrite peg_eq in O. destruct (peg n (gram q) s) as [[|c1 n1 t1 m]|] eqn:E1; try discriminate O.
  injection O as _ <- <- _. unfold node_of. rewrite I. destruct (is_token_rule q); [|eauto]. destruct t1; eauto.
Qed.
Lemma ok_ref_silent : forall q s ns ts r, ok (Ref q) s ns ts r -> ignored q = true -> ns = [] /\ ts = [].
Proof.
  intros q s ns ts r (n & c & O) I. destruct n as [|n]; [discriminate O|]. rewrite peg_eq in O. destruct (peg n (gram q) s) as [[|c1 n1 t1 m]|] eqn:E1; try discriminate O.
  injection O as _ <- <- _. unfold node_of. rewrite I. auto.
Qed.

(** *** Blanks in front change nothing *)
Definition slides (e : exp rule) : Prop := forall w s, all_chars is_ws w = true -> solid s ->
  (forall ns ts r, ok e s ns ts r -> ok e (w ++ s) ns ts r) /\ (no e s -> no e (w ++ s)).
Lemma no_seq_inv : forall a b s, no (Seq a b) s -> no a s \/ exists ns ts r, ok a s ns ts r /\ no b r.
Proof.
  intros a b s (n & O). destruct n as [|n]; [discriminate O|]. rewrite peg_eq in O. destruct (peg n a s) as [[|c1 n1 t1 m]|] eqn:E1; try discriminate O.
  - left. exists n. exact E1.
  - destruct (peg n b m) as [[|c2 n2 t2 m2]|] eqn:E2; try discriminate O. right. exists n1, t1, m. split; [exists n, c1; exact E1|exists n; exact E2].
Qed.
Lemma slides_ws : forall e, slides (Seq (Opt (Ref R_WS)) e).
Proof.
  intros e w s W S. split.
  - intros ns ts r O. apply ok_seq_inv in O as (n1 & t1 & m & n2 & t2 & O1 & O2 & -> & ->). destruct (ok_fun _ _ _ _ _ _ _ _ O1 (opt_ws0 s S)) as (-> & -> & ->). exact (ok_seq _ _ _ [] [] _ _ _ _ (opt_ws w s W S) O2).
  - intros N. apply no_seq_inv in N as [N|(ns & ts & r & O1 & N)]; [destruct (ok_no _ _ _ _ _ (opt_ws0 s S) N)|]. destruct (ok_fun _ _ _ _ _ _ _ _ O1 (opt_ws0 s S)) as (-> & -> & ->). eapply no_seq_r; [apply (opt_ws w s W S)|exact N].
Qed.
Lemma slides_seq : forall a b, slides a -> slides (Seq a b).
Proof.
  intros a b A w s W S. destruct (A w s W S) as [A1 A2]. split.
  - intros ns ts r O. apply ok_seq_inv in O as (n1 & t1 & m & n2 & t2 & O1 & O2 & -> & ->). eapply ok_seq; [apply A1, O1|exact O2].
  - intros N. apply no_seq_inv in N as [N|(ns & ts & r & O1 & N)]; [apply no_seq_l, A2, N|]. eapply no_seq_r; [apply A1, O1|exact N].
Qed.
Lemma no_alt_inv : forall a b s, no (Alt a b) s -> no a s /\ no b s.
Proof.
  intros a b s (n & O). destruct n as [|n]; [discriminate O|]. rewrite peg_eq in O. destruct (peg n a s) as [[|c1 n1 t1 m]|] eqn:E1; try discriminate O. split; [exists n; exact E1|exists n; exact O].
Qed.
Lemma slides_alt : forall a b, slides a -> slides b -> slides (Alt a b).
Proof.
  intros a b A B w s W S. destruct (A w s W S) as [A1 A2]. destruct (B w s W S) as [B1 B2]. split.
  - intros ns ts r O. apply ok_alt_inv in O as [O|[N O]]; [apply ok_alt_l, A1, O|apply ok_alt_r; [apply A2, N|apply B1, O]].
  - intros N. apply no_alt_inv in N as [N1 N2]. apply no_alt; auto.
Qed.
Lemma no_ref_inv : forall q s, no (Ref q) s -> no (gram q) s.
Proof. intros q s (n & O). destruct n as [|n]; [discriminate O|]. rewrite peg_eq in O. destruct (peg n (gram q) s) as [[|c1 n1 t1 m]|] eqn:E1; try discriminate O. exists n. exact E1. Qed.
Lemma slides_ref : forall q, slides (gram q) -> is_token_rule q = false \/ ignored q = true \/ (forall s ns ts r, ok (gram q) s ns ts r -> ts <> []) -> slides (Ref q).
Proof.
  intros q G K w s W So. destruct (G w s W So) as [G1 G2]. split; [|intros N; apply no_ref, G2, no_ref_inv, N].
  intros ns ts r O. destruct O as (n & c & O). destruct n as [|n]; [discriminate O|]. rewrite peg_eq in O. destruct (peg n (gram q) s) as [[|c1 n1 t1 m]|] eqn:E1; try discriminate O.
  injection O as _ <- <- <-. destruct (G1 n1 t1 m (ex_intro _ n (ex_intro _ c1 E1))) as (n' & c' & E'). unfold node_of. exists (S n'), c'. rewrite peg_eq, E'. unfold node_of.
  destruct (ignored q) eqn:I; [reflexivity|]. destruct (is_token_rule q) eqn:T; [|reflexivity]. destruct K as [K|[K|K]]; [discriminate K|discriminate K|]. destruct t1 as [|t t1]; [|reflexivity].
  destruct (K s n1 [] m (ex_intro _ n (ex_intro _ c1 E1)) eq_refl).
Qed.
Ltac slide := repeat first [apply slides_ws|apply slides_ref; [cbn [gram]|first [left; reflexivity|right; left; reflexivity|right; right]]|apply slides_alt|apply slides_seq].
Lemma token_last : forall a e s ns ts r, ok (Seq a (Tok e)) s ns ts r -> ts <> [].
Proof.
  intros a e s ns ts r O. apply ok_seq_inv in O as (n1 & t1 & m & n2 & t2 & _ & O2 & _ & ->). destruct O2 as (n & c & O). destruct n as [|n]; [discriminate O|]. rewrite peg_eq in O.
  destruct (peg n e m) as [[|c1 n1' t1' m']|]; try discriminate O. injection O as _ _ <- _. destruct t1; discriminate.
Qed.
Definition constructed : exp rule := Alt (Ref R_STRUCT_DCL) (Alt (Ref R_UNION_DCL) (Alt (Ref R_ENUM_DCL) (Alt (Ref R_BITSET_DCL) (Ref R_BITMASK_DCL)))).
Lemma slides_constructed : slides constructed.
Proof. unfold constructed. slide; intros s ns ts r O; eapply token_last, O. Qed.
Lemma slides_module : slides (Ref R_KW_MODULE).
Proof. slide. Qed.
Lemma slides_type : slides (Ref R_TYPE_SPEC).
Proof. slide. Qed.

(** *** Declarations *)
Section Values.
  Variable fc : prim -> prim -> list N -> list N.
  Variable flt : arith -> prim -> list N -> list N -> list N.
  Variable flit : prim -> string -> res (list N).
  Notation build := (build fc flt flit).
  Lemma build_note : forall n c p a root, note_node a -> build n c p (optimize a) root = Ok root.
  Proof. intros n c p a root (t & k & l & -> & [->|[-> ->]]); reflexivity. Qed.
  Lemma build_notes : forall n c p l r root, Forall note_node l -> build_all fc flt flit n c p (map optimize l ++ r)%list root = build_all fc flt flit n c p r root.
  Proof. intros n c p l r root H. induction H as [|a l Ha Hl IH]; [reflexivity|]. cbn [map app build_all]. rewrite (build_note _ _ _ _ _ Ha). cbn [bind]. exact IH. Qed.
  Lemma build_constr : forall n c p o k l root, build n c p (Ast o R_CONSTR_TYPE_DLC k l) root = build_all fc flt flit n c p l root.
  Proof. intros n c p o k l root. cbn [IdlParse.build]. revert root. induction l as [|a l IH]; intros root; [reflexivity|]. cbn [build_all]. destruct (build n c p a root) as [r|e]; [|reflexivity]. cbn [bind]. apply IH. Qed.
  Lemma constructed_one : forall s ns ts r, ok constructed s ns ts r -> exists a, ns = [a] /\ ts = [].
  Proof. intros s ns ts r O. unfold constructed in O. repeat (apply ok_alt_inv in O as [O|[_ O]]; [eapply ok_ref_any; [exact O|reflexivity]|]). eapply ok_ref_any; [exact O|reflexivity]. Qed.
  Lemma noted_constructed : forall c p a core root root' w s d, notes a -> solid (core ++ ";" ++ w ++ s) -> first_is (Ascii.eqb "@") (core ++ ";" ++ w ++ s) = false -> first_is (Ascii.eqb "(") (core ++ ";" ++ w ++ s) = false ->
    no (Ref R_MODULE_DCL) (core ++ ";" ++ w ++ s) -> no (Ref R_KW_MODULE) (core ++ ";" ++ w ++ s) -> no (Ref R_CONST_DCL) (core ++ ";" ++ w ++ s) -> no (Ref R_NATIVE_DCL) (core ++ ";" ++ w ++ s) -> no (Ref R_TYPEDEF_DLC) (core ++ ";" ++ w ++ s) ->
    no (Ref R_ANNOTATION_DCL) (core ++ ";" ++ w ++ s) -> no (Ref R_PREPROCESSOR_DIRECTIVE) (core ++ ";" ++ w ++ s) ->
    ok (Ref R_DEFINITION) (core ++ ";" ++ w ++ s) [d] [] s -> eventually (fun n => build n c p (optimize d) root = Ok root') ->
    exists d', ok (Ref R_DEFINITION) (a ++ core ++ ";" ++ w ++ s) [d'] [] s /\ eventually (fun n => build n c p (optimize d') root = Ok root').
  Proof.
    intros c p a core root root' w s d H S F1 F2 N1 N1' N2 N3 N4 N5 N6 O B. revert S F1 F2 N1 N1' N2 N3 N4 N5 N6 O. generalize (core ++ ";" ++ w ++ s). intros text S F1 F2 N1 N1' N2 N3 N4 N5 N6 O.
    apply ok_ref_inv in O as (l & u & O & E & _); [|reflexivity|reflexivity]. injection E as ->. cbn [gram] in O. apply ok_alt_inv in O as [O|[_ O]]; [|destruct (ok_no _ _ _ _ _ O N6)].
    apply ok_seq_inv in O as (n1 & t1 & m & n2 & t2 & O & Os & -> & ->). destruct (ok_ref_silent _ _ _ _ _ Os eq_refl) as [-> ->].
    apply ok_alt_inv in O as [O|[_ O]]; [destruct (ok_no _ _ _ _ _ O N1)|]. apply ok_alt_inv in O as [O|[_ O]]; [destruct (ok_no _ _ _ _ _ O N2)|]. apply ok_alt_inv in O as [O|[_ O]]; [|destruct (ok_no _ _ _ _ _ O N5)].
    apply ok_ref_inv in O as (l & u & O & -> & ->); [|reflexivity|reflexivity]. cbn [gram] in O. apply ok_alt_inv in O as [O|[_ O]]; [|apply ok_alt_inv in O as [O|[_ O]]; [destruct (ok_no _ _ _ _ _ O N3)|destruct (ok_no _ _ _ _ _ O N4)]].
    apply ok_ref_inv in O as (l2 & u2 & O & -> & ->); [|reflexivity|reflexivity]. cbn [gram] in O. apply ok_seq_inv in O as (n3 & t3 & m2 & n4 & t4 & O1 & O2 & -> & ->).
    destruct (ok_fun _ _ _ _ _ _ _ _ O1 (ok_star_end _ _ (no_annotation _ F1))) as (-> & -> & ->). fold constructed in O2. destruct (constructed_one _ _ _ _ O2) as (x & -> & ->).
    destruct (ok_notes a H text S F1 F2) as (ln & wn & Wn & On & Fn). exists (Ast R_DEFINITION R_DEFINITION "" [Ast R_TYPE_DCL R_TYPE_DCL "" [Ast R_CONSTR_TYPE_DLC R_CONSTR_TYPE_DLC "" (ln ++ [x])%list]]). split.
    - assert (NA : a = "" \/ exists a', a = "@" ++ a') by (destruct H; [left; reflexivity|right; eexists; reflexivity|right; eexists; reflexivity]).
      eapply ok_ref_node; [|reflexivity|reflexivity]. cbn [gram]. apply ok_alt_l.
      refine (ok_seq _ _ _ [_] [] m [] [] _ _ Os).
      apply ok_alt_r.
      { apply no_ref. cbn [gram]. eapply no_seq_r; [exact On|]. apply no_seq_l. apply (slides_module wn text Wn S), N1'. }
      apply ok_alt_r.
      { destruct NA as [->|(a' & ->)]; [exact N2|no_by_text]. }
      apply ok_alt_l. eapply ok_ref_node; [|reflexivity|reflexivity]. cbn [gram]. apply ok_alt_l. eapply ok_ref_node; [|reflexivity|reflexivity]. cbn [gram]. fold constructed.
      refine (ok_seq _ _ _ ln [] _ [x] [] _ On _). apply (slides_constructed wn text Wn S), O2.
    - eapply ev_impl; [|exact B]. intros n Q. cbv beta in Q. cbn [app] in Q. rewrite !optimize_one, !build_orig in Q. rewrite !optimize_one, !build_orig.
      destruct ln as [|y ln]; [cbn [app]; rewrite optimize_one, build_orig; exact Q|].
      assert (Z : optimize (Ast R_CONSTR_TYPE_DLC R_CONSTR_TYPE_DLC "" ((y :: ln) ++ [x])) = Ast R_CONSTR_TYPE_DLC R_CONSTR_TYPE_DLC "" (map optimize (y :: ln) ++ [optimize x])).
      { cbn [app]. destruct (ln ++ [x])%list as [|z r] eqn:Ez; [destruct ln; discriminate Ez|]. unfold optimize at 1. fold optimize. rewrite <- Ez, map_cons, map_app. reflexivity. }
      rewrite Z, build_constr, build_notes by exact Fn. cbn [build_all]. rewrite Q. reflexivity.
  Qed.
  Lemma build_module_note : forall n c p o k a l root, note_node a -> build n c p (Ast o R_MODULE_DCL k (optimize a :: l)) root = build n c p (Ast o R_MODULE_DCL k l) root.
  Proof. intros n c p o k a l root (t & k' & l' & -> & [->|[-> ->]]); reflexivity. Qed.
  Lemma build_module_notes : forall n c p o k ln l root, Forall note_node ln -> build n c p (Ast o R_MODULE_DCL k (map optimize ln ++ l)) root = build n c p (Ast o R_MODULE_DCL k l) root.
  Proof. intros n c p o k ln l root H. induction H as [|a ln Ha Hl IH]; [reflexivity|]. cbn [map app]. rewrite build_module_note by exact Ha. exact IH. Qed.
  Lemma ok_plus_inv : forall e s ns ts r, ok (Plus e) s ns ts r -> ok (Seq e (Star e)) s ns ts r.
  Proof. intros e s ns ts r (n & k & O). destruct n as [|n]; [discriminate O|]. rewrite peg_eq in O. exists n, k. exact O. Qed.
  Lemma module_nodes : forall s ns ts r, ok (Seq (Ref R_KW_MODULE) (Seq (Ref R_IDENTIFIER) (Seq (Ref R_OPEN_BRACE) (Seq (Plus (Ref R_DEFINITION)) (Ref R_CLOSE_BRACE))))) s ns ts r -> exists x y l, ns = x :: y :: l.
  Proof.
    intros s ns ts r O. apply ok_seq_inv in O as (a1 & b1 & c1 & d1 & e1 & O1 & O & -> & _). destruct (ok_ref_silent _ _ _ _ _ O1 eq_refl) as [-> _]. apply ok_seq_inv in O as (a2 & b2 & c2 & d2 & e2 & O2 & O & -> & _). destruct (ok_ref_any _ _ _ _ _ O2 eq_refl) as (x & -> & _).
    apply ok_seq_inv in O as (a3 & b3 & c3 & d3 & e3 & O3 & O & -> & _). destruct (ok_ref_silent _ _ _ _ _ O3 eq_refl) as [-> _]. apply ok_seq_inv in O as (a4 & b4 & c4 & d4 & e4 & O4 & _ & -> & _). apply ok_plus_inv, ok_seq_inv in O4 as (a5 & b5 & c5 & d5 & e5 & O5 & _ & -> & _).
    destruct (ok_ref_any _ _ _ _ _ O5 eq_refl) as (y & -> & _). cbn [app]. eauto.
  Qed.
  Lemma module_kept : forall x y l, optimize (Ast R_MODULE_DCL R_MODULE_DCL "" (x :: y :: l)) = Ast R_MODULE_DCL R_MODULE_DCL "" (map optimize (x :: y :: l)).
  Proof. reflexivity. Qed.
  Lemma noted_module : forall c p a text root root' s d, notes a -> solid text -> first_is (Ascii.eqb "@") text = false -> first_is (Ascii.eqb "(") text = false ->
    no (Ref R_CONST_DCL) text -> no (Ref R_TYPE_DCL) text -> no (Ref R_ANNOTATION_DCL) text -> no (Ref R_PREPROCESSOR_DIRECTIVE) text ->
    ok (Ref R_DEFINITION) text [d] [] s -> eventually (fun n => build n c p (optimize d) root = Ok root') ->
    exists d', ok (Ref R_DEFINITION) (a ++ text) [d'] [] s /\ eventually (fun n => build n c p (optimize d') root = Ok root').
  Proof.
    intros c p a text root root' s d H S F1 F2 N2 N3 N5 N6 O B.
    apply ok_ref_inv in O as (l & u & O & E & _); [|reflexivity|reflexivity]. injection E as ->. cbn [gram] in O. apply ok_alt_inv in O as [O|[_ O]]; [|destruct (ok_no _ _ _ _ _ O N6)].
    apply ok_seq_inv in O as (n1 & t1 & m & n2 & t2 & O & Os & -> & ->). destruct (ok_ref_silent _ _ _ _ _ Os eq_refl) as [-> ->].
    apply ok_alt_inv in O as [O|[_ O]]; [|apply ok_alt_inv in O as [O|[_ O]]; [destruct (ok_no _ _ _ _ _ O N2)|]; apply ok_alt_inv in O as [O|[_ O]]; [destruct (ok_no _ _ _ _ _ O N3)|destruct (ok_no _ _ _ _ _ O N5)]].
    apply ok_ref_inv in O as (l2 & u2 & O & -> & ->); [|reflexivity|reflexivity]. cbn [gram] in O. apply ok_seq_inv in O as (n3 & t3 & m2 & n4 & t4 & O1 & O2 & -> & ->).
    destruct (ok_fun _ _ _ _ _ _ _ _ O1 (ok_star_end _ _ (no_annotation _ F1))) as (-> & -> & ->). destruct (module_nodes _ _ _ _ O2) as (x & y & l & ->).
    destruct (ok_notes a H text S F1 F2) as (ln & wn & Wn & On & Fn). exists (Ast R_DEFINITION R_DEFINITION "" [Ast R_MODULE_DCL R_MODULE_DCL "" (ln ++ x :: y :: l)%list]). split.
    - eapply ok_ref_node; [|reflexivity|reflexivity]. cbn [gram]. apply ok_alt_l. refine (ok_seq _ _ _ [_] [] m [] [] _ _ Os). apply ok_alt_l. eapply ok_ref_node; [|reflexivity|reflexivity]. cbn [gram].
      eapply ok_seq; [exact On|]. apply (slides_seq _ _ slides_module wn text Wn S), O2.
    - eapply ev_impl; [|exact B]. intros n Q. cbv beta in Q. cbn [app] in Q. rewrite optimize_one, build_orig, module_kept in Q. rewrite optimize_one, build_orig.
      assert (Z : optimize (Ast R_MODULE_DCL R_MODULE_DCL "" (ln ++ x :: y :: l)) = Ast R_MODULE_DCL R_MODULE_DCL "" (map optimize ln ++ map optimize (x :: y :: l))).
      { rewrite <- map_app. destruct ln as [|z ln]; [reflexivity|]. destruct ln as [|z' ln]; reflexivity. }
      rewrite Z, build_module_notes by exact Fn. exact Q.
  Qed.
  Theorem sentence_noted : forall c p a core root root', notes a -> annotatable core -> sentence fc flt flit c p core root root' -> sentence fc flt flit c p (a ++ core) root root'.
  Proof.
    intros c p a core root root' H (k & r & K & ->) [S R]. constructor.
    - intros s. rewrite app_assoc_s. apply notes_solid; [exact H|apply S].
    - intros w s W So. destruct (R w s W So) as (d & O & B). rewrite app_assoc_s.
      destruct K as [<-|[<-|[<-|[<-|[]]]]]; [| | |rewrite !app_assoc_s in *; eapply noted_module; try eassumption; (reflexivity || no_by_text)];
        (eapply noted_constructed; [exact H| | | | | | | | | | |exact O|exact B]; rewrite ?app_assoc_s; (reflexivity || no_by_text)).
  Qed.
End Values.
