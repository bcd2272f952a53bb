(** The texts of CaseSpec are matched by the grammar and read. *)
From Verif Require Import Base Types TypeBuild Mem Hash MapOps Ops NumSpec IntSpec NumFacts IntFacts IntOps ModuleSpec ModuleFacts Module Peg0 Grammar Peg PegFacts PegRules IdlParse IdlParseFacts GenIdl GenSpec TypeText StructText StructRead NumText IdlLitFacts IdlLit IdlExpr IdlSpec IdlFacts GrowFacts DocFacts GenStruct AliasText ExprSpec ExprText ConstText UnionSpec UnionText LitText UnionRead NoteSpec NoteText NoteDecl FreeSpec TokenFacts FreeText FreeStruct FreeDecl PropIdl CaseSpec.
From Verif Require Import GapSpec GapText.
Local Open Scope string_scope.

(** *** Labels *)
Lemma numeral_no_colon : forall base s z, numeral base s z -> no_colon s = true.
Proof.
  intros base s z H. assert (D : forall c d, is_digit_of c d -> Ascii.eqb c ":" = false).
  { intros c d Hd. destruct (Ascii.eqb_spec c ":") as [->|]; [|reflexivity]. exfalso. inversion Hd as [k R E|k R E|k R E] ; do 10 (destruct k as [|k]; [try discriminate E; lia|]); lia. }
  assert (A : forall c s, Ascii.eqb c ":" = false -> no_colon s = true -> no_colon (s ++ String c "") = true).
  { intros c s0 Hc. induction s0 as [|k s0 IH]; cbn [append no_colon]; [rewrite Hc; reflexivity|]. intros Q. apply andb_true_iff in Q as [Q1 Q2]. rewrite Q1. apply IH, Q2. }
  induction H as [c d Hd Hb|s z c d H IH Hd Hb].
  - cbn. rewrite (D _ _ Hd). reflexivity.
  - apply A; [eapply D, Hd|exact IH].
Qed.
Lemma literal_facts : forall L base z, literal L base z -> no_colon L = true /\ is_ident L = false /\ L <> "default".
Proof.
  intros L base z H. assert (X : no_colon L = true /\ is_ident L = false).
  { destruct H as [ | c s z H Hc | s z H | k s z H Hx ].
    - split; reflexivity.
    - split; [eapply numeral_no_colon, H|]. destruct (numeral_head _ _ _ H) as (c' & r & E & Hd & Hd2). injection E as <- <-. unfold is_ident. cbn [first_is].
      pose proof (all_ascii (fun c => implb (digit_val c <? 10)%Z (negb (id_first c))) eq_refl c) as K. cbv beta in K. rewrite (proj2 (Z.ltb_lt _ _) Hd) in K. apply negb_true_iff in K. rewrite K. reflexivity.
    - split; [cbn; apply (numeral_no_colon _ _ _ H)|reflexivity].
    - split; [cbn [no_colon]; rewrite (numeral_no_colon _ _ _ H); destruct Hx as [-> | ->]; reflexivity|reflexivity]. }
  destruct X as [X Y]. repeat split; [exact X|exact Y|]. intros ->. discriminate Y.
Qed.
Lemma spells_literal : forall L base z, literal L base z -> spells L.
Proof. intros L base z H. eapply spells_expr; [apply rd_lit|]. apply to_one. econstructor. exact H. Qed.
Lemma spells_negative : forall L base z, literal L base z -> spells ("-" ++ L).
Proof.
  intros L base z H. assert (D : rderives 0 (EUn UMinus (ELit L "")) [unary_token UMinus; KLit L ""]). { do 6 (apply rd_up; [lia|]). apply rd_un, rd_lit. }
  assert (T : text_of [unary_token UMinus; KLit L ""] ("-" ++ L)). { apply (to_more _ "-" "" _ L); [apply tt_op|reflexivity|]. apply to_one. econstructor. exact H. }
  split; [intros s; reflexivity|]. intros s FC.
  destruct (ok_expr 0 _ _ D ("-" ++ L) "" (":" ++ s) T (stops_case s FC)) as (a & w' & Hw & O & _). exists a. cbn [append] in O. destruct Hw as [-> | ->]; exact O.
Qed.
(** A label is read, and the parser finds its value, in a module [root1] that knows [x] as well. *)
Lemma to_i64_fits : forall z v, reduced PI64 z v -> (- 2 ^ 63 <= z < 2 ^ 63)%Z -> v = z.
Proof.
  intros z v H R. symmetry. apply (reduced_unique PI64 z z v); [|exact H]. apply reduced_fits. unfold fits. change (least PI64) with (- 2 ^ 63)%Z. change (greatest PI64) with (2 ^ 63 - 1)%Z. lia.
Qed.
Lemma fits_range : forall q z, int_kind q = true -> fits q z -> (- 2 ^ 63 <= z)%Z /\ (prim_signed q = true -> z < 2 ^ 63)%Z.
Proof. intros q z K F. destruct q; try discriminate K; unfold fits, least, greatest, width in F; cbn in F |- *; split; intros; try discriminate; lia. Qed.
Definition read_label (root1 : modl) (p : place) (disc : ty) (L : string) (z : Z) : Prop :=
  spells L /\ L <> "default" /\ eventually (fun n => exists v, label_subst n root1 p L = Ok v /\ v <> "default" /\ label_value disc v = Ok z).
Section Labels.
  Variables (root : modl) (p : place) (x : string) (root1 : modl) (disc : ty).
  Hypotheses (N : no_nulls root) (IO : idents_only root1 p) (E : exists_module root p = true) (G : grows root p x root1).
  Lemma reads_self : forall L z, spells L -> no_colon L = true -> has_symbol root1 p L = false -> L <> "default" -> label_value disc L = Ok z -> read_label root1 p disc L z.
  Proof.
    intros L z S NC NS ND LV. split; [exact S|]. split; [exact ND|]. assert (E1 : exists_module root1 p = true) by (rewrite (grows_exists _ _ _ _ p G); exact E).
    eapply ev_impl; [|apply (not_symbol_const root1 p L E1 NC NS)]. intros n H. exists L. unfold label_subst. cbv beta in H. rewrite H. auto.
  Qed.
  Lemma not_ident_symbol : forall L, is_ident L = false -> has_symbol root1 p L = false.
  Proof. intros L NI. destruct (has_symbol root1 p L) eqn:H; [apply IO in H; congruence|reflexivity]. Qed.
  Lemma label_says_read : forall L z, label_says root p x disc L z -> read_label root1 p disc L z.
  Proof.
    intros L z H. destruct H as [q L base z D K Li F R|q L z D K Li F|q qs y b D K I B1 B2 ND S F R|D S X|D S X|ch D Q|ch D Q|nm vals e v D I B1 B2 ND NX A V C].
    - destruct (literal_facts _ _ _ Li) as (NC & NI & NDf). apply reads_self; [eapply spells_literal, Li|exact NC|apply not_ident_symbol, NI|exact NDf|].
      unfold label_value. rewrite D, K. f_equal. apply to_i64_fits; [exact (C34_labels q L base z K Li F)|]. pose proof (fits_range q z K F). lia.
    - destruct (literal_facts _ _ _ Li) as (NC & _). apply reads_self; [eapply spells_negative, Li|exact NC|apply not_ident_symbol; reflexivity|discriminate|].
      assert (K' : int_kind q = true) by (destruct q; try discriminate K; reflexivity). unfold label_value. rewrite D, K'. f_equal. exact (C34_negative_labels q L z K Li F).
    - destruct (sizes_grow root p x root1 false qs y b N E G I S) as (n0 & d & q' & Fd & Kq & Iq). cbn [render] in Fd.
      split; [|split; [exact ND|]].
      + eapply spells_expr; [apply rd_name|]. apply to_one. apply (tt_name qs y); assumption.
      + eapply ev_impl; [|apply (ev_steady _ (fun n => find_in n root1 p consts (qualified qs y)) (Ok (Some d)) (steady_find _ _ _ _ _)); [exists n0; exact Fd|discriminate]]. intros m Fm. cbv beta in Fm. exists (to_string b). unfold label_subst. rewrite Fm. cbn [bind].
        assert (NF : is_float q' = false) by (destruct q'; try discriminate Kq; reflexivity). rewrite (cast_int d q' (Z.of_N b) Iq NF) by lia. rewrite N2Z.id. split; [reflexivity|]. split; [apply number_not_default|].
        unfold label_value. rewrite D, K. f_equal. rewrite <- (N2Z.id b) at 1. apply number_label; [exact K|lia|exact F].
    - apply reads_self; [apply spells_bool|reflexivity|rewrite (grows_symbol _ _ _ _ _ _ G (not_eq_sym X)); exact S|discriminate|]. unfold label_value. rewrite D. reflexivity.
    - apply reads_self; [apply spells_bool|reflexivity|rewrite (grows_symbol _ _ _ _ _ _ G (not_eq_sym X)); exact S|discriminate|]. unfold label_value. rewrite D. reflexivity.
    - pose proof (all_ascii (fun c => implb (quotable c) (no_colon (String c "'") && (N_of_ascii c <? 128)%N)) eq_refl ch) as K1. cbv beta in K1. rewrite Q in K1. cbn [implb] in K1. apply andb_true_iff in K1 as [K1 K2]. apply N.ltb_lt in K2.
      apply reads_self; [apply (spells_char ch Q)|exact K1|apply not_ident_symbol; reflexivity|discriminate|]. unfold label_value. rewrite D. cbn [int_kind]. f_equal. change (char_label ("'" ++ String ch "'")) with (N_of_ascii ch).
      unfold prim_int. assert (LD : le_decode [N_of_ascii ch] = N_of_ascii ch) by (unfold le_decode; lia). rewrite LD. cbn [prim_signed prim_size]. destruct (Z.ltb_spec (Z.of_N (N_of_ascii ch)) (2 ^ (8 * Z.of_N 1 - 1))) as [_|Hge]; [reflexivity|exfalso; cbn in Hge; lia].
    - pose proof (all_ascii (fun c => implb (quotable c) (no_colon (String c "'"))) eq_refl ch) as K1. cbv beta in K1. rewrite Q in K1. cbn [implb] in K1.
      apply reads_self; [apply (spells_char ch Q)|exact K1|apply not_ident_symbol; reflexivity|discriminate|]. unfold label_value. rewrite D. cbn [int_kind]. reflexivity.
    - destruct C as [NS|(n & d & Fd & Hd)].
      + apply reads_self; [apply spells_name; assumption|apply ident_no_colon, I|rewrite (grows_symbol _ _ _ _ _ _ G NX); exact NS|exact ND|]. unfold label_value. rewrite D. cbn [rget].
        clear - I A. destruct e as [|ch r]; [discriminate I|]. rewrite C34_enum_names; [rewrite A; reflexivity|].
        apply andb_true_iff in I as [I _]. cbn [first_is] in I. pose proof (all_ascii (fun c => implb (id_first c) (letterb c)) eq_refl ch) as K. cbv beta in K. rewrite I in K. cbn [implb] in K.
        unfold letterb in K. unfold letter. rewrite !orb_true_iff, !andb_true_iff, !Nat.leb_le, Nat.eqb_eq in K. cbv zeta. tauto.
      + split; [apply spells_name; assumption|]. split; [exact ND|]. eapply ev_impl; [|apply (const_kept root p x root1 e n d N G E I NX Fd)]. intros m H. cbv beta in H. exists (to_string v). unfold label_subst. rewrite H. cbn [bind].
        rewrite (cast_int d PU32 (Z.of_N v) Hd eq_refl) by lia. rewrite N2Z.id. split; [reflexivity|]. split; [apply number_not_default|]. unfold label_value. rewrite D. cbn [rget]. rewrite <- (N2Z.id v) at 1. apply enum_number_label. lia.
  Qed.
End Labels.

(** *** Cases *)
Lemma no_label_says : forall T K s t w r, type_says T K s t -> follows w r -> no (Ref R_CASE_LABEL) (s ++ w ++ r).
Proof.
  intros T K s t w r H F. assert (FI : first_is id_char (w ++ r) = false) by apply (f_id _ _ F).
  destruct H as [s p H| |s b H| |b H|s t H|s t d b H D|k kt v vt H H'|k kt v vt d b H H' D|s t P H]; try (rewrite ?app_assoc_s; no_by_text).
  - unfold base_names in H. cbn [In] in H. repeat (destruct H as [H|H]; [injection H as <- <-; no_by_text|]). destruct H.
  - destruct P as ([] & qs & y & -> & _ & P); cbn [render]; [rewrite ?app_assoc_s; no_by_text|]. destruct P as [P|P]; [discriminate P|]. destruct (qualified_first qs y (w ++ r)) as (s' & -> & F'). apply no_label_plain; [exact P|apply F', FI].
Qed.
Definition an_element (T : string -> ty -> Prop) (K : string -> N -> Prop) (y : string) (t : ty) (a : ast) : Prop := a_orig (optimize a) = R_ELEMENT_SPEC /\ forall c root p, usual c -> known_at T K root p ->
  eventually (fun n => resolve_identifier n c root p y false = Ok y) -> eventually (fun n => case_member_def n c root p (a_sub (optimize a)) None [] = Ok [(y, t)]).
Lemma case_skip : forall n c root p l r t ds, Forall note_node l -> case_member_def n c root p (map optimize l ++ r)%list t ds = case_member_def n c root p r t ds.
Proof. intros n c root p l r t ds H. induction H as [|a l (t' & k & l' & E & _) Hl IH]; [reflexivity|]. cbn [map app]. rewrite E. cbn [case_member_def a_orig]. exact IH. Qed.
Lemma ok_element_says : forall T K b s t y e ds w r, notes b -> type_says T K s t -> dims_say K (2 ^ 32) e ds -> plain y = true -> gap w -> solid r ->
  solid (b ++ s ++ " " ++ y ++ e ++ ";" ++ w ++ r) /\ no (Ref R_CASE_LABEL) (b ++ s ++ " " ++ y ++ e ++ ";" ++ w ++ r) /\
  exists a, ok (Seq (Ref R_ELEMENT_SPEC) (Ref R_SEMICOLON)) (b ++ s ++ " " ++ y ++ e ++ ";" ++ w ++ r) [a] [] r /\ an_element T K y (array_of t ds) a.
Proof.
  intros T K b s t y e ds w r Hb Hs He P W S. pose proof (plain_ident _ P) as I.
  assert (En : ends " " (y ++ e ++ ";" ++ w ++ r)) by (apply plain_first; [exact P|destruct He; reflexivity]).
  destruct (spec_says T K s t (ok_says T K s t Hs) (fun q => says_solid T K s t q Hs) " " _ En) as (a & O & M & Ga).
  destruct (ok_decl K y e ds (";" ++ w ++ r) I He) as (d & Od & la & D & ->); [constructor; reflexivity|]. cbn [fst snd] in *.
  assert (F : forall k, In k ["@"; "("]%char -> first_is (Ascii.eqb k) (s ++ " " ++ y ++ e ++ ";" ++ w ++ r) = false).
  { intros k Ik. destruct (says_first T K s t Hs) as (ch & u & -> & If). cbn [append first_is]. pose proof (all_ascii (fun c => implb (text_first c) (negb (Ascii.eqb "@" c) && negb (Ascii.eqb "(" c))) eq_refl ch) as X. cbv beta in X. rewrite If in X.
    apply andb_true_iff in X as [X1 X2]. apply negb_true_iff in X1, X2. destruct Ik as [<-|[<-|[]]]; assumption. }
  assert (So : solid (s ++ " " ++ y ++ e ++ ";" ++ w ++ r)) by (eapply says_solid, Hs).
  destruct (ok_notes b Hb _ So (F _ (or_introl eq_refl)) (F _ (or_intror (or_introl eq_refl)))) as (ln & wn & Wn & On & Fn).
  split; [apply notes_solid; assumption|]. split.
  { destruct Hb as [|abs qs z w0 IP W0 Ne|abs qs z w0 w1 s0 w2 w3 r0 IP W0 W1 Ps W2 W3 Hr]; [apply (no_label_says T K s t " " _ Hs), En|rewrite !app_assoc_s; no_by_text|rewrite !app_assoc_s; no_by_text]. }
  exists (Ast R_ELEMENT_SPEC R_ELEMENT_SPEC "" (ln ++ [a; Ast R_DECLARATOR R_DECLARATOR "" [decl_node y la]])%list). split.
  - refine (ok_seq _ _ _ [_] [] _ [] [] _ (ok_ref_node R_ELEMENT_SPEC _ _ _ _ _ eq_refl eq_refl) (ok_close_gap R_SEMICOLON ";" w r ltac:(kw) eq_refl W S)). cbn [gram].
    eapply ok_seq; [exact On|]. apply (slides_seq _ _ slides_type wn _ Wn So). refine (ok_seq _ _ _ [a] [] _ [_] [] _ O Od).
  - assert (Z : optimize (Ast R_ELEMENT_SPEC R_ELEMENT_SPEC "" (ln ++ [a; Ast R_DECLARATOR R_DECLARATOR "" [decl_node y la]])) = Ast R_ELEMENT_SPEC R_ELEMENT_SPEC "" (map optimize ln ++ [optimize a; opt_decl R_DECLARATOR y la])).
    { transitivity (Ast R_ELEMENT_SPEC R_ELEMENT_SPEC "" (map optimize (ln ++ [a; Ast R_DECLARATOR R_DECLARATOR "" [decl_node y la]]))).
      - destruct ln as [|z ln]; [reflexivity|]. destruct ln as [|z' ln]; reflexivity.
      - rewrite map_app. cbn [map]. rewrite optimize_one, optimize_decl. reflexivity. }
    split; [rewrite Z; reflexivity|]. intros c root p U Kn R.
    eapply ev_impl; [|apply (ev_and _ _ (M c root p U Kn) (decl_reads T K c root p R_DECLARATOR y ds la Kn D R))]. intros n [Q1 Q2]. cbv beta in *.
    rewrite Z. cbn [a_sub]. rewrite case_skip by exact Fn. rewrite (case_def_type _ _ _ _ _ _ _ _ Ga), Q1. cbn [bind]. rewrite case_def_name by (destruct la; reflexivity). rewrite Q2. cbn [bind case_member_def app].
    pose proof (add_declared_all t [(y, ds)] []) as X. cbn [map fst snd declared_as app] in X. rewrite X; [reflexivity| |repeat constructor; auto].
    constructor; [|constructor]. cbn [snd]. clear - He. induction He as [|s d r ds Hs Hr IH]; constructor; [eapply size_less, Hs|exact IH].
Qed.

(** *** The labels of a case *)
Section Cases.
  Variables (root : modl) (p : place) (x : string) (root1 : modl) (disc : ty).
  Hypotheses (NN : no_nulls root) (IO : idents_only root1 p) (E : exists_module root p = true) (G : grows root p x root1) (XD : x <> "default").
  Definition labels_read (Ls : list string) (zs : list Z) (d : bool) : Prop :=
    eventually (fun n => exists vs, map_res (label_subst n root1 p) Ls = Ok vs /\ forall def acc, (def && d)%bool = false -> parse_labels disc vs def acc = Ok ((def || d)%bool, (acc ++ zs)%list)).
  Lemma label_line : forall L s, L <> "default" -> "case " ++ L ++ ":" ++ s = label_core L ++ s.
  Proof. intros L s H. unfold label_core. destruct (String.eqb_spec L "default"); [contradiction|]. rewrite !app_assoc_s. reflexivity. Qed.
  Lemma default_line : forall s, "default:" ++ s = label_core "default" ++ s.
  Proof. reflexivity. Qed.
  Lemma ok_labels_say : forall l zs d, labels_say root p x disc l zs d -> exists Ls, labels_read Ls zs d /\ forall s, solid s -> no (Ref R_CASE_LABEL) s ->
    solid (l ++ s) /\ ok (Star (Ref R_CASE_LABEL)) (l ++ s) (map label_node Ls) [] s /\ (l <> "" -> Ls <> [] /\ ok (Plus (Ref R_CASE_LABEL)) (l ++ s) (map label_node Ls) [] s).
  Proof.
    intros l zs d H. induction H as [|L z w r zs d HL Gw Nw H (Ls & R & O)|w r zs HS Gw Nw H (Ls & R & O)].
    - exists []. split; [exists O; intros n _; exists []; split; [reflexivity|]; intros def acc _; cbn [parse_labels]; rewrite orb_false_r, app_nil_r; reflexivity|].
      intros s S Nn. split; [exact S|]. split; [apply ok_star_end, Nn|congruence].
    - destruct (label_says_read root p x root1 disc NN IO E G L z HL) as (Sp & ND & EL). exists (L :: Ls). split.
      + eapply ev_impl; [|exact (ev_and _ _ EL R)]. intros n ((v & V1 & V2 & V3) & vs & V4 & V5). exists (v :: vs). cbn [map_res]. rewrite V1, V4. cbn [bind]. split; [reflexivity|].
        intros def acc Hd. cbn [parse_labels]. destruct (String.eqb_spec v "default"); [contradiction|]. rewrite V3. cbn [bind]. rewrite V5 by exact Hd. rewrite <- app_assoc. reflexivity.
      + intros s S Nn. destruct (O s S Nn) as (So & Os & _). rewrite !app_assoc_s, (label_line L (w ++ r ++ s) ND).
        pose proof (ok_label_gap L w (r ++ s) (or_intror Sp) Gw Nw So) as O1. split; [apply label_solid|]. split; [|intros _].
        * exact (ok_star_more _ _ [_] [] _ _ [] _ O1 Os).
        * split; [discriminate|]. exact (ok_plus _ _ [_] [] _ _ [] _ O1 Os).
    - exists ("default" :: Ls). split.
      + assert (ED : eventually (fun n => label_subst n root1 p "default" = Ok "default")).
        { eapply ev_impl; [|apply (not_symbol_const root1 p "default")].
          - intros n Q. cbv beta in Q. unfold label_subst. rewrite Q. reflexivity.
          - rewrite (grows_exists _ _ _ _ p G). exact E.
          - reflexivity.
          - rewrite (grows_symbol _ _ _ _ _ _ G (not_eq_sym XD)). exact HS. }
        eapply ev_impl; [|exact (ev_and _ _ ED R)]. intros n (V1 & vs & V4 & V5). exists ("default" :: vs). cbn [map_res]. rewrite V1, V4. cbn [bind]. split; [reflexivity|].
        intros def acc Hd. rewrite andb_true_r in Hd. subst def. cbn [parse_labels]. change (String.eqb "default" "default") with true. cbv iota. rewrite V5 by reflexivity. reflexivity.
      + intros s S Nn. destruct (O s S Nn) as (So & Os & _). rewrite !app_assoc_s, (default_line (w ++ r ++ s)).
        pose proof (ok_label_gap "default" w (r ++ s) (or_introl eq_refl) Gw Nw So) as O1. split; [apply label_solid|]. split; [|intros _].
        * exact (ok_star_more _ _ [_] [] _ _ [] _ O1 Os).
        * split; [discriminate|]. exact (ok_plus _ _ [_] [] _ _ [] _ O1 Os).
  Qed.
  Lemma labels_stand : forall Ls zs d, labels_read Ls zs d -> eventually (fun n => exists vs, map_res (label_subst n root1 p) Ls = Ok vs /\ stands disc vs zs d).
  Proof. intros Ls zs d H. eapply ev_impl; [|exact H]. intros n (vs & M & V). exists vs. split; [exact M|]. unfold stands. rewrite V by reflexivity. reflexivity. Qed.

  (** *** The cases *)
  Variables (T : string -> ty -> Prop) (K : string -> N -> Prop).
  Definition case_tree_says (k : ucase) (a : ast) : Prop := exists Ls e, optimize a = Ast R_CASE R_CASE "" (map label_node Ls ++ [optimize e]) /\ labels_read Ls (fst (fst k)) (snd (fst k)) /\ an_element T K (fst (snd k)) (snd (snd k)) e.
  Lemma ok_cases_say : forall body cs, cases_say root p x disc T K body cs -> Forall (fun k => plain (fst (snd k)) = true) cs ->
    forall s, exists l, Forall2 case_tree_says cs l /\ solid (body ++ "}" ++ s) /\ ok (Star (Ref R_CASE)) (body ++ "}" ++ s) l [] ("}" ++ s) /\ (cs <> [] -> ok (Plus (Ref R_CASE)) (body ++ "}" ++ s) l [] ("}" ++ s)).
  Proof.
    intros body cs H. induction H as [|l zs d a s t y e ds w r cs Hl Ne Ha Hs He Gw Hr IH]; intros F q.
    - exists []. split; [constructor|]. split; [reflexivity|]. split; [|congruence]. apply ok_star_end. no_by_text.
    - inversion F as [|? ? Fy Fc]; subst. cbn [fst snd] in Fy. destruct (IH Fc q) as (tr & T2 & S2 & O2 & _). destruct (ok_labels_say l zs d Hl) as (Ls & Rd & OL).
      destruct (ok_element_says T K a s t y e ds w (r ++ "}" ++ q) Ha Hs He Fy Gw S2) as (S1 & N1 & el & O1 & T1).
      destruct (OL _ S1 N1) as (S0 & _ & O0). destruct (O0 Ne) as [NEL O0']. rewrite !app_assoc_s.
      assert (OC : ok (Ref R_CASE) (l ++ a ++ s ++ " " ++ y ++ e ++ ";" ++ w ++ r ++ "}" ++ q) [Ast R_CASE R_CASE "" (map label_node Ls ++ [el])%list] [] (r ++ "}" ++ q)).
      { eapply ok_ref_node; [|reflexivity|reflexivity]. cbn [gram]. exact (ok_seq _ _ _ _ [] _ [el] [] _ O0' O1). }
      exists (Ast R_CASE R_CASE "" (map label_node Ls ++ [el])%list :: tr). split; [constructor; [|exact T2]|split; [exact S0|split]].
      + exists Ls, el. split; [|split; [exact Rd|exact T1]]. destruct Ls as [|L1 Ls]; [congruence|]. unfold optimize at 1. fold optimize. rewrite map_app, map_optimize_labels. cbn [map app]. destruct Ls; reflexivity.
      + exact (ok_star_more _ _ [_] [] _ _ [] _ OC O2).
      + intros _. exact (ok_plus _ _ [_] [] _ _ [] _ OC O2).
  Qed.
  (** The parser collects the cases. *)
  Lemma bodies_read : forall c cs l, usual c -> known_at T K root1 p -> Forall2 case_tree_says cs l ->
    Forall (fun k => eventually (fun n => resolve_identifier n c root1 p (fst (snd k)) false = Ok (fst (snd k)))) cs ->
    eventually (fun n => exists vs : list vcase, (forall acc, switch_body n c root1 p (map optimize l) acc = Ok (acc ++ vs)%list) /\
      Forall2 (fun (k : ucase) (v : vcase) => snd v = snd k /\ stands disc (fst v) (fst (fst k)) (snd (fst k))) cs vs).
  Proof.
    intros c cs l U KN H. induction H as [|[[zs d] [y t]] a cs l (Ls & e & Ea & Rd & [Oe Me]) H IH]; intros F.
    - exists O. intros n _. exists []. split; [|constructor]. intros acc. cbn [map switch_body]. rewrite app_nil_r. reflexivity.
    - inversion F as [|? ? F1 F2]; subst. cbn [fst snd] in *.
      eapply ev_impl; [|exact (ev_and _ _ (ev_and _ _ (labels_stand _ _ _ Rd) (Me c root1 p U KN F1)) (IH F2))]. intros n (((v & V1 & V2) & M) & vs & B & S).
      exists ((v, (y, t)) :: vs). split; [|constructor; [split; [reflexivity|exact V2]|exact S]].
      intros acc. cbn [map]. rewrite Ea. cbn [switch_body a_orig a_sub]. rewrite (switch_case_labels n c root1 p Ls v [optimize e] [] acc V1). cbn [app switch_case]. rewrite Oe, M. cbn [bind app].
      rewrite B, <- app_assoc. reflexivity.
  Qed.
End Cases.

(** *** The discriminator *)
Lemma switch_solid_says : forall T s t r, switch_says T s t -> solid (s ++ r).
Proof.
  intros T s t r H. apply (says_solid T (fun _ _ => True) s t). destruct H as [(q & I & _ & ->)|[P H]]; [apply ts_base, I|apply ts_name; assumption].
Qed.
Lemma ok_switch_says : forall T K s t r, switch_says T s t ->
  exists a, ok (Ref R_SWITCH_TYPE_SPEC) (s ++ ")" ++ r) [a] [] (")" ++ r) /\ means T K (optimize a) t /\ a_orig (optimize a) = R_SWITCH_TYPE_SPEC.
Proof.
  intros T K s t r [(q & I & F & ->)|[P H]].
  - assert (X : exists a, ok (Ref R_SWITCH_TYPE_SPEC) (s ++ ")" ++ r) [a] [] (")" ++ r) /\ optimize a = Ast R_SWITCH_TYPE_SPEC (base_rule s q) "" []).
    { unfold base_names in I. cbn [In] in I. repeat (destruct I as [I|I]; [injection I as <- <-; try discriminate F; (eexists; split; [eapply (ok_at 70); reflexivity|reflexivity])|]). destruct I. }
    destruct X as (a & O & Ea). exists a. split; [exact O|]. rewrite Ea. split; [|reflexivity]. apply base_means, I.
  - destruct P as (abs & qs & y & -> & I & P). exists (Ast R_SWITCH_TYPE_SPEC R_SWITCH_TYPE_SPEC "" [name_node (render abs qs y)]). split; [|split; [|reflexivity]].
    + eapply ok_ref_node; [|reflexivity|reflexivity]. cbn [gram].
      destruct abs; [do 5 (apply ok_alt_r; [no_by_text|]); apply ok_absolute; [exact I|reflexivity|reflexivity]|]. destruct P as [P|P]; [discriminate P|]. cbn [render] in *.
      destruct (qualified_first qs y (")" ++ r)) as (s' & E' & F'). pose proof (F' eq_refl) as F.
      do 5 (apply ok_alt_r; [rewrite E'; no_words P F|]). apply ok_scoped; [exact I|reflexivity|reflexivity].
    + rewrite optimize_one. intros c root p U (_ & _ & N & _).
      eapply ev_impl; [|apply (ev_steady _ (fun n => type_named n root p (render abs qs y)) (Ok (Some t)) (steady_type_named _ _ _)); [exact (N _ t H)|discriminate]]. intros n K'. cbv beta in K'. cbn. cbn in K'. rewrite K'. reflexivity.
Qed.

(** *** The union *)
Lemma ok_union_says : forall root p x root1 disc T K T0 K0 s body cs w r, no_nulls root -> idents_only root1 p -> exists_module root p = true -> grows root p x root1 -> x <> "default" ->
  is_ident x = true -> switch_says T0 s disc -> switch_body_says root p x disc T K body cs -> Forall (fun k => plain (fst (snd k)) = true) cs -> cs <> [] -> gap w -> solid r ->
  exists d l, ok (Ref R_DEFINITION) (union_text x s body ++ ";" ++ w ++ r) [union_definition x d l] [] r /\ means T0 K0 (optimize d) disc /\ a_orig (optimize d) = R_SWITCH_TYPE_SPEC /\ Forall2 (case_tree_says p root1 disc T K) cs l.
Proof.
  intros root p x root1 disc T K T0 K0 s body0 cs w r NN IO E G XD I Sw C0 F NE W So. destruct C0 as [lead body cs GL C].
  destruct (ok_cases_say root p x root1 disc NN IO E G XD T K body cs C F (";" ++ w ++ r)) as (l & Tr & Sb & _ & Ob). specialize (Ob NE).
  destruct (ok_switch_says T0 K0 s disc (" {" ++ lead ++ body ++ "}" ++ ";" ++ w ++ r) Sw) as (d & Od & Md & Gd).
  exists d, l. split; [|split; [exact Md|split; [exact Gd|exact Tr]]]. unfold union_text. rewrite !app_assoc_s.
  eapply ok_ref_node; [|reflexivity|reflexivity]. cbn [gram]. apply ok_alt_l.
  refine (ok_seq _ _ _ [_] [] _ [] [] _ _ (ok_close_gap R_SEMICOLON ";" w r ltac:(kw) eq_refl W So)).
  apply ok_alt_r; [no_by_text|]. apply ok_alt_r; [no_by_text|]. apply ok_alt_l.
  eapply ok_ref_node; [|reflexivity|reflexivity]. cbn [gram]. apply ok_alt_l. eapply ok_ref_node; [|reflexivity|reflexivity]. cbn [gram].
  refine (ok_seq _ _ _ [] [] _ [_] [] _ (ok_star_end _ _ _) _); [no_by_text|]. apply ok_alt_r; [no_by_text|]. apply ok_alt_l.
  eapply ok_ref_node; [|reflexivity|reflexivity]. cbn [gram]. apply ok_alt_l. eapply ok_ref_node; [|reflexivity|reflexivity]. cbn [gram].
  refine (ok_seq _ _ _ [] [] _ _ [] _ (ok_keyword R_KW_UNION "union" "" " " _ _ eq_refl eq_refl _ _) _); [kw|apply ident_solid, I|reflexivity|].
  refine (ok_seq _ _ _ [_] [] _ _ [] _ (ok_ident x _ I _) _); [reflexivity|].
  refine (ok_seq _ _ _ [] [] _ _ [] _ (ok_keyword R_KW_SWITCH "switch" " " " " ("(" ++ s ++ ")" ++ " {" ++ lead ++ body ++ "}" ++ ";" ++ w ++ r) _ eq_refl eq_refl _ _) _); [kw|reflexivity|reflexivity|].
  refine (ok_seq _ _ _ [] [] _ _ [] _ (ok_open R_OPEN_PARENTHESES "(" _ ltac:(kw) eq_refl (switch_solid_says _ _ _ _ Sw)) _).
  refine (ok_seq _ _ _ [_] [] _ _ [] _ Od _).
  refine (ok_seq _ _ _ [] [] _ _ [] _ (ok_close R_CLOSE_PARENTHESES ")" " " ("{" ++ lead ++ body ++ "}" ++ ";" ++ w ++ r) ltac:(kw) eq_refl eq_refl eq_refl) _).
  refine (ok_seq _ _ _ [] [] _ _ [] _ (ok_close_gap R_OPEN_BRACE "{" lead (body ++ "}" ++ ";" ++ w ++ r) ltac:(kw) eq_refl GL Sb) _).
  refine (ok_seq _ _ _ [_] [] _ [] [] _ (ok_ref_node R_SWITCH_BODY _ _ _ _ _ eq_refl eq_refl) (ok_close R_CLOSE_BRACE "}" "" (";" ++ w ++ r) ltac:(kw) eq_refl eq_refl eq_refl)).
  exact Ob.
Qed.
(** union_def on such a tree. *)
Lemma union_def_says : forall n c p root x disc (cs : list ucase) (vs : list vcase) dn l u0 u root1, (0 < n)%nat ->
  exists_module root p = true -> is_ident x = true -> mem x (unions (tab_at root p)) = false -> resolve_identifier n c root p x true = Ok x ->
  type_spec n c root p dn = Ok disc -> a_orig dn = R_SWITCH_TYPE_SPEC -> union_new x disc = Ok u0 -> call_register Unions u0 false root p = Ok (true, root1) ->
  (forall acc, switch_body n c root1 p l acc = Ok (acc ++ vs)%list) ->
  Forall2 (fun (k : ucase) (v : vcase) => snd v = snd k /\ stands disc (fst v) (fst (fst k)) (snd (fst k))) cs vs ->
  add_all u0 cs = Ok u ->
  exists root', call_register Unions u false root p = Ok (true, root') /\ union_def n c p (union_tree x dn l) root = Ok root'.
Proof.
  intros n c p root x disc cs vs dn l u0 u root1 N E I M R Rd Gd U0 C1 B St A.
  assert (D0 : has_disc disc u0 /\ tname u0 = x /\ exists nm s lb dv iv d, u0 = TUnion nm s [(UNION_DISCRIMINATOR, 0%N, disc)] lb dv iv d).
  { unfold union_new in U0. destruct (check_discriminator disc); [|discriminate U0]. injection U0 as <-. split; [repeat eexists|]. split; [reflexivity|repeat eexists]. }
  destruct D0 as (D0 & T0 & Sh). destruct (add_all_rename disc (scoped (scope p) x) cs u0 u D0 A) as (AR & Nm & _). rewrite T0 in Nm.
  rewrite (register_union root p x u E I Nm M).
  destruct (with_tables_ok root p (set_unions (emplace x (rename u (scoped (scope p) x)) (unions (tab_at root p))) (tab_at root p)) E) as (root' & W'). rewrite W'. exists root'. split; [reflexivity|].
  pose proof C1 as C1'. rewrite (register_union root p x u0 E I T0 M) in C1. destruct (with_tables root p _) as [r1|] eqn:W1 in C1; [|discriminate C1]. cbn [bind] in C1. injection C1 as ->.
  destruct (with_tables_here _ _ _ _ E W1) as [T1 E1].
  assert (L1 : lookup n Unions root1 p x = Ok (p, x, rename u0 (scoped (scope p) x))).
  { apply lookup_here; [exact N|exact E1|exact I|]. rewrite T1. cbn [get_table set_unions unions]. apply mem_emplace, M. }
  unfold union_def, union_tree. cbn [a_sub]. rewrite parts_ident, R. cbn [bind]. rewrite parts_switch by exact Gd. rewrite Rd. cbn [bind]. rewrite U0. cbn [bind]. rewrite C1'. cbn [bind snd].
  rewrite parts_body, B. cbn [app bind union_parts]. rewrite L1. cbn [bind].
  assert (AC : add_cases (rename u0 (scoped (scope p) x)) vs = add_all (rename u0 (scoped (scope p) x)) cs).
  { apply (add_cases_all disc cs vs _); [|exact St]. destruct Sh as (? & ? & ? & ? & ? & ? & ->). repeat eexists. }
  destruct Sh as (nm & s & lb & dv & iv & d & ->). cbn [rename members_of] in *. rewrite AC, AR. cbn [bind]. rewrite (store_union root p (tab_at root p) x _ _ root1 E M W1). exact W'.
Qed.
