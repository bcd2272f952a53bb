(** The text of declarations makes the declarations. *)
From Verif Require Import Base Types TypeBuild Mem MemSpec MemFacts ConstructFacts Hash MapOps Ops NumSpec NumFacts IntSpec IntFacts IntOps ModuleSpec ModuleFacts Module DataSpec PropModule Peg0 Grammar Peg PegFacts PegRules IdlParse IdlParseFacts GenIdl GenSpec TypeText StructText StructRead NumText IdlLitFacts IdlLit IdlExpr GrowFacts DocFacts GenStruct AliasText EnumText GenText ModuleText ExprSpec ExprText ConstText UnionSpec UnionText UnionBuilt UnionRead GenUnion DocSpec.
From Coq Require Import Sorting.
From Verif Require Import GapSpec GapText.
Local Open Scope string_scope.

(** ** What stays true of the module *)
Definition tidy (root : modl) : Prop := no_nulls root /\ ident_symbols root.
Lemma tidy_idents : forall root p, ident_symbols root -> idents_only root p.
Proof.
  intros root p H x Hx. rewrite has_symbol_enclosing in Hx. pose proof (enclosing_spec (declares root x) p) as S. destruct (enclosing (declares root x) p) as [q|]; [|discriminate Hx]. apply (H q x). apply S.
Qed.
(** A call that changes the tables of one module and adds at most the name [x]. *)
Definition adds (x : string) (tab tab' : tables) : Prop := forall y, has_symbol_here (Mod "" tab' []) y = true -> y = x \/ has_symbol_here (Mod "" tab []) y = true.
Lemma adds_refl : forall x tab, adds x tab tab.
Proof. intros x tab y H. right. exact H. Qed.
Lemma on_tables_tidy : forall A root p (f : tables -> res (A * tables)) a root' x, on_tables root p f = Ok (a, root') -> is_ident x = true ->
  (forall tab', f (tab_at root p) = Ok (a, tab') -> adds x (tab_at root p) tab') -> tidy root -> tidy root' /\ forall q, exists_module root' q = exists_module root q.
Proof.
  intros A root p f a root' x H I Ad [N S]. apply on_tables_spec in H as (E & tab' & F & R). specialize (Ad tab' F). split; [split|].
  - intros c. eapply retabled_null; [exact R|apply N].
  - intros q y D. pose proof (R q) as Rq. unfold declares in D. destruct (mod_at root' q) as [m'|] eqn:M'; [|discriminate D]. destruct (mod_at root q) as [m|] eqn:M; [|contradiction].
    destruct Rq as (_ & Tb & Sn). unfold has_symbol_here in D. rewrite (same_names_mem _ _ y Sn), Tb in D. destruct (list_eq_dec string_dec q p) as [->|NE].
    + assert (Q : has_symbol_here (Mod "" tab' []) y = true \/ mem y (m_inner m) = true).
      { unfold has_symbol_here. cbn [m_tab m_inner]. destruct (mem y (m_inner m)); [right; reflexivity|left]. rewrite orb_false_r in D. rewrite D. reflexivity. }
      assert (K : forall b, (has_symbol_here (Mod "" (tab_at root p) []) y = true \/ b = true) -> mem y (m_inner m) = b -> declares root y p = true).
      { intros b [Hb| ->] Eb; unfold declares; rewrite M; unfold has_symbol_here in *; [|rewrite Eb, !orb_true_r; reflexivity]. unfold tab_at in Hb. rewrite M in Hb. cbn [m_tab m_inner] in Hb. unfold mem at 6 in Hb. cbn [assoc] in Hb.
        rewrite orb_false_r in Hb. rewrite Hb. reflexivity. }
      destruct Q as [Q|Q]; [destruct (Ad y Q) as [->|Q']; [exact I|]|]; apply (S p y); apply (K _ ltac:(first [left; assumption|right; eassumption]) eq_refl).
    + apply (S q y). unfold declares. rewrite M. exact D.
  - intros q. eapply retabled_exists, R.
Qed.
Lemma mem_emplaced : forall A x y (v : A) l, mem y (emplace x v l) = true -> y = x \/ mem y l = true.
Proof. intros A x y v l H. unfold mem in *. rewrite emplace_assoc in H. destruct (String.eqb_spec y x) as [Q|_]; [left; exact Q|right; exact H]. Qed.
Ltac emplaced H := repeat (apply orb_true_iff in H as [H|H]); first [apply mem_emplaced in H as [H|H]; [left; exact H|]|idtac]; right; unfold has_symbol_here; cbn [m_tab m_inner]; rewrite H, ?orb_true_r; reflexivity.
Lemma register_adds : forall k sc t tab, adds (tname t) tab (snd (register k sc t false tab)).
Proof.
  intros k sc t tab y H. unfold register in H. destruct (split_scope (tname t)); cbn [snd] in H; [right; exact H|]. unfold has_symbol_here in H.
  destruct k; cbn [get_table set_table set_structs set_unions set_enums set_aliases m_tab m_inner structs unions aliases enums consts] in H; emplaced H.
Qed.
Lemma alias_adds : forall b sc t x tab, adds x tab (snd (create_alias b sc t x tab)).
Proof.
  intros b sc t x tab y H. unfold create_alias in H. destruct (split_scope x); cbn [snd] in H; [right; exact H|]. destruct b; cbn [snd] in H; [right; exact H|]. unfold has_symbol_here in H.
  cbn [set_aliases m_tab m_inner structs unions aliases enums consts] in H; emplaced H.
Qed.
Lemma const_adds : forall fc x v fe tab b tab', create_constant fc x v false fe tab = Ok (b, tab') -> adds x tab tab'.
Proof.
  intros fc x v fe tab b tab' C y H. unfold create_constant in C. destruct (split_scope x); [injection C as _ <-; right; exact H|]. cbn [andb bind] in C. destruct (mem x (const_types tab)); [injection C as _ <-; right; exact H|].
  destruct (new_data (d_type v)) as [t|]; [|discriminate C]. cbn [bind] in C. destruct (assign_data fc t v) as [t1|]; [|discriminate C]. cbn [bind] in C. destruct (mem x (consts tab)) eqn:M.
  - injection C as _ <-. right. exact H.
  - destruct (copy_data fc t1) as [c|]; [|discriminate C]. cbn [bind] in C. injection C as _ <-. unfold has_symbol_here in H. cbn [m_tab m_inner structs unions aliases enums consts] in H. emplaced H.
Qed.
(** A new submodule. *)
Lemma created : forall x root p r, has_submodule root p x = false -> call_create_submodule x root p = Ok r ->
  exists_module r (x :: p) = true /\ (forall q, exists_module root q = true -> exists_module r q = true) /\
  forall q m', mod_at r q = Some m' -> (q = x :: p /\ m' = Mod x no_tables []) \/
    exists m, mod_at root q = Some m /\ m_tab m' = m_tab m /\ forall c, (assoc c (m_inner m') = Some None -> assoc c (m_inner m) = Some None) /\ (mem c (m_inner m') = true -> mem c (m_inner m) = true \/ c = x).
Proof.
  intros x root p r Hs H. unfold call_create_submodule in H. destruct (at_module_spec _ _ _ _ H) as [(m & y & Hx & Hy & Hm) Hrest].
  unfold has_submodule in Hs. rewrite mod_at_walk, Hx in Hs. unfold create_submodule in Hy. unfold mem in Hs. destruct (assoc x (m_inner m)) as [[z|]|] eqn:Ax; try discriminate Hs. injection Hy as <-.
  split; [|split].
  - unfold exists_module. cbn [mod_at]. rewrite mod_at_walk, Hm. cbn [m_inner]. rewrite emplace_assoc, String.eqb_refl, Ax. reflexivity.
  - intros q Hq. unfold exists_module in *. rewrite mod_at_walk in *. destruct (list_eq_dec string_dec (firstn (List.length (rev p)) (rev q)) (rev p)) as [Hpre|Hpre].
    + pose proof (firstn_skipn (List.length (rev p)) (rev q)) as FS. rewrite Hpre in FS. rewrite <- FS, walk_app in Hq |- *. rewrite Hx in Hq. rewrite Hm. destruct (skipn (List.length (rev p)) (rev q)) as [|c l]; [reflexivity|].
      cbn [walk m_inner] in *. rewrite emplace_assoc. destruct (String.eqb_spec c x) as [Q|_]; [rewrite Q, Ax in Hq; discriminate Hq|exact Hq].
    + specialize (Hrest (rev q)). destruct (walk (rev q) root), (walk (rev q) r); try discriminate; try reflexivity. exfalso. apply Hrest. intros s E; apply Hpre; rewrite E, firstn_app, Nat.sub_diag; cbn [firstn]; rewrite firstn_all, app_nil_r; reflexivity.
  - intros q m' Hq. rewrite mod_at_walk in *. destruct (list_eq_dec string_dec (firstn (List.length (rev p)) (rev q)) (rev p)) as [Hpre|Hpre].
    + pose proof (firstn_skipn (List.length (rev p)) (rev q)) as FS. rewrite Hpre in FS. rewrite <- FS, walk_app in Hq |- *. rewrite Hm in Hq. rewrite Hx. destruct (skipn (List.length (rev p)) (rev q)) as [|c l].
      * cbn [walk] in Hq. injection Hq as <-. right. exists m. split; [reflexivity|]. split; [reflexivity|]. intros c. cbn [m_inner]. unfold mem. rewrite emplace_assoc.
        destruct (String.eqb_spec c x) as [Q|_]; [rewrite Q, Ax; split; [discriminate|right; reflexivity]|]. split; [auto|]. auto.
      * cbn [walk m_inner] in Hq. rewrite emplace_assoc in Hq. destruct (String.eqb_spec c x) as [Q|NE].
        -- rewrite Ax in Hq. left. destruct l as [|c' l]; [|discriminate Hq]. cbn [walk] in Hq. injection Hq as <-. split; [|reflexivity]. apply (f_equal (@rev string)) in FS. rewrite rev_involutive, rev_app_distr, rev_involutive in FS. rewrite <- FS, Q. reflexivity.
        -- right. cbn [walk]. exists m'. split; [exact Hq|]. split; [reflexivity|]. intros d. split; auto.
    + specialize (Hrest (rev q)). rewrite Hq in Hrest. destruct (walk (rev q) root) as [m0|].
      * right. exists m0. destruct Hrest as (_ & T & Sn); [intros s E; apply Hpre; rewrite E, firstn_app, Nat.sub_diag; cbn [firstn]; rewrite firstn_all, app_nil_r; reflexivity|].
        split; [reflexivity|]. split; [symmetry; exact T|]. intros c. split; [intros A; specialize (Sn c); rewrite A in Sn; destruct (assoc c (m_inner m0)) as [[z|]|]; tauto|]. intros A. left. rewrite <- A. symmetry. apply same_names_mem, Sn.
      * exfalso. apply Hrest. intros s E; apply Hpre; rewrite E, firstn_app, Nat.sub_diag; cbn [firstn]; rewrite firstn_all, app_nil_r; reflexivity.
Qed.
Lemma enters_tidy : forall x p root root1, is_ident x = true -> enters x p root root1 -> exists_module root p = true -> tidy root ->
  tidy root1 /\ exists_module root1 (x :: p) = true /\ forall q, exists_module root q = true -> exists_module root1 q = true.
Proof.
  intros x p root root1 I (r & Hr & Hs) E [N S].
  assert (T : tidy r /\ exists_module r (x :: p) = true /\ forall q, exists_module root q = true -> exists_module r q = true).
  { destruct (has_submodule root p x) eqn:Hh.
    - injection Hr as <-. split; [split; assumption|]. split; [|auto]. unfold has_submodule in Hh. unfold exists_module. cbn [mod_at]. destruct (mod_at root p) as [m|] eqn:M; [|discriminate Hh].
      pose proof (N x p m M) as Nx. unfold mem in Hh. destruct (assoc x (m_inner m)) as [[z|]|]; try discriminate Hh; [reflexivity|congruence].
    - destruct (created x root p r Hh Hr) as (A & B & C). split; [|split; assumption]. split.
      + intros c q m' M' Q. destruct (C q m' M') as [[_ ->]|(m & M & _ & K)]; [discriminate Q|]. apply (N c q m M). apply K, Q.
      + intros q y D. unfold declares in D. destruct (mod_at r q) as [m'|] eqn:M'; [|discriminate D]. destruct (C q m' M') as [[_ ->]|(m & M & Tb & K)]; [discriminate D|]. unfold has_symbol_here in D. rewrite Tb in D.
        destruct (mem y (m_inner m')) eqn:Mi.
        * destruct (proj2 (K y) Mi) as [Q|Q]; [|rewrite Q; exact I]. apply (S q y). unfold declares. rewrite M. unfold has_symbol_here. rewrite Q, !orb_true_r. reflexivity.
        * apply (S q y). unfold declares. rewrite M. unfold has_symbol_here. rewrite orb_false_r in D. rewrite D. reflexivity. }
  destruct T as ([N1 S1] & E1 & K1). destruct (call_submodule_spec _ _ _ _ _ Hs) as [_ Sp].
  assert (Ex : forall q, exists_module root1 q = exists_module r q).
  { intros q. specialize (Sp q). unfold exists_module. destruct (mod_at r q), (mod_at root1 q); tauto. }
  split; [split|split; [rewrite Ex; exact E1|intros q Hq; rewrite Ex; apply K1, Hq]].
  - intros c q m' M' Q. specialize (Sp q). rewrite M' in Sp. destruct (mod_at r q) as [m|] eqn:M; [|contradiction]. destruct Sp as [_ Sp]. specialize (Sp c (or_introl eq_refl)). rewrite Q in Sp.
    specialize (N1 c q m M). destruct (assoc c (m_inner m)) as [[z|]|]; tauto.
  - intros q y D. apply (S1 q y). unfold declares in *. specialize (Sp q). destruct (mod_at root1 q) as [m'|]; [|discriminate D]. destruct (mod_at r q) as [m|]; [|contradiction]. destruct Sp as [Tb Sp].
    unfold has_symbol_here in *. rewrite Tb. rewrite <- (same_names_mem (m_inner m) (m_inner m') y); [exact D|]. intros c. apply Sp. left. reflexivity.
Qed.
(** ** Constants *)
Lemma same_bytes : forall q d d' z, int_kind q = true -> is_int d q z -> is_int d' q z -> read_bytes (d_mem d) 0 (prim_size q) = read_bytes (d_mem d') 0 (prim_size q).
Proof.
  intros q d d' z Hk (T & bs & Hh & Hn) (T' & bs' & Hh' & Hn').
  destruct (operand_holds d q bs Hh T) as (_ & L & F). destruct (operand_holds d' q bs' Hh' T') as (_ & L' & F').
  assert (W : (2 ^ width q = Z.of_N (256 ^ prim_size q))%Z) by (destruct q; try discriminate Hk; reflexivity).
  assert (Q : bs = bs').
  { apply le_decode_inj; try assumption; [lia|]. destruct Hn as (_ & k & Ek). destruct Hn' as (_ & k' & Ek'). pose proof (le_decode_lt bs F) as B. pose proof (le_decode_lt bs' F') as B'. rewrite L in B. rewrite L' in B'. rewrite W in Ek, Ek'.
    set (P := Z.of_N (256 ^ prim_size q)) in *. assert (0 <= Z.of_N (le_decode bs) < P)%Z by lia. assert (0 <= Z.of_N (le_decode bs') < P)%Z by lia. assert (k = k') by nia. subst k'. lia. }
  subst bs'. destruct Hh as (_ & _ & _ & _ & R). destruct Hh' as (_ & _ & _ & _ & R'). rewrite T in R. rewrite T' in R'. cbn [read] in R, R'.
  apply bind_ok_iff in R as (b & R & Q). injection Q as ->. apply bind_ok_iff in R' as (b & R' & Q). injection Q as ->. congruence.
Qed.
Lemma same_constant : forall fc x q d d' z r fe root p, int_kind q = true -> is_int d q z -> is_int d' q z -> call_create_constant fc x d r fe root p = call_create_constant fc x d' r fe root p.
Proof.
  intros fc x q d d' z r fe root p Hk H H'. pose proof (same_bytes q d d' z Hk H H') as B. unfold call_create_constant, on_tables. destruct (mod_at root p) as [m|]; [|reflexivity].
  assert (Q : forall tab, create_constant fc x d r fe tab = create_constant fc x d' r fe tab); [|rewrite Q; reflexivity].
  intros tab. unfold create_constant. rewrite (proj1 H), (proj1 H'). destruct (split_scope x); [reflexivity|]. destruct (if (r && mem x (consts tab))%bool then _ else _) as [tab1|]; [|reflexivity]. cbn [bind]. destruct (mem x (const_types tab1)); [reflexivity|].
  destruct (new_data (TPrim q)) as [t|] eqn:Nd; [|reflexivity]. cbn [bind]. assert (Tt : d_type t = TPrim q).
  { unfold new_data in Nd. apply bind_ok_iff in Nd as (b & _ & Nd). injection Nd as <-. reflexivity. }
  assert (A : assign_data fc t d = assign_data fc t d').
  { unfold assign_data, assign_from. rewrite (proj1 H), (proj1 H'), Tt. cbn [copy]. unfold memcpy. rewrite B. reflexivity. }
  rewrite A. reflexivity.
Qed.
(** ** The main fact *)
Scheme declared_by_ind2 := Minimality for declared_by Sort Prop
  with all_declared_ind2 := Minimality for all_declared Sort Prop.
Combined Scheme declared_both from declared_by_ind2, all_declared_ind2.
Lemma indent_ws : forall tabs, all_chars is_ws (indent tabs) = true.
Proof. induction tabs as [|k IH]; [reflexivity|exact IH]. Qed.
Lemma ws_app : forall a b, all_chars is_ws a = true -> all_chars is_ws b = true -> all_chars is_ws (a ++ b) = true.
Proof. induction a as [|c a IH]; intros b Ha Hb; [exact Hb|]. cbn [append all_chars] in *. apply andb_true_iff in Ha as [A1 A2]. rewrite A1. apply IH; assumption. Qed.

Section Values.
  Variable fc : prim -> prim -> list N -> list N.
  Variable flt : arith -> prim -> list N -> list N -> list N.
  Variable flit : prim -> string -> res (list N).
  Variable c : ctx.
  Hypothesis U : usual c.
  Notation sentence := (sentence fc flt flit c).
  Notation sentences := (sentences fc flt flit c).
  Definition one_reads (p : place) (d : decl) (root root' : modl) : Prop :=
    tidy root -> exists_module root p = true -> (tidy root' /\ forall q, exists_module root q = true -> exists_module root' q = true) /\
    forall tabs text, written tabs d text -> exists core, text = indent tabs ++ core ++ ";" ++ NL /\ sentence p core root root'.
  Definition all_read (p : place) (ds : list decl) (root root' : modl) : Prop :=
    tidy root -> exists_module root p = true -> (tidy root' /\ forall q, exists_module root q = true -> exists_module root' q = true) /\
    forall tabs text, written_all tabs ds text -> forall w, all_chars is_ws w = true -> exists w0 row, all_chars is_ws w0 = true /\ text ++ w = w0 ++ in_row row "" /\
      List.length row = List.length ds /\ sentences p row root root'.
  Lemma kept : forall root root', (forall q, exists_module root' q = exists_module root q) -> forall q, exists_module root q = true -> exists_module root' q = true.
  Proof. intros root root' H q Hq. rewrite H. exact Hq. Qed.
  Lemma enumerators_tidy : forall p es root root1, declare_enumerators fc p es root = Ok root1 -> Forall (fun e => is_ident (fst e) = true) es -> tidy root -> tidy root1 /\ forall q, exists_module root1 q = exists_module root q.
  Proof.
    intros p. induction es as [|[e v] es IH]; intros root root1 H I T; [injection H as <-; split; [exact T|reflexivity]|]. cbn [declare_enumerators] in H. inversion I as [|? ? Ie Ir]; subst.
    apply bind_ok_iff in H as (d & _ & H). apply bind_ok_iff in H as ([b r] & C & H). cbn [snd] in H. unfold call_create_constant in C.
    destruct (on_tables_tidy _ _ _ _ _ _ e C Ie (fun tab' F => const_adds _ _ _ _ _ _ _ F) T) as [T1 E1]. destruct (IH _ _ H Ir T1) as [T2 E2]. split; [exact T2|]. intros q. rewrite E2. apply E1.
  Qed.
  Lemma texts_read : forall p, (forall d root root', declared_by fc p d root root' -> one_reads p d root root') /\ (forall ds root root', all_declared fc p ds root root' -> all_read p ds root root').
  Proof.
    apply (declared_both fc (fun p d root root' => one_reads p d root root') (fun p ds root root' => all_read p ds root root')).
    - intros p g x parent ms t root root' PN D M ND BN S R [N IS] E. destruct (struct_of_members _ _ _ _ S) as [T _]. split.
      + unfold call_register in R. pose proof (plain_name_ident _ PN) as I. rewrite <- T in I. destruct (on_tables_tidy _ _ _ _ _ _ _ R I) as [A B]; [|split; assumption|split; [exact A|apply kept, B]].
        intros tab' F. injection F as F. pose proof (register_adds Structs (scope p) t (tab_at root p)) as Q. rewrite F in Q. exact Q.
      + intros tabs text W. inversion W; subst. match goal with H : struct_of _ _ _ = Ok _ |- _ => rewrite S in H; injection H as <- end.
        destruct (struct_sentence fc flt flit c p tabs (member_name g) root _ _ parent ms t U E N (tidy_idents _ _ IS) PN D M ND BN S) as (r & R' & Se). rewrite R in R'. injection R' as <-.
        eexists. split; [|exact Se]. eapply struct_idl_text, S.
    - intros p g x disc cs u root root' PN D Sw Nd CF Two Uo R [N IS] E.
      assert (T : tname u = x). { assert (B : built disc x cs u). { apply union_built_of; [|exact Uo]. intros ls isd [y mt] Hi. destruct (CF _ Hi) as ((_ & _ & LF & _) & So). split; [|exact So]. intros l Il. eapply label_small, LF, Il. }
        destruct B as [(s & ms & labels & d & -> & _) _ _ _]. reflexivity. }
      split.
      + unfold call_register in R. pose proof (plain_name_ident _ PN) as I. rewrite <- T in I. destruct (on_tables_tidy _ _ _ _ _ _ _ R I) as [A B]; [|split; assumption|split; [exact A|apply kept, B]].
        intros tab' F. injection F as F. pose proof (register_adds Unions (scope p) u (tab_at root p)) as Q. rewrite F in Q. exact Q.
      + intros tabs text W. inversion W; subst. match goal with H : union_of _ _ _ = Ok _ |- _ => rewrite Uo in H; injection H as <- end.
        destruct (union_sentence fc flt flit c p tabs (case_name g) root _ disc cs u U E N (tidy_idents _ _ IS) PN D Sw Nd (fun k H => proj1 (CF k H)) Two Uo) as (ks & r & PR & R' & Se). rewrite R in R'. injection R' as <-.
        eexists. split; [|exact Se]. match goal with H : union_idl _ _ _ _ = Ok _ |- _ => rewrite (union_idl_text (case_name g) root p _ g tabs _ disc cs ks u PR CF Uo) in H; injection H as <- end. reflexivity.
    - intros p g x t root root' PN D Cn L Rd Nm R [N IS] E. split.
      + unfold call_create_alias in R. destruct (on_tables_tidy _ _ _ _ _ _ x R (plain_name_ident _ PN)) as [A B]; [|split; assumption|split; [exact A|apply kept, B]].
        intros tab' F. injection F as F. pose proof (alias_adds false (scope p) t x (tab_at root p)) as Q. rewrite F in Q. exact Q.
      + intros tabs text W. inversion W; subst. destruct (alias_sentence fc flt flit c p (gname g false) root x t U E (tidy_idents _ _ IS) PN D Cn L Rd Nm) as (r & R' & Se). rewrite R in R'. injection R' as <-.
        eexists. split; [|exact Se]. apply alias_idl_text.
    - intros p x vals root root1 root' I NE Iv So Nu L DE R T E. pose proof T as [N IS]. split.
      + destruct (enumerators_tidy p _ _ _ DE) as [T1 E1]; [|exact T|]. { apply Forall_forall. intros e H. apply (proj1 (sort_in _ _)) in H. rewrite Forall_forall in Iv. apply Iv, H. }
        unfold call_register in R. destruct (on_tables_tidy _ _ _ _ _ _ x R I) as [A B]; [|exact T1|split; [exact A|apply kept; intros q; rewrite B; apply E1]].
        intros tab' F. injection F as F. pose proof (register_adds Enums (scope p) (TEnum x 4 vals) (tab_at root1 p)) as Q. rewrite F in Q. exact Q.
      + intros tabs text W. inversion W; subst. destruct (enum_sentence fc flt flit c p tabs root x vals E I NE Iv So Nu L) as (r1 & b & r & D1 & R' & Se). rewrite DE in D1. injection D1 as <-. rewrite R in R'. injection R' as _ <-.
        eexists. split; [|exact Se]. apply enum_idl_text.
    - intros p g x d q z root root' I Hk Hd Hl R T E. pose proof T as [N IS]. split.
      + unfold call_create_constant in R. destruct (on_tables_tidy _ _ _ _ _ _ x R I (fun tab' F => const_adds _ _ _ _ _ _ _ F) T) as [A B]. split; [exact A|apply kept, B].
      + intros tabs text W. inversion W as [| | | |? ? ? ? ? CI|]; subst.
        destruct (printed_number q z Hk (int_fits d q z Hd (int_kind_bool q Hk)) Hl) as (e & ts & De & Tx & Ev). destruct (Ev (fun _ => None)) as (E1 & E2 & E3).
        destruct (const_sentence fc flt flit c p root (fun _ => None) q x " " " " e ts (z_to_string z) "" z E Hk I eq_refl eq_refl eq_refl De Tx ltac:(intros ? ? Q; discriminate Q) E1 E2 E3) as (d' & b & r & Hd' & R' & Se).
        rewrite <- (same_constant fc x q d d' z false false root p Hk Hd Hd'), R in R'. injection R' as _ <-. eexists. split; [|exact Se].
        assert (Q : const_idl g tabs x d = Ok (indent tabs ++ const_core q x " " " " (z_to_string z) "" ++ ";" ++ NL)); [|rewrite Q in CI; injection CI as <-; reflexivity].
        unfold const_idl, const_value_idl, cast_string. rewrite (proj1 Hd). destruct (is_int_operand d q z Hd) as (a & -> & _ & Hz). cbn [bind]. replace (is_float q) with false by (destruct q; try discriminate Hk; reflexivity).
        cbn [bind]. rewrite Hz. unfold const_core. rewrite ?app_assoc_s. destruct q; try discriminate Hk; reflexivity.
    - intros p x ds root root1 root' PN NE En Ad IH T E. destruct (enters_tidy x p root root1 (plain_name_ident _ PN) En E T) as (T1 & E1 & K1). destruct (IH T1 E1) as [[T2 K2] R]. split; [split; [exact T2|intros q Hq; apply K2, K1, Hq]|].
      intros tabs text W. inversion W as [| | | | |? ? ? body Wb]; subst. destruct (R _ _ Wb (indent tabs) (indent_ws tabs)) as (w0 & row & Ws & Tx & Le & Se).
      exists (module_core x (NL ++ indent tabs) (NL ++ w0) row). split.
      + unfold module_core. f_equal. rewrite !app_assoc_s. do 5 f_equal. rewrite in_row_app. rewrite <- (app_assoc_s body), Tx, !app_assoc_s, in_row_app. reflexivity.
      + apply (module_sentence fc flt flit c p x (NL ++ indent tabs) (NL ++ w0) row root root1 root'); try assumption; [apply U|discriminate|apply ws_app; [reflexivity|apply indent_ws]|apply gap_blank; exact Ws|destruct row; [destruct ds; [congruence|discriminate Le]|discriminate]].
    - intros p root T E. split; [split; [exact T|auto]|]. intros tabs text W w Hw. inversion W; subst. exists (text ++ w), []. split; [apply ws_app; assumption|]. split; [cbn [in_row]; rewrite app_nil_s; reflexivity|]. split; [reflexivity|constructor].
    - intros p d ds root root1 root' _ IHd _ IHs T E. destruct (IHd T E) as [[T1 K1] R1]. destruct (IHs T1 (K1 p E)) as [[T2 K2] R2]. split; [split; [exact T2|intros q Hq; apply K2, K1, Hq]|].
      intros tabs text W w Hw. inversion W as [|? ? ? w1 td rest W1 Wd Wr]; subst. destruct (R1 _ _ Wd) as (core & -> & Sd). destruct (R2 _ _ Wr w Hw) as (w0 & row & Ws & Tx & Le & Se).
      exists (w1 ++ indent tabs), ((core, NL ++ w0) :: row). split; [apply ws_app; [exact W1|apply indent_ws]|]. split; [|split; [cbn; congruence|]].
      + cbn [in_row]. rewrite !app_assoc_s, Tx, ?app_assoc_s. reflexivity.
      + econstructor; [exact Sd|apply gap_blank, ws_app; [reflexivity|exact Ws]|exact Se].
  Qed.
  Lemma text_reads : forall p ds root root', all_declared fc p ds root root' -> all_read p ds root root'.
  Proof. exact (fun p => proj2 (texts_read p)). Qed.
  Lemma document_declares : forall ds root root' text, ds <> [] -> tidy root -> all_declared fc [] ds root root' -> written_all 0 ds text ->
    eventually (fun n => IdlParse.parse_idl fc flt flit n c text root = Ok (true, root')).
  Proof.
    intros ds root root' text NE T A W. destruct (text_reads [] ds root root' A T eq_refl) as [_ R]. destruct (R _ _ W "" eq_refl) as (w0 & row & Ws & Tx & Le & Se). rewrite app_nil_s in Tx. subst text.
    apply document_reads; try assumption; [destruct row; [destruct ds; [congruence|discriminate Le]|discriminate]|apply gap_blank; exact Ws].
  Qed.
End Values.
