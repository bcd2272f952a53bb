(** Documents as a user writes them are read. *)
From Verif Require Import Base Types TypeBuild Mem MemSpec MemFacts ConstructFacts Hash MapOps Ops NumSpec NumFacts IntSpec IntFacts IntOps ModuleSpec ModuleFacts Module DataSpec PropModule Peg0 Grammar Peg PegFacts PegRules IdlParse IdlParseFacts GenIdl GenSpec TypeText StructText StructRead NumText IdlLitFacts IdlLit IdlExpr IdlSpec GrowFacts DocFacts GenStruct AliasText EnumFacts EnumText GenText ModuleText ExprSpec ExprText ConstText UnionSpec UnionText UnionBuilt UnionRead GenUnion DocSpec DocText FreeSpec FreeText FreeStruct FreeDecl NoteSpec NoteText NoteDecl DeclSpec CaseSpec CaseText CaseDecl BitSpec BitText BitDecl TextSpec TextConst GapSpec GapText EnumSpec FreeEnum.
From Coq Require Import Sorting Permutation.
Local Open Scope string_scope.

(** ** Enumerations *)
Definition below (a b : string * N) : Prop := (snd a < snd b)%N.
Lemma below_ext : forall l l', StronglySorted below l -> StronglySorted below l' -> (forall e, In e l <-> In e l') -> l = l'.
Proof.
  induction l as [|a l IH]; intros l' S S' H.
  - destruct l' as [|b l']; [reflexivity|]. destruct (proj2 (H b) (or_introl eq_refl)).
  - destruct l' as [|b l']; [destruct (proj1 (H a) (or_introl eq_refl))|]. inversion S as [|? ? S1 F1]; subst. inversion S' as [|? ? S2 F2]; subst. rewrite Forall_forall in F1, F2. unfold below in *.
    assert (Q : a = b).
    { destruct (proj1 (H a) (or_introl eq_refl)) as [E|E]; [auto|]. destruct (proj2 (H b) (or_introl eq_refl)) as [E'|E']; [auto|]. pose proof (F1 _ E'). pose proof (F2 _ E). lia. }
    subst b. f_equal. apply IH; try assumption. intros e. split; intros I.
    + destruct (proj1 (H e) (or_intror I)) as [<-|E]; [|exact E]. pose proof (F1 _ I). lia.
    + destruct (proj2 (H e) (or_intror I)) as [<-|E]; [|exact E]. pose proof (F2 _ I). lia.
Qed.
Lemma numbers_in : forall l k e v, In (e, v) (numbers k l) <-> (k <= v)%N /\ nth_error l (N.to_nat (v - k)) = Some e.
Proof.
  induction l as [|a l IH]; intros k e v; cbn [numbers In].
  - split; [intros []|intros [_ H]; destruct (N.to_nat (v - k)); discriminate H].
  - rewrite IH. split.
    + intros [E|[L E]]; [injection E as <- <-; split; [lia|rewrite N.sub_diag; reflexivity]|]. split; [lia|]. replace (N.to_nat (v - k)) with (S (N.to_nat (v - (k + 1)))) by lia. exact E.
    + intros [L E]. destruct (N.eq_dec v k) as [->|D]; [rewrite N.sub_diag in E; injection E as <-; left; reflexivity|]. right. split; [lia|]. replace (N.to_nat (v - k)) with (S (N.to_nat (v - (k + 1)))) in E by lia. exact E.
Qed.
Lemma numbers_sorted : forall l k, StronglySorted below (numbers k l).
Proof. induction l as [|a l IH]; intros k; cbn [numbers]; constructor; [apply IH|]. apply Forall_forall. intros [e v] H. apply numbers_in in H as [H _]. unfold below. cbn. lia. Qed.
Lemma insert_sorted : forall e l, (forall f, In f l -> snd f <> snd e) -> StronglySorted below l -> StronglySorted below (insert_by_value e l).
Proof.
  intros e l. induction l as [|f l IH]; intros D S; cbn [insert_by_value]; [repeat constructor|]. inversion S as [|? ? S1 F1]; subst. destruct (snd e <=? snd f)%N eqn:L.
  - apply N.leb_le in L. pose proof (D f (or_introl eq_refl)). constructor; [exact S|]. constructor; [unfold below; lia|]. eapply Forall_impl; [|exact F1]. unfold below. intros; lia.
  - apply N.leb_gt in L. constructor; [apply IH; [intros g I; apply D; right; exact I|exact S1]|]. apply Forall_forall. intros g I. assert (X : g = e \/ In g l).
    { clear - I. induction l as [|h l IH]; cbn [insert_by_value] in I; [destruct I as [<-|[]]; left; reflexivity|]. destruct (snd e <=? snd h)%N; cbn [In] in *; [intuition|]. destruct I as [I|I]; [auto|]. destruct (IH I); auto. }
    destruct X as [->|X]; [exact L|]. rewrite Forall_forall in F1. apply F1, X.
Qed.
Lemma sort_counted : forall l vals, counted l vals -> sort_by_value vals = numbers 0 l.
Proof.
  intros l vals [So C]. pose proof (sorted_names_nodup _ So) as D. apply below_ext.
  - assert (X : forall e f, In e vals -> In f vals -> snd e = snd f -> e = f).
    { intros [e v] [f u] I J Q. cbn in Q. subst u. apply C in I. apply C in J. congruence. }
    clear C So. induction vals as [|e r IH]; [constructor|]. cbn [sort_by_value fold_right]. fold (sort_by_value r). cbn [map] in D. inversion D as [|? ? Ne Dr]; subst. apply insert_sorted; [|apply IH; [exact Dr|intros a b I J; apply X; right; assumption]].
    intros f I Q. apply (proj1 (sort_in _ _)) in I. rewrite (X f e (or_intror I) (or_introl eq_refl) Q) in I. apply Ne, in_map, I.
  - apply numbers_sorted.
  - intros [e v]. etransitivity; [apply (sort_in (e, v) vals)|]. rewrite C, numbers_in, N.sub_0_r. split; [intros H; split; [lia|exact H]|intros [_ H]; exact H].
Qed.
Lemma numbers_numbered : forall l k, numbered k (numbers k l).
Proof. induction l as [|a l IH]; intros k; cbn; [exact Logic.I|split; [reflexivity|apply IH]]. Qed.
Lemma numbers_names : forall l k, map fst (numbers k l) = l.
Proof. induction l as [|a l IH]; intros k; cbn [numbers map fst]; [reflexivity|rewrite IH; reflexivity]. Qed.
Lemma sort_length : forall l, List.length (sort_by_value l) = List.length l.
Proof. induction l as [|e l IH]; [reflexivity|]. cbn [sort_by_value fold_right List.length]. fold (sort_by_value l). rewrite <- IH. clear IH. induction (sort_by_value l) as [|f r IH]; [reflexivity|]. cbn [insert_by_value]. destruct (snd e <=? snd f)%N; cbn [List.length]; congruence. Qed.
Lemma numbers_length : forall l k, List.length (numbers k l) = List.length l.
Proof. induction l as [|a l IH]; intros k; cbn [numbers List.length]; [reflexivity|rewrite IH; reflexivity]. Qed.
Lemma enumerators_same : forall l k, enumerators_idl 0 (numbers k l) = enumerators_text l.
Proof.
  induction l as [|a l IH]; intros k; [reflexivity|]. destruct l as [|b l]; [reflexivity|]. specialize (IH (k + 1)%N).
  change (indent 1 ++ a ++ "," ++ NL ++ enumerators_idl 0 (numbers (k + 1) (b :: l)) = "    " ++ a ++ "," ++ NL ++ enumerators_text (b :: l)). rewrite IH. reflexivity.
Qed.
Lemma enum_text_core : forall x l vals, counted l vals -> enum_text x l = enum_core 0 x (sort_by_value vals).
Proof. intros x l vals C. unfold enum_text, enum_core. rewrite (sort_counted _ _ C), enumerators_same. reflexivity. Qed.
Lemma counted_idents : forall l vals, counted l vals -> Forall (fun e => is_ident e = true) l -> Forall (fun e => is_ident (fst e) = true) vals.
Proof. intros l vals [_ C] F. apply Forall_forall. intros [e v] I. apply C in I. rewrite Forall_forall in F. apply F. eapply nth_error_In, I. Qed.

Lemma plain_enumerators : forall l, l <> [] -> Forall (fun e => is_ident e = true) l -> exists e r body, l = e :: r /\ enumerators_text l = "    " ++ body /\ enumerators_say l body.
Proof.
  induction l as [|e l IH]; intros NE F; [congruence|]. inversion F as [|? ? I F']; subst. destruct l as [|f l].
  - exists e, [], (e ++ NL). split; [reflexivity|]. split; [reflexivity|]. apply enumerators_one; [exact I|apply gap_nl].
  - destruct IH as (g & r & body & E & T & S); [discriminate|exact F'|]. exists e, (f :: l), (e ++ "" ++ "," ++ (NL ++ "    ") ++ body). split; [reflexivity|]. split.
    + change (enumerators_text (e :: f :: l)) with ("    " ++ e ++ "," ++ NL ++ enumerators_text (f :: l)). rewrite T. reflexivity.
    + apply enumerators_more; [exact I|apply gap_none|blanks|exact S].
Qed.
Lemma plain_enum : forall x l, l <> [] -> Forall (fun e => is_ident e = true) l -> exists w1 w2 body, gap w1 /\ gap w2 /\ enumerators_say l body /\ enum_text x l = free_enum_text x w1 w2 body.
Proof.
  intros x l NE F. destruct (plain_enumerators l NE F) as (e & r & body & _ & T & S). exists NL, (NL ++ "    "), body. split; [apply gap_nl|]. split; [blanks|]. split; [exact S|].
  unfold enum_text, free_enum_text. rewrite T. rewrite !app_assoc_s. reflexivity.
Qed.
Lemma say_enum_plain : forall fc p x l vals root root1 root', is_ident x = true -> l <> [] -> Forall (fun e => is_ident e = true) l -> NoDup l -> (N.of_nat (List.length l) <= 2 ^ 32)%N ->
  counted l vals -> declare_enumerators fc p (numbers 0 l) root = Ok root1 -> call_register Enums (TEnum x 4 vals) false root1 p = Ok (true, root') -> says fc p (enum_text x l) root root'.
Proof. intros fc p x l vals root root1 root' I NE F ND L C D R. destruct (plain_enum x l NE F) as (w1 & w2 & body & G1 & G2 & S & ->). eapply say_enum; eassumption. Qed.
Lemma enumerators_idents : forall l body, enumerators_say l body -> l <> [] /\ Forall (fun e => is_ident e = true) l.
Proof. intros l body H. induction H as [e w I G|e w w' l s I G G' H IH]; (split; [discriminate|]); constructor; try assumption; [constructor|apply IH]. Qed.

(** ** Documents *)
(** What is known of a module after a declaration holds before it. *)
Lemma declared_before : forall root p x root1, is_ident x = true -> declares root x p = false -> call_register Structs (TStruct x 0 []) false root p = Ok (true, root1) -> tidy root1 ->
  tidy root /\ forall q, exists_module root1 q = exists_module root q.
Proof.
  intros root p x root1 I D C1 [N IS]. unfold call_register in C1. pose proof C1 as C2. apply on_tables_spec in C2 as (E & tab' & F & Rt).
  assert (W1 : with_tables root p (set_structs (emplace x (TStruct (scoped (scope p) x) 0 []) (structs (tab_at root p))) (tab_at root p)) = Ok root1).
  { pose proof (register_new root p x (TStruct x 0 []) E I eq_refl (declares_structs _ _ _ E D)) as X. unfold call_register in X. rewrite X in C1. cbn [rename] in C1. destruct (with_tables root p _) as [r|]; [|discriminate C1]. injection C1 as ->. reflexivity. }
  pose proof (grows_structs _ _ _ _ _ E D W1) as G. split; [split|].
  - intros c q m Hm Ea. specialize (Rt q). rewrite Hm in Rt. destruct (mod_at root1 q) as [m'|] eqn:M'; [|exact Rt]. destruct Rt as (_ & _ & Sn). specialize (Sn c). rewrite Ea in Sn. specialize (N c q m' M'). destruct (assoc c (m_inner m')) as [[z|]|]; tauto.
  - intros q y Hy. destruct (string_dec y x) as [->|NE]; [exact I|]. apply (IS q y). rewrite (grows_declares _ _ _ _ _ _ G (fun _ => NE)). exact Hy.
  - intros q. apply (grows_exists _ _ _ _ _ G).
Qed.
Scheme says_ind2 := Minimality for says Sort Prop
  with say_ind2 := Minimality for say Sort Prop.
Lemma union_of_name : forall x disc cs u, union_of x disc cs = Ok u -> tname u = x.
Proof.
  intros x disc cs u H. unfold union_of in H. destruct (union_new x disc) as [u0|] eqn:U0; [|discriminate H]. cbn [bind] in H.
  assert (D0 : has_disc disc u0 /\ tname u0 = x) by (unfold union_new in U0; destruct (check_discriminator disc); [|discriminate U0]; injection U0 as <-; split; [repeat eexists|reflexivity]).
  destruct D0 as [D0 <-]. apply (add_all_rename disc "" cs u0 u D0 H).
Qed.
Section Values.
  Variable fc : prim -> prim -> list N -> list N.
  Variable flt : arith -> prim -> list N -> list N -> list N.
  Variable flit : prim -> string -> res (list N).
  Variable c : ctx.
  Hypothesis U : usual c.
  Notation sentence := (sentence fc flt flit c).
  Notation sentences := (sentences fc flt flit c).
  Lemma row_in_row : forall l s, row_text l ++ s = in_row l s.
  Proof. induction l as [|[core w] l IH]; intros s; [reflexivity|]. cbn [row_text in_row]. rewrite !app_assoc_s, IH. reflexivity. Qed.
  Definition sentence_read (p : place) (s : string) (root root' : modl) : Prop :=
    tidy root -> exists_module root p = true -> (tidy root' /\ forall q, exists_module root q = true -> exists_module root' q = true) /\ sentence p s root root'.
  Definition row_read (p : place) (l : list (string * string)) (root root' : modl) : Prop :=
    tidy root -> exists_module root p = true -> (tidy root' /\ forall q, exists_module root q = true -> exists_module root' q = true) /\ sentences p l root root'.
  Lemma same_start : forall a b x : string, a ++ x = b ++ x -> a = b.
  Proof. intros a b x H. apply (f_equal list_ascii_of_string) in H. assert (Q : forall u v, list_ascii_of_string (u ++ v) = (list_ascii_of_string u ++ list_ascii_of_string v)%list) by (induction u as [|k u IH]; intros v; [reflexivity|cbn; rewrite IH; reflexivity]). rewrite !Q in H. apply app_inv_tail in H. apply (f_equal string_of_list_ascii) in H. rewrite !string_of_list_ascii_of_string in H. exact H. Qed.
  Lemma say_reads : forall p l root root', say fc p l root root' -> row_read p l root root'.
  Proof.
    apply (say_ind2 fc (fun p s root root' => sentence_read p s root root') (fun p l root root' => row_read p l root root')).
    - intros p x pn bt body ms t root root' PN D M FM ND BN S R [N IS] E. destruct (struct_of_members _ _ _ _ S) as [T _]. split.
      + unfold call_register in R. pose proof (free_name_ident _ PN) as I. rewrite <- T in I. destruct (on_tables_tidy _ _ _ _ _ _ _ R I) as [A B]; [|split; assumption|split; [exact A|apply kept, B]].
        intros tab' F. injection F as F. pose proof (register_adds Structs (scope p) t (tab_at root p)) as Q. rewrite F in Q. exact Q.
      + destruct (free_struct_sentence fc flt flit c p root x pn bt body ms t U E N (tidy_idents _ _ IS) PN D M FM ND BN S) as (r & R' & Se). rewrite R in R'. injection R' as <-. exact Se.
    - intros p k x root root' K PN D R T E. split.
      + unfold call_register in R. destruct (on_tables_tidy _ _ _ _ _ _ x R (free_name_ident _ PN)) as [A B]; [|exact T|split; [exact A|apply kept, B]].
        intros tab' F. injection F as F. pose proof (register_adds Structs (scope p) (TStruct x 0 []) (tab_at root p)) as Q. rewrite F in Q. exact Q.
      + apply forward_sentence; assumption.
    - intros p x pn bt body ms t root root1 from root' PN D C1 Fr M FM ND BN S R T E. destruct (struct_of_members _ _ _ _ S) as [Tn _].
      pose proof (free_name_ident _ PN) as I.
      assert (Ad : forall t0 r0, tname t0 = x -> call_register Structs t0 false root p = Ok (true, r0) -> tidy root -> tidy r0 /\ forall q, exists_module r0 q = exists_module root q).
      { intros t0 r0 N0 R0 T0. unfold call_register in R0. rewrite <- N0 in I. destruct (on_tables_tidy _ _ _ _ _ _ _ R0 I) as [A B]; [|exact T0|split; [exact A|exact B]].
        intros tab' F. injection F as F. pose proof (register_adds Structs (scope p) t0 (tab_at root p)) as Q. rewrite F in Q. exact Q. }
      assert (T0 : tidy root /\ exists_module root p = true).
      { destruct Fr as [->| ->]; [split; assumption|]. destruct (declared_before root p x root1 I D C1 T) as [A B]. split; [exact A|rewrite <- B; exact E]. }
      destruct T0 as [T0 E0]. destruct (Ad _ _ Tn R T0) as [T2 K2]. destruct (Ad (TStruct x 0 []) root1 eq_refl C1 T0) as [_ K1]. split.
      + split; [exact T2|]. intros q Hq. rewrite K2. destruct Fr as [->| ->]; [exact Hq|]. rewrite <- K1. exact Hq.
      + destruct T0 as [N IS]. destruct (free_struct_from fc flt flit c p root root1 from x pn bt body ms t U E0 N (tidy_idents _ _ IS) PN D C1 Fr M FM ND BN S) as (r & R' & Se). rewrite R in R'. injection R' as <-. exact Se.
    - intros p x s t ds root root' PN D M L R [N IS] E. split.
      + unfold call_create_alias in R. destruct (on_tables_tidy _ _ _ _ _ _ x R (plain_name_ident _ PN)) as [A B]; [|split; assumption|split; [exact A|apply kept, B]].
        intros tab' F. injection F as F. pose proof (alias_adds false (scope p) (array_of t ds) x (tab_at root p)) as Q. rewrite F in Q. exact Q.
      + destruct (free_alias_sentence fc flt flit c p root x s t ds U E (tidy_idents _ _ IS) PN D M L) as (r & R' & Se). rewrite R in R'. injection R' as <-. exact Se.
    - intros p x l w1 w2 body vals root root1 root' I G1 G2 ES ND L C DE R T E. pose proof (sort_counted _ _ C) as SC. destruct (enumerators_idents _ _ ES) as [NE Il]. split.
      + destruct (enumerators_tidy fc p _ _ _ DE) as [T1 E1]; [|exact T|]. { apply Forall_forall. intros [e v] H. apply numbers_in in H as [_ H]. rewrite Forall_forall in Il. apply Il. eapply nth_error_In, H. }
        unfold call_register in R. destruct (on_tables_tidy _ _ _ _ _ _ x R I) as [A B]; [|exact T1|split; [exact A|apply kept; intros q; rewrite B; apply E1]].
        intros tab' F. injection F as F. pose proof (register_adds Enums (scope p) (TEnum x 4 vals) (tab_at root1 p)) as Q. rewrite F in Q. exact Q.
      + destruct (enum_sentence_of fc flt flit c p (free_enum_text x w1 w2 body) root x vals) as (r1 & b & r & D1 & R' & Se); [intros s; reflexivity| |exact E|exact I| | | | | |].
        * intros w s W So. apply (ok_free_enum x w1 w2 l body); try assumption. rewrite SC. apply numbers_names.
        * intros ->. destruct l; [congruence|]. destruct C as [_ C]. apply (proj2 (C s 0%N)). reflexivity.
        * eapply counted_idents; eassumption.
        * apply C.
        * rewrite SC. apply numbers_numbered.
        * rewrite <- sort_length, SC, numbers_length. exact L.
        * rewrite SC, DE in D1. injection D1 as <-. rewrite R in R'. injection R' as _ <-. exact Se.
    - intros p q n x e ts s env z d root root' Hk CT I De Tx Se Ev Rs Us Hd R T E. split.
      + unfold call_create_constant in R. destruct (on_tables_tidy _ _ _ _ _ _ x R I (fun tab' F => const_adds _ _ _ _ _ _ _ F) T) as [A B]. split; [exact A|apply kept, B].
      + destruct (spelled_sentence fc flt flit c p root env q n x " " " " e ts s "" z E Hk CT I eq_refl eq_refl eq_refl De Tx Se Ev Rs Us) as (d' & b & r & Hd' & R' & Sn).
        rewrite <- (same_constant fc x q d d' z false false root p Hk Hd Hd'), R in R'. injection R' as _ <-. rewrite app_nil_s in Sn. exact Sn.
    - intros p n x s v d root root' CT I St Hd R T E. split.
      + unfold call_create_constant in R. destruct (on_tables_tidy _ _ _ _ _ _ x R I (fun tab' F => const_adds _ _ _ _ _ _ _ F) T) as [A B]. split; [exact A|apply kept, B].
      + destruct (text_sentence fc flt flit c p root n x " " " " s v "" E CT I eq_refl eq_refl eq_refl St) as (d' & b & r & Hd' & R' & Sn).
        rewrite <- (same_text fc x d d' v false false root p Hd Hd'), R in R'. injection R' as _ <-. rewrite app_nil_s in Sn. exact Sn.
    - intros p n x t d root root' CT I Hd R T E. split.
      + unfold call_create_constant in R. destruct (on_tables_tidy _ _ _ _ _ _ x R I (fun tab' F => const_adds _ _ _ _ _ _ _ F) T) as [A B]. split; [exact A|apply kept, B].
      + destruct (boolean_sentence fc flt flit c p root n x " " " " t "" E CT I eq_refl eq_refl eq_refl) as (d' & b & r & Hd' & R' & Sn).
        rewrite <- (same_boolean fc x d d' t false false root p Hd Hd'), R in R'. injection R' as _ <-. rewrite app_nil_s in Sn. exact Sn.
    - intros p n x e vals y s env T0 d0 v d root root' CT Fv I Tk Se Ey ET H0 Hd R T E. split.
      + unfold call_create_constant in R. destruct (on_tables_tidy _ _ _ _ _ _ x R I (fun tab' F => const_adds _ _ _ _ _ _ _ F) T) as [A B]. split; [exact A|apply kept, B].
      + destruct (chosen_sentence fc flt flit c p root env n x " " " " y s "" e vals T0 d0 v E Fv CT I eq_refl eq_refl eq_refl Tk Se Ey ET H0) as (d' & b & r & Hd' & R' & Sn).
        rewrite <- (same_enum fc _ x d d' v false false root p (et_enum e vals) Hd Hd'), R in R'. injection R' as _ <-. rewrite app_nil_s in Sn. exact Sn.
    - intros p x w l root root1 root' PN NE W En _ IH T E. destruct (enters_tidy x p root root1 (plain_name_ident _ PN) En E T) as (T1 & E1 & K1). destruct (IH T1 E1) as [[T2 K2] R]. split; [split; [exact T2|intros q Hq; apply K2, K1, Hq]|].
      rewrite row_in_row. apply (module_sentence fc flt flit c p x " " w l root root1 root'); try assumption; [apply U|discriminate|reflexivity].
    - intros p g x disc cs text root root' D W T E. destruct (proj1 (texts_read fc flt flit c U p) _ _ _ D T E) as [A R]. split; [exact A|].
      destruct (R _ _ W) as (core & Q & Se). change (indent 0) with "" in Q. apply (same_start text core) in Q. subst core. exact Se.
    - intros p x s disc body cs u root root' PN D Sw C FM Two S R [N IS] E. pose proof (union_of_name _ _ _ _ S) as T. split.
      + unfold call_register in R. pose proof (free_name_ident _ PN) as I. rewrite <- T in I. destruct (on_tables_tidy _ _ _ _ _ _ _ R I) as [A B]; [|split; assumption|split; [exact A|apply kept, B]].
        intros tab' F. injection F as F. pose proof (register_adds Unions (scope p) u (tab_at root p)) as Q. rewrite F in Q. exact Q.
      + destruct (free_union_sentence fc flt flit c p root x s disc body cs u U E N (tidy_idents _ _ IS) PN D Sw C FM Two S) as (r & R' & Se). rewrite R in R'. injection R' as <-. exact Se.
    - intros p s root Pa T E. split; [split; [exact T|auto]|]. apply passed_sentence; [apply U|exact Pa].
    - intros p x s root root' PN D R B T E. split.
      + unfold call_register in R. destruct (on_tables_tidy _ _ _ _ _ _ x R (free_name_ident _ PN)) as [A K]; [|exact T|split; [exact A|apply kept, K]].
        intros tab' F. injection F as F. pose proof (register_adds Structs (scope p) (TStruct x 0 []) (tab_at root p)) as Q. rewrite F in Q. exact Q.
      + destruct T as [N IS]. eapply bare_sentence; try eassumption. apply tidy_idents, IS.
    - intros p a s root root' Ha An _ IH T E. destruct (IH T E) as [A Se]. split; [exact A|]. apply sentence_noted; assumption.
    - intros p root T E. split; [split; [exact T|auto]|constructor].
    - intros p s w l root root1 root' _ IHd W _ IHs T E. destruct (IHd T E) as [[T1 K1] R1]. destruct (IHs T1 (K1 p E)) as [[T2 K2] R2]. split; [split; [exact T2|intros q Hq; apply K2, K1, Hq]|].
      econstructor; eassumption.
  Qed.
End Values.
