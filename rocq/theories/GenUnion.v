(** The sentence of a union declares the union. *)
From Verif Require Import Base Types TypeBuild TypeSpec Layout Mem Hash MapOps Ops NumSpec IntSpec IntOps ModuleSpec ModuleFacts Module DepTree Peg0 Grammar Peg PegFacts PegRules IdlParse IdlParseFacts GenIdl GenSpec TypeText StructText StructRead NumText IdlLitFacts IdlLit IdlExpr GrowFacts DocFacts GenStruct AliasText EnumText GenText ExprSpec ExprText ConstText UnionSpec UnionText UnionBuilt UnionRead.
From Coq Require Import Sorting.
From Verif Require Import GapSpec GapText.
Local Open Scope string_scope.

Lemma declares_unions : forall root x p, exists_module root p = true -> declares root x p = false -> mem x (unions (tab_at root p)) = false.
Proof.
  intros root x p E D. unfold declares, exists_module, tab_at in *. destruct (mod_at root p) as [m|]; [|discriminate E]. unfold has_symbol_here in D. rewrite !orb_false_iff in D. tauto.
Qed.
Lemma grows_unions : forall root p x v root1, exists_module root p = true -> declares root x p = false ->
  with_tables root p (set_unions (emplace x v (unions (tab_at root p))) (tab_at root p)) = Ok root1 -> grows root p x root1.
Proof.
  intros root p x v root1 E D W. split; [exact E|]. split; [exact D|]. eexists. split; [eapply with_tables_retabled; eauto|].
  constructor; try (intros y NE; reflexivity). intros y NE. cbn [set_unions unions]. rewrite emplace_assoc. destruct (String.eqb_spec y x); [congruence|reflexivity].
Qed.
Lemma switchable_readable : forall name t, switchable name t -> readable name t.
Proof. intros name [p|nm sz vals|k b|nm c b|c b|k v b|k v|nm sz ms|nm sz ms ls dv iv d|nm a] H; cbn [switchable readable] in *; try contradiction; [|exact H]. intros ->. destruct H as [H|[H|[H|H]]]; discriminate H. Qed.
Lemma map_res_forall2 : forall A B (f : A -> res B) l l', Forall2 (fun x y => f x = Ok y) l l' -> map_res f l = Ok l'.
Proof. intros A B f l l' H. induction H as [|x y l l' E H IH]; [reflexivity|]. cbn [map_res]. rewrite E. cbn [bind]. rewrite IH. reflexivity. Qed.

(** The case as the generator writes it: the texts of the labels, then default. *)
Definition printed (disc : ty) (k : ucase) (tk : tcase) : Prop :=
  snd tk = snd k /\ exists Ls, fst tk = (Ls ++ if snd (fst k) then ["default"] else [])%list /\ Forall2 (fun l L => label_idl l disc = Ok L) (fst (fst k)) Ls.
Definition case_read (n : nat) (root1 : modl) (p : place) (disc : ty) (k : ucase) (tk : tcase) (v : vcase) : Prop :=
  (snd v = snd tk /\ map_res (label_subst n root1 p) (fst tk) = Ok (fst v)) /\ (snd v = snd k /\ stands disc (fst v) (fst (fst k)) (snd (fst k))).
Section Labels.
  Variables (root : modl) (p : place) (x : string) (root1 : modl) (disc : ty).
  Hypotheses (N : no_nulls root) (IO : idents_only root1 p) (E : exists_module root p = true) (G : grows root p x root1) (XD : x <> "default").
  Lemma labels_read : forall ls Ls, (forall l, In l ls -> label_fits root p x disc l) -> Forall2 (fun l L => label_idl l disc = Ok L) ls Ls ->
    Forall spells Ls /\ eventually (fun n => exists vs, Forall2 (fun L v => label_subst n root1 p L = Ok v) Ls vs /\ Forall2 (fun v z => v <> "default" /\ label_value disc v = Ok z) vs ls).
  Proof.
    intros ls Ls F H. induction H as [|l L ls Ls HL H IH].
    - split; [constructor|]. exists O. intros n _. exists []. split; constructor.
    - destruct IH as [Sp Ev]; [intros; apply F; right; assumption|]. destruct (label_read root p x root1 disc l N IO E G (F l (or_introl eq_refl))) as (L' & HL' & SL & _ & EL).
      assert (L' = L) by congruence. subst L'. split; [constructor; assumption|]. eapply ev_impl; [|exact (ev_and _ _ EL Ev)]. intros n ((v & Sv & ND & LV) & vs & S2 & V2).
      exists (v :: vs). split; constructor; auto.
  Qed.
  Lemma case_reads : forall name k tk, case_fits name root p x disc k -> printed disc k tk ->
    good_case name tk /\ eventually (fun n => exists v, case_read n root1 p disc k tk v).
  Proof.
    intros name [[ls isd] [y mt]] [Lt m] (MF & NE & LF & DF) (Sn & Ls & Fs & H). cbn [fst snd] in *. subst m Lt.
    destruct (labels_read ls Ls LF H) as [Sp Ev]. split.
    - split; [|split].
      + cbn [fst]. destruct NE as [NE| ->]; [|intros Q; apply app_eq_nil in Q as [_ Q]; discriminate Q]. intros Q. apply app_eq_nil in Q as [Q _]. subst Ls. inversion H; subst. congruence.
      + cbn [fst]. apply Forall_app. split; [eapply Forall_impl; [|exact Sp]; intros L HL; right; exact HL|]. destruct isd; repeat constructor.
      + destruct MF. split; [apply plain_name_ident; assumption|assumption].
    - assert (ED : eventually (fun n => isd = true -> label_subst n root1 p "default" = Ok "default")).
      { destruct isd; [|exists O; intros n _; discriminate]. eapply ev_impl; [|apply (not_symbol_const root1 p "default")].
        - intros n Q _. cbv beta in Q. unfold label_subst. rewrite Q. reflexivity.
        - rewrite (grows_exists _ _ _ _ p G). exact E.
        - reflexivity.
        - rewrite (grows_symbol _ _ _ _ _ _ G (not_eq_sym XD)). apply DF. reflexivity. }
      eapply ev_impl; [|exact (ev_and _ _ ED Ev)]. intros n (Dn & vs & S2 & V2). exists (vs ++ (if isd then ["default"] else []), (y, mt))%list. split; (split; [reflexivity|]); cbn [fst snd].
      + apply map_res_forall2. apply Forall2_app; [exact S2|]. destruct isd; repeat constructor. apply Dn. reflexivity.
      + apply stands_read, V2.
  Qed.
  Lemma cases_read : forall name cs ks, (forall k, In k cs -> case_fits name root p x disc k) -> Forall2 (printed disc) cs ks ->
    Forall (good_case name) ks /\ eventually (fun n => exists vs, Forall2 (fun (k : tcase) (v : vcase) => snd v = snd k /\ map_res (label_subst n root1 p) (fst k) = Ok (fst v)) ks vs /\
      Forall2 (fun (k : ucase) (v : vcase) => snd v = snd k /\ stands disc (fst v) (fst (fst k)) (snd (fst k))) cs vs).
  Proof.
    intros name cs ks F H. induction H as [|k tk cs ks Hk H IH].
    - split; [constructor|]. exists O. intros n _. exists []. split; constructor.
    - destruct IH as [Gd Ev]; [intros; apply F; right; assumption|]. destruct (case_reads name k tk (F k (or_introl eq_refl)) Hk) as [Gk Ek]. split; [constructor; assumption|].
      eapply ev_impl; [|exact (ev_and _ _ Ek Ev)]. intros n ((v & A & B) & vs & As & Bs). exists (v :: vs). split; constructor; assumption.
  Qed.
End Labels.
Lemma printed_case : forall name root p x root1 disc k, no_nulls root -> idents_only root1 p -> exists_module root p = true -> grows root p x root1 -> case_fits name root p x disc k -> exists tk, printed disc k tk.
Proof.
  intros name root p x root1 disc [[ls isd] [y mt]] N IO E G (_ & _ & LF & _).
  assert (X : exists Ls, Forall2 (fun l L => label_idl l disc = Ok L) ls Ls).
  { induction ls as [|l ls IH]; [exists []; constructor|]. destruct IH as (Ls & H); [intros; apply LF; right; assumption|]. destruct (label_read root p x root1 disc l N IO E G (LF l (or_introl eq_refl))) as (L & HL & _). exists (L :: Ls). constructor; assumption. }
  destruct X as (Ls & H). exists ((Ls ++ if isd then ["default"] else [])%list, (y, mt)). split; [reflexivity|]. exists Ls. split; [reflexivity|exact H].
Qed.

Section Values.
  Variable fc : prim -> prim -> list N -> list N.
  Variable flt : arith -> prim -> list N -> list N -> list N.
  Variable flit : prim -> string -> res (list N).
  Lemma union_sentence : forall c p tabs name root x disc cs u,
    usual c -> exists_module root p = true -> no_nulls root -> idents_only root p -> plain_name x = true -> declares root x p = false ->
    switchable (name disc) disc -> named_in (name disc) root p disc -> (forall k, In k cs -> case_fits name root p x disc k) -> (2 <= List.length cs)%nat -> union_of x disc cs = Ok u ->
    exists ks root', Forall2 (printed disc) cs ks /\ call_register Unions u false root p = Ok (true, root') /\ sentence fc flt flit c p (union_core name tabs x disc ks) root root'.
  Proof.
    intros c p tabs name root x disc cs u (CT & W16 & IC) E N IO PN D Sw Nd CF Two U.
    pose proof (plain_name_ident _ PN) as I. pose proof (declares_unions _ _ _ E D) as MS. unfold union_of in U. destruct (union_new x disc) as [u0|] eqn:U0; [|discriminate U]. cbn [bind] in U.
    assert (T0 : tname u0 = x) by (unfold union_new in U0; destruct (check_discriminator disc); [|discriminate U0]; injection U0 as <-; reflexivity).
    destruct (with_tables_ok root p (set_unions (emplace x (rename u0 (scoped (scope p) x)) (unions (tab_at root p))) (tab_at root p)) E) as (root1 & W1).
    assert (C1 : call_register Unions u0 false root p = Ok (true, root1)) by (rewrite (register_union root p x u0 E I T0 MS); rewrite W1; reflexivity).
    pose proof (grows_unions _ _ _ _ _ E D W1) as G.
    assert (E1 : exists_module root1 p = true) by (rewrite (grows_exists _ _ _ _ p G); exact E).
    pose proof (grows_idents _ _ _ _ I G IO) as IO1.
    assert (XD : x <> "default") by (intros ->; discriminate PN).
    assert (PR : exists ks, Forall2 (printed disc) cs ks).
    { clear U Two. induction cs as [|k cs IH]; [exists []; constructor|]. destruct IH as (ks & H); [intros; apply CF; right; assumption|].
      destruct (printed_case name root p x root1 disc k N IO1 E G (CF k (or_introl eq_refl))) as (tk & Hk). exists (tk :: ks). constructor; assumption. }
    destruct PR as (ks & PR). destruct (cases_read root p x root1 disc N IO1 E G XD name cs ks CF PR) as [GC EC].
    assert (K2 : exists k1 k2 kr, ks = k1 :: k2 :: kr).
    { destruct PR as [|? ? ? ? ? PR]; [cbn in Two; lia|]. destruct PR; [cbn in Two; lia|]. eauto. }
    assert (EV : eventually (fun n => ((0 < n)%nat /\ resolve_identifier n c root p x true = Ok x) /\ knows (name disc) n root p disc /\
      (forall k : tcase, In k ks -> knows (name (snd (snd k))) n root1 p (array_base (snd (snd k))) /\ canonical (snd (snd k)) /\ resolve_identifier n c root1 p (fst (snd k)) false = Ok (fst (snd k))) /\
      exists vs, Forall2 (fun (k : tcase) (v : vcase) => snd v = snd k /\ map_res (label_subst n root1 p) (fst k) = Ok (fst v)) ks vs /\
        Forall2 (fun (k : ucase) (v : vcase) => snd v = snd k /\ stands disc (fst v) (fst (fst k)) (snd (fst k))) cs vs)).
    { apply ev_and; [apply ev_and; [exists 1%nat; intros; lia|apply plain_resolves; [exact IC|exact PN|discriminate]]|apply ev_and; [|apply ev_and; [|exact EC]]].
      - apply knows_named; [exact E|exact IO|exact Nd|apply switchable_readable, Sw].
      - apply (ev_all _ (fun k n => knows (name (snd (snd k))) n root1 p (array_base (snd (snd k))) /\ canonical (snd (snd k)) /\ resolve_identifier n c root1 p (fst (snd k)) false = Ok (fst (snd k)))).
        intros tk Hi. assert (X : exists k, In k cs /\ printed disc k tk).
        { clear - PR Hi. induction PR as [|k t cs ks H PR IH]; [destruct Hi|]. destruct Hi as [<-|Hi]; [exists k; split; [left; reflexivity|exact H]|]. destruct (IH Hi) as (k' & I & H'). exists k'. split; [right; exact I|exact H']. }
        destruct X as ([[ls isd] [y mt]] & Hk & (Sn & _)). destruct tk as [Lt m]. cbn [fst snd] in *. subst m. destruct (CF _ Hk) as ([P1 P2 P3 P4 P5 P6 P7] & _). cbn [fst snd]. apply ev_and; [|apply ev_and; [apply ev_const, P4|]].
        + apply knows_named; [exact E1|exact IO1| |exact P5]. eapply (grows_named (name mt) root p x root1); eauto.
        + apply plain_resolves; [exact IC|exact P1|]. intros _. rewrite (grows_symbol _ _ _ _ _ _ G P2). exact P3. }
    assert (NE : ks <> []) by (destruct K2 as (? & ? & ? & ->); discriminate).
    assert (MT : exists root', call_register Unions u false root p = Ok (true, root')).
    { destruct EV as (n0 & EV). destruct (EV n0 (le_n _)) as ((A1 & A2) & A3 & A4 & vs & A5 & A6).
      destruct (ok_union_definition name tabs x disc ks "" "" I Sw NE GC gap_none eq_refl) as (d & l & _ & Rd & Gd & T).
      destruct (union_def_reads name n0 c p root x disc ks vs cs (optimize d) (map optimize l) u0 u root1 A1 CT W16 E I MS A2 Rd Gd A3 U0 C1) as (root' & R & _); eauto.
      clear -T. induction T; cbn [map]; constructor; assumption. }
    destruct MT as (root' & R). exists ks, root'. split; [exact PR|]. split; [exact R|]. constructor.
    - intros s. unfold union_core. reflexivity.
    - intros w s W So. destruct (ok_union_definition name tabs x disc ks w s I Sw NE GC W So) as (d & l & O & Rd & Gd & T). eexists. split; [exact O|].
      eapply ev_impl; [|exact EV]. intros n ((A1 & A2) & A3 & A4 & vs & A5 & A6).
      assert (OU : optimize (union_definition x d l) = union_tree x (optimize d) (map optimize l)).
      { destruct K2 as (k1 & k2 & kr & ->). inversion T as [|? a ? l1 _ T1]; subst. inversion T1 as [|? b ? l2 _ _]; subst. apply optimize_union. }
      rewrite OU. assert (T' : Forall2 (case_tree name) ks (map optimize l)) by (clear -T; induction T; cbn [map]; constructor; assumption).
      destruct (union_def_reads name n c p root x disc ks vs cs (optimize d) (map optimize l) u0 u root1 A1 CT W16 E I MS A2 Rd Gd A3 U0 C1 T' A5 A4 A6 U) as (root2 & R2 & B).
      rewrite R in R2. injection R2 as <-. rewrite <- B. reflexivity.
  Qed.
End Values.

(** *** The text of the generator *)
Lemma labels_idl_text : forall tabs disc ls Ls, Forall2 (fun l L => label_idl l disc = Ok L) ls Ls -> Forall (fun L => L <> "default") Ls -> labels_idl tabs disc ls = Ok (labels_text tabs Ls).
Proof.
  intros tabs disc ls Ls H. induction H as [|l L ls Ls E H IH]; intros ND; [reflexivity|]. inversion ND as [|? ? N1 N2]; subst. cbn [labels_idl labels_text]. rewrite E. cbn [bind]. rewrite (IH N2). cbn [bind].
  unfold label_core. destruct (String.eqb_spec L "default"); [contradiction|]. rewrite !app_assoc_s. reflexivity.
Qed.
Lemma labels_text_app : forall tabs a b, labels_text tabs (a ++ b)%list = labels_text tabs a ++ labels_text tabs b.
Proof. intros tabs a b. induction a as [|L a IH]; [reflexivity|]. cbn [app labels_text]. rewrite IH, !app_assoc_s. reflexivity. Qed.
Lemma label_not_default : forall root p x disc l L, label_fits root p x disc l -> label_idl l disc = Ok L -> L <> "default".
Proof.
  intros root p x disc l L F H. destruct disc as [q|nm sz vals|k b|nm c b|c b|k v b|k v|nm sz ms|nm sz ms ls dv iv d|nm a]; cbn [label_fits] in F; try contradiction; unfold label_idl in H; cbn [rget] in H.
  - destruct q; try (injection H as <-; apply number_not_default); try (injection H as <-; discriminate); try (destruct F as [Q _]; discriminate Q). injection H as <-. destruct (_ =? 0)%N; discriminate.
  - destruct F as (-> & R & _ & _ & _ & ND & _). rewrite (Z.mod_small l) in H by lia. rewrite N.mod_small in H by lia. injection H as <-. exact ND.
Qed.
Lemma cases_idl_text : forall name root p x g tabs u disc cs ks ms, Forall2 (printed disc) cs ks -> (forall k, In k cs -> case_fits name root p x disc k) ->
  (forall ls isd y mt, In (ls, isd, (y, mt)) cs -> get_labels u y = ls /\ is_default u y = Ok isd) -> plain_members ms = map snd cs ->
  cases_idl g tabs u disc ms = Ok (cases_text (case_name g) tabs ks).
Proof.
  intros name root p x g tabs u disc cs ks ms H. revert ms. induction H as [|[[ls isd] [y mt]] [Lt m] cs ks (Sn & Ls & Fs & HL) H IH]; intros ms CF A M.
  - destruct ms; [reflexivity|discriminate M].
  - destruct ms as [|[[y' o] mt'] ms]; [discriminate M|]. cbn [plain_members map m_name m_type fst snd] in M. injection M as -> -> M. cbn [fst snd] in *. subst m Lt.
    destruct (A ls isd y mt (or_introl eq_refl)) as [GL GD]. cbn [cases_idl m_name m_type fst snd]. rewrite GL, GD.
    destruct (CF _ (or_introl eq_refl)) as (_ & _ & LF & _).
    assert (ND : Forall (fun L => L <> "default") Ls).
    { clear - HL LF. induction HL as [|l L ls Ls E HL IH]; constructor; [eapply label_not_default; [apply LF; left; reflexivity|exact E]|apply IH; intros; apply LF; right; assumption]. }
    rewrite (labels_idl_text tabs disc ls Ls HL ND). cbn [bind]. rewrite (IH ms); [|intros; apply CF; right; assumption|intros; eapply A; right; eassumption|exact M]. cbn [bind]. f_equal.
    cbn [cases_text]. unfold case_text. cbn [fst snd]. rewrite labels_text_app, case_idl_core. destruct isd; cbn [labels_text]; rewrite ?app_assoc_s; reflexivity.
Qed.
Lemma union_idl_text : forall name root p x g tabs nm disc cs ks u, Forall2 (printed disc) cs ks -> (forall k, In k cs -> case_fits name root p x disc k /\ case_sorted disc k) -> union_of x disc cs = Ok u ->
  union_idl g tabs nm u = Ok (indent tabs ++ union_core (case_name g) tabs nm disc ks ++ ";" ++ NL).
Proof.
  intros name root p x g tabs nm disc cs ks u PR CF U. assert (B : built disc x cs u).
  { apply union_built_of; [|exact U]. intros ls isd [y mt] I. destruct (CF _ I) as ((_ & _ & LF & _) & So). split; [|exact So]. intros l Il. eapply label_small, LF, Il. }
  pose proof B as [(s & ms & labels & d & Eu & _ & PM & _) _ _ _]. assert (CI : cases_idl g tabs u disc ms = Ok (cases_text (case_name g) tabs ks)).
  { apply (cases_idl_text name root p x g tabs u disc cs ks ms PR); [intros k I; apply CF, I| |exact PM]. intros ls isd y mt I. destruct (CF _ I) as (_ & So & _). eapply built_answers; eauto. }
  unfold union_idl. rewrite Eu at 1. rewrite CI. cbn [bind]. f_equal. unfold union_core. unfold case_name at 2. rewrite <- type_idl_false, !app_assoc_s. reflexivity.
Qed.
