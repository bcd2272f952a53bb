(** Theorems about the declarations of an IDL text as a user writes them: C45, C48, C49. *)
From Verif Require Import Base Types TypeBuild Compat Mem MemSpec OpsSpec ValueSpec DataSpec Hash MapOps Ops Module ModuleSpec ModuleFacts NumSpec IntSpec IntOps IdlLit IdlLitFacts IdlExpr IdlSpec DepTree Peg0 Grammar Peg PegRules IdlParse IdlParseFacts GenIdl GenSpec TypeText StructText StructRead GrowFacts DocFacts GenStruct AliasText EnumFacts EnumText GenText ModuleText ExprSpec ConstText DocSpec DocText BlankSpec FreeSpec TokenFacts FreeText FreeStruct FreeDecl DeclSpec DeclText PropParse PropGen PropExpr PropIdl PropModule PropDoc PropBlank EnumSpec.
From Verif Require Import GapSpec GapText.
Local Open Scope string_scope.

(** ** C49: whole documents *)
(** A document as a user writes it: structs whose members are written with any spelling of the basic types, with bounds
    and dimensions given by numbers or constants, with several declarators, with a parent; typedefs; enumerations;
    constants given by expressions; unions in the generator's layout; modules nested to any depth.  parse does to the
    module exactly what the calls of the API do that make these declarations, one after the other. *)
Theorem C49_document_partial : forall fc flt flit c w l root root', usual c -> no_nulls root -> ident_symbols root -> l <> [] -> gap w ->
  say fc [] l root root' -> parses fc flt flit c (w ++ row_text l) root (Ok (true, root')).
Proof.
  intros fc flt flit c w l root root' U N IS NE W S. destruct (say_reads fc flt flit c U [] l root root' S (conj N IS) eq_refl) as [_ Se].
  rewrite <- (app_nil_s (row_text l)), row_in_row. exact (document_reads fc flt flit c w l root root' NE W Se).
Qed.
(** The same in any layout (C50). *)
Theorem C49_any_layout_partial : forall fc flt flit c w l root root' text, usual c -> no_nulls root -> ident_symbols root -> l <> [] -> gap w ->
  say fc [] l root root' -> same_but_blanks (w ++ row_text l) text -> labels_without_blanks (w ++ row_text l) -> labels_without_blanks text ->
  parses fc flt flit c text root (Ok (true, root')).
Proof. intros fc flt flit c w l root root' text U N IS NE W S B T T'. apply (C50_layout_partial fc flt flit c root _ text _ B T T'). eapply C49_document_partial; eassumption. Qed.

(** ** C49: structs *)
(** The members of a struct: name and type, in order. *)
Definition member_list (t : ty) : list (string * ty) := match t with TStruct _ _ l => map (fun m => (m_name m, m_type m)) l | _ => [] end.
Definition is_struct (t : ty) : bool := match t with TStruct _ _ _ => true | _ => false end.
Lemma found_member : forall y l m, find_member y l = Some m -> In m l /\ m_name m = y.
Proof. intros y. induction l as [|a l IH]; intros m H; [discriminate H|]. cbn [find_member] in H. destruct (String.eqb_spec y (m_name a)) as [->|]; [injection H as <-; split; [left; reflexivity|reflexivity]|]. destruct (IH m H). split; [right; assumption|assumption]. Qed.
Lemma struct_of_exact : forall x bt ms, match bt with Some b => is_struct b = true | None => True end ->
  NoDup (map fst ((match bt with Some b => member_list b | None => [] end) ++ ms)) ->
  exists t, struct_of x bt ms = Ok t /\ (exists s l, t = TStruct x s l) /\ member_list t = ((match bt with Some b => member_list b | None => [] end) ++ ms)%list.
Proof.
  intros x bt ms IS ND. assert (G : forall ms s l, NoDup (map fst (map (fun m => (m_name m, m_type m)) l ++ ms)) ->
    exists t, add_members (TStruct x s l) ms = Ok t /\ (exists s l, t = TStruct x s l) /\ member_list t = (map (fun m => (m_name m, m_type m)) l ++ ms)%list).
  { clear. induction ms as [|[y mt] ms IH]; intros s l ND.
    - eexists. split; [reflexivity|]. split; [eauto|]. cbn [member_list]. rewrite app_nil_r. reflexivity.
    - cbn [add_members add_member]. destruct (has_member y l) eqn:H.
      + exfalso. unfold has_member in H. destruct (find_member y l) as [m|] eqn:F; [|discriminate H]. apply found_member in F as [I Q].
        rewrite map_app in ND. cbn [map fst] in ND. apply NoDup_remove_2 in ND. apply ND, in_or_app. left. rewrite map_map. apply in_map_iff. exists m. split; [exact Q|exact I].
      + destruct (IH (s + msize mt)%N (l ++ [(y, s, mt)])%list) as (t & A & B & C).
        * rewrite (map_app _ l), <- app_assoc. exact ND.
        * exists t. split; [exact A|]. split; [exact B|]. rewrite C, (map_app _ l), <- app_assoc. reflexivity. }
  destruct bt as [[]|]; try discriminate IS; unfold struct_of; cbn [struct_new bind member_list] in *; apply G; exact ND.
Qed.
(** struct x : parent { members };  declares x with the members of the parent and then those of the text, in order and with
    the types the text says, where names mean what they mean in the module. *)
Theorem C49_struct_partial : forall fc flt flit c root x pn bt body ms, usual c -> no_nulls root -> idents_only root [] ->
  free_name x = true -> declares root x [] = false -> body_says (types_for root [] x) (sizes_for root [] x) body ms -> Forall (fun m => fresh_member root [] x (fst m)) ms ->
  base_named root [] x pn bt -> match bt with Some b => is_struct b = true | None => True end -> NoDup (map fst ((match bt with Some b => member_list b | None => [] end) ++ ms)) ->
  exists root' t, parses fc flt flit c (struct_text x pn body ++ ";") root (Ok (true, root')) /\ call_register Structs t false root [] = Ok (true, root') /\
    names_struct root' [] x t /\ member_list t = ((match bt with Some b => member_list b | None => [] end) ++ ms)%list.
Proof.
  intros fc flt flit c root x pn bt body ms U N IO FN D M FM BN IS ND. destruct (struct_of_exact x bt ms IS ND) as (t & S & TS & ML).
  assert (ND' : NoDup (map fst ms)) by (rewrite map_app in ND; clear - ND; induction (map fst (match bt with Some b => member_list b | None => [] end)) as [|a l IH]; [exact ND|]; apply IH; inversion ND; assumption).
  destruct (free_struct_sentence fc flt flit c [] root x pn bt body ms t U eq_refl N IO FN D M FM ND' BN S) as (root' & R & Se). exists root', t. split; [|split; [exact R|split; [|exact ML]]].
  - pose proof (document_reads fc flt flit c "" [(struct_text x pn body, "")] root root') as DR. cbn [in_row] in DR. apply DR; [discriminate|blanks|]. econstructor; [exact Se|blanks|constructor].
  - destruct (struct_of_members _ _ _ _ S) as [T _]. eapply registered_struct; [reflexivity|apply free_name_ident, FN|exact T|exact TS|apply declares_structs; [reflexivity|exact D]|exact R].
Qed.

(** ** C49: typedefs and enumerations *)
(** typedef type x dimensions;  declares the alias x of the type the text says. *)
Theorem C49_typedef_partial : forall fc flt flit c root x s t ds, usual c -> no_nulls root -> idents_only root [] -> plain_name x = true -> has_symbol root [] x = false ->
  type_says (names_type root []) (names_size root []) s t -> Forall (fun d => d < 2 ^ 31)%N ds ->
  exists root', parses fc flt flit c (typedef_text s x (dims_idl ds) ++ ";") root (Ok (true, root')) /\ call_create_alias None (array_of t ds) x root [] = Ok (true, root') /\
    names_type root' [] x (TAlias x (array_of t ds)).
Proof.
  intros fc flt flit c root x s t ds U N IO PN D H L. destruct (free_alias_sentence fc flt flit c [] root x s t ds U eq_refl IO PN D H L) as (root' & R & Se). exists root'. split; [|split; [exact R|]].
  - pose proof (document_reads fc flt flit c "" [(typedef_text s x (dims_idl ds), "")] root root') as DR. cbn [in_row] in DR. apply DR; [discriminate|blanks|]. econstructor; [exact Se|blanks|constructor].
  - pose proof (plain_name_ident _ PN) as I. unfold call_create_alias, on_tables in R. cbn [mod_at found] in R. destruct (create_alias false (scope []) (array_of t ds) x (m_tab root)) as [b tab] eqn:CA. cbn [bind rev at_module fst snd] in R.
    unfold create_alias in CA. rewrite (ident_split x I) in CA. destruct (mem x (aliases (m_tab root))) eqn:M; [injection CA as <- <-; injection R as R; discriminate R|]. injection CA as <- <-. injection R as <-.
    apply type_here; [destruct root; reflexivity|exact I|]. destruct root as [nm tb inn]. unfold tab_at. cbn [mod_at m_tab snd fst]. unfold type_in. cbn [set_aliases aliases]. rewrite (mem_emplace _ _ _ _ M). reflexivity.
Qed.
(** enum x { names };  declares the enumeration x, whose enumerators are those names, numbered from 0. *)
Theorem C49_enum_partial : forall fc flt flit c root x l, is_ident x = true -> declares root x [] = false -> l <> [] -> Forall (fun e => is_ident e = true) l -> NoDup l -> (N.of_nat (List.length l) <= 2 ^ 32)%N ->
  exists vals root', counted l vals /\ parses fc flt flit c (enum_text x l ++ ";" ++ NL) root (Ok (true, root')) /\ names_type root' [] x (TEnum x 4 vals).
Proof.
  intros fc flt flit c root x l I D NE Il ND L. destruct (emplaced_spec (numbers 0 l) []) as [So A]; [rewrite numbers_names; exact ND|reflexivity|exact Logic.I|]. set (vals := emplaced (numbers 0 l) []) in *.
  assert (C : counted l vals).
  { split; [exact So|]. intros e v. rewrite <- (N.sub_0_r v) at 2. assert (X : In (e, v) vals <-> assoc e vals = Some v) by (split; [apply in_assoc, sorted_names_nodup, So|apply assoc_in]). rewrite X, A. cbn [assoc].
    assert (Y : In (e, v) (numbers 0 l) <-> assoc e (numbers 0 l) = Some v) by (split; [apply in_assoc; rewrite numbers_names; exact ND|apply assoc_in]). rewrite numbers_in in Y.
    split; [intros H; apply Y; destruct (assoc e (numbers 0 l)); congruence|]. intros H. assert (Z : assoc e (numbers 0 l) = Some v) by (apply Y; split; [lia|exact H]). rewrite Z. reflexivity. }
  destruct (C39_enum_partial fc flt flit c root x vals I D) as (root1 & root' & _ & _ & P & T).
  - intros E. destruct l as [|e l]; [congruence|]. destruct C as [_ C]. rewrite E in C. apply (proj2 (C e 0%N)). reflexivity.
  - eapply counted_idents; eassumption.
  - exact So.
  - rewrite (sort_counted _ _ C). apply numbers_numbered.
  - rewrite <- sort_length, (sort_counted _ _ C), numbers_length. exact L.
  - exists vals, root'. split; [exact C|]. split; [|exact T]. rewrite enum_idl_text in P. cbn [indent append] in P. rewrite (enum_text_core _ _ _ C). exact P.
Qed.

(** ** C48: a bound or a dimension is the value of its number or of its constant *)
Theorem C48_size_partial : forall fc flt flit c root x s b, usual c -> no_nulls root -> idents_only root [] ->
  free_name x = true -> declares root x [] = false -> Forall (fun y => fresh_member root [] x y) ["aa"; "bb"; "cc"; "dd"] ->
  (b < 2 ^ 31)%N -> (s = to_string b \/ exists abs qs y, s = render abs qs y /\ ident_path qs y /\ names_size root [] s b /\ not_hidden [] x s) ->
  exists root' t, parses fc flt flit c ("struct " ++ x ++ " { string<" ++ s ++ "> aa; sequence<long, " ++ s ++ "> bb; map<long, long, " ++ s ++ "> cc; long dd[" ++ s ++ "]; };") root (Ok (true, root')) /\
    names_struct root' [] x t /\ member_list t = [("aa", TStr SK8 b); ("bb", TSeq (TPrim PI32) b); ("cc", TMap (TPrim PI32) (TPrim PI32) b); ("dd", mk_array (TPrim PI32) b)].
Proof.
  intros fc flt flit c root x s b U N IO FN D FM B H. set (T := types_for root [] x). set (K := sizes_for root [] x).
  assert (SZ : forall top, (b < top)%N -> size_says K top s b).
  { intros top L. destruct H as [->|(abs & qs & y & -> & IP & NS & NH)]; [apply size_number, L|]. apply size_constant; [exact L|exact IP|split; assumption]. }
  assert (LG : type_says T K "long" (TPrim PI32)) by (apply ts_base; cbn; tauto). assert (B32 : (b < 2 ^ 32)%N) by lia.
  assert (M : members_say T K (("string<" ++ s ++ ">") ++ " " ++ ("aa" ++ "") ++ ";" ++ " " ++ ("sequence<" ++ "long" ++ ", " ++ s ++ ">") ++ " " ++ ("bb" ++ "") ++ ";" ++ " " ++
      ("map<" ++ "long" ++ ", " ++ "long" ++ ", " ++ s ++ ">") ++ " " ++ ("cc" ++ "") ++ ";" ++ " " ++ "long" ++ " " ++ ("dd" ++ ("[" ++ s ++ "]" ++ "")) ++ ";" ++ " " ++ "")
    (map (fun x => (fst x, array_of (TStr SK8 b) (snd x))) [("aa", [])] ++ map (fun x => (fst x, array_of (TSeq (TPrim PI32) b) (snd x))) [("bb", [])] ++
     map (fun x => (fst x, array_of (TMap (TPrim PI32) (TPrim PI32) b) (snd x))) [("cc", [])] ++ map (fun x => (fst x, array_of (TPrim PI32) (snd x))) [("dd", [b])] ++ [])).
  { repeat (apply members_more; [first [exact LG|apply ts_string_of, SZ, B|apply ts_sequence_of; [exact LG|apply SZ, B32]|apply ts_map_of; [exact LG|exact LG|apply SZ, B32]]
      |apply names_one; first [apply dims_none|apply dims_more; [apply SZ, B32|apply dims_none]]|exact gap_space|]). apply members_none. }
  destruct (C49_struct_partial fc flt flit c root x None None _ _ U N IO FN D (plain_body _ _ _ _ M)) as (root' & t & P & _ & NS & ML); [|reflexivity|exact Logic.I| |].
  - cbn [map app fst]. rewrite !Forall_cons_iff in FM. destruct FM as (F1 & F2 & F3 & F4 & _). repeat (constructor; [assumption|]). constructor.
  - cbn [map app fst]. repeat constructor; cbn; intuition discriminate.
  - exists root', t. split; [|split; [exact NS|exact ML]]. unfold struct_text in P. rewrite !app_assoc_s in P. exact P.
Qed.

(** ** C45: identifiers *)
(** Every reserved word is refused as the name of a struct, and every other identifier is accepted (one that begins with an
    underscore stands for the rest of it). *)
Theorem C45_reserved : forall fc flt flit root k, In k reserved -> parses fc flt flit default_ctx ("struct " ++ k ++ " { long a; };") root (Fail Throw).
Proof. intros fc flt flit root k H. unfold reserved in H. repeat (destruct H as [<-|H]; [eapply (parses_at _ _ _ _ _ _ 600); [vm_compute; reflexivity|discriminate]|]). destruct H. Qed.
Theorem C45_accepted : forall fc flt flit c root x, usual c -> no_nulls root -> idents_only root [] -> free_name x = true -> declares root x [] = false -> fresh_member root [] x "a" ->
  exists root' t, parses fc flt flit c ("struct " ++ x ++ " { long a; };") root (Ok (true, root')) /\ names_struct root' [] x t /\ member_list t = [("a", TPrim PI32)].
Proof.
  intros fc flt flit c root x U N IO FN D FM.
  assert (M : members_say (types_for root [] x) (sizes_for root [] x) ("long" ++ " " ++ ("a" ++ "") ++ ";" ++ " " ++ "") (map (fun x => (fst x, array_of (TPrim PI32) (snd x))) [("a", [])] ++ [])).
  { apply members_more; [apply ts_base; cbn; tauto|apply names_one, dims_none|exact gap_space|apply members_none]. }
  destruct (C49_struct_partial fc flt flit c root x None None _ _ U N IO FN D (plain_body _ _ _ _ M)) as (root' & t & P & _ & NS & ML); [constructor; [exact FM|constructor]|reflexivity|exact Logic.I|repeat constructor; intros []|].
  exists root', t. split; [|split; [exact NS|exact ML]]. unfold struct_text in P. rewrite !app_assoc_s in P. exact P.
Qed.
(** A plain name can also be used (C45_keyword_and_digit_refuted shows why it must be plain): the second struct has a
    member of the type that the first one declares. *)
Theorem C45_used_partial : forall fc flt flit c root x y, usual c -> no_nulls root -> ident_symbols root -> plain_name x = true -> free_name y = true -> x <> y ->
  declares root x [] = false -> declares root y [] = false -> fresh_member root [] x "a" -> fresh_member root [] x "b" -> fresh_member root [] y "b" ->
  exists root' tx ty, parses fc flt flit c ("struct " ++ x ++ " { long a; }; struct " ++ y ++ " { " ++ x ++ " b; };") root (Ok (true, root')) /\
    names_struct root' [] y ty /\ member_list ty = [("b", tx)] /\ tname tx = x /\ member_list tx = [("a", TPrim PI32)].
Proof.
  intros fc flt flit c root x y U N IS PN FY XY Dx Dy Fa Fbx Fb. pose proof (plain_free _ PN) as FX. pose proof (free_name_ident _ FX) as Ix. pose proof (tidy_idents _ [] IS) as IO.
  set (tx := TStruct x 4 [("a", 0%N, TPrim PI32)]). set (tz := TStruct y 4 [("b", 0%N, tx)]).
  assert (Mx : forall T K, members_say T K "long a; " [("a", TPrim PI32)]).
  { intros T K. refine (members_more T K "long" (TPrim PI32) ("a" ++ "") [("a", [])] " " "" [] (ts_base _ _ "long" PI32 _) (names_one _ _ _ _ (dims_none _ _)) gap_space (members_none _ _)). cbn. tauto. }
  destruct (free_struct_sentence fc flt flit c [] root x None None "long a; " [("a", TPrim PI32)] tx U eq_refl N IO FX Dx (plain_body _ _ _ _ (Mx _ _))) as (root1 & R1 & _); [constructor; [exact Fa|constructor]|repeat constructor; intros []|reflexivity|reflexivity|].
  pose proof (declares_structs root x [] eq_refl Dx) as MS. pose proof R1 as R1'. rewrite (register_new root [] x tx eq_refl Ix eq_refl MS) in R1'. destruct (with_tables root [] _) as [r|] eqn:W; [|discriminate R1']. injection R1' as ->.
  pose proof (grows_structs root [] _ _ _ eq_refl Dx W) as G. destruct (with_tables_here root [] _ _ eq_refl W) as [Tb E1].
  assert (NT : names_type root1 [] x tx).
  { apply type_here; [exact E1|exact Ix|]. rewrite Tb. unfold type_in. cbn [set_structs aliases unions structs]. unfold declares, has_symbol_here in Dx. cbn [mod_at] in Dx. rewrite !orb_false_iff in Dx. unfold mem, tab_at in *. cbn [mod_at] in *.
    destruct (assoc x (aliases (m_tab root))) eqn:Q1; [decompose [and] Dx; congruence|]. destruct (assoc x (unions (m_tab root))) eqn:Q2; [decompose [and] Dx; congruence|]. rewrite emplace_assoc, String.eqb_refl. destruct (assoc x (structs (m_tab root))); [discriminate MS|reflexivity]. }
  assert (T1 : tidy root1).
  { unfold call_register in R1. destruct (on_tables_tidy _ _ _ _ _ _ x R1 Ix) as [A _]; [|split; assumption|exact A]. intros tab' F. injection F as F. pose proof (register_adds Structs "" tx (tab_at root [])) as Q. rewrite F in Q. exact Q. }
  assert (My : members_say (types_for root1 [] y) (sizes_for root1 [] y) (x ++ " b; ") [("b", tx)]).
  { refine (members_more _ _ x tx ("b" ++ "") [("b", [])] " " "" [] (ts_name _ _ x tx _ _) (names_one _ _ _ _ (dims_none _ _)) gap_space (members_none _ _)).
    - exists false, [], x. split; [reflexivity|]. split; [repeat constructor; exact Ix|right; apply plain_of_name, PN].
    - split; [exact NT|intros abs qs _ _; reflexivity]. }
  assert (Dy1 : declares root1 y [] = false) by (rewrite (grows_declares _ _ _ _ _ _ G (fun _ E => XY (eq_sym E))); exact Dy).
  assert (Fb1 : fresh_member root1 [] y "b"). { destruct Fb as (A & B & C). split; [exact A|]. split; [exact B|]. rewrite (grows_symbol _ _ _ _ _ _ G (proj1 (proj2 Fbx))). exact C. }
  destruct (free_struct_sentence fc flt flit c [] root1 y None None (x ++ " b; ") [("b", tx)] tz U E1 (proj1 T1) (tidy_idents _ _ (proj2 T1)) FY Dy1 (plain_body _ _ _ _ My)) as (root' & R2 & _); [constructor; [exact Fb1|constructor]|repeat constructor; intros []|reflexivity|reflexivity|].
  exists root', tx, tz. split; [|split; [|split; [reflexivity|split; reflexivity]]].
  - set (row := [(struct_text x None "long a; ", " "); (struct_text y None (x ++ " b; "), "")]).
    assert (Q : "struct " ++ x ++ " { long a; }; struct " ++ y ++ " { " ++ x ++ " b; };" = "" ++ row_text row) by (unfold row; cbn [row_text]; unfold struct_text; rewrite !app_assoc_s; reflexivity).
    rewrite Q. apply C49_document_partial; [exact U|exact N|exact IS|discriminate|blanks|].
    apply say_more with root1; [|blanks|].
    + apply (say_struct fc [] x None None "long a; " [("a", TPrim PI32)] tx root root1); [exact FX|exact Dx|apply plain_body, Mx|constructor; [exact Fa|constructor]|repeat constructor; intros []|reflexivity|reflexivity|exact R1].
    + apply say_more with root'; [|blanks|constructor].
      apply (say_struct fc [] y None None (x ++ " b; ") [("b", tx)] tz root1 root'); [exact FY|exact Dy1|apply plain_body, My|constructor; [exact Fb1|constructor]|repeat constructor; intros []|reflexivity|reflexivity|exact R2].
  - eapply registered_struct; [exact E1|apply free_name_ident, FY|reflexivity|eexists _, _; reflexivity|apply declares_structs; [exact E1|exact Dy1]|exact R2].
Qed.
Lemma fresh_root : forall q y, declares root_module y q = false.
Proof.
  intros q y. unfold declares. destruct (mod_at root_module q) as [m|] eqn:M; [|reflexivity]. assert (X : m = root_module); [|subst m; reflexivity]. revert m M. induction q as [|a q IH]; intros m M; cbn [mod_at] in M; [congruence|].
  destruct (mod_at root_module q) as [m0|]; [|discriminate M]. rewrite (IH m0 eq_refl) in M. discriminate M.
Qed.
Lemma fresh_symbols : ident_symbols root_module.
Proof. intros q y D. rewrite fresh_root in D. discriminate D. Qed.
Example C45_nontrivial : usual default_ctx /\ no_nulls root_module /\ ident_symbols root_module /\ plain_name "longitude" = true /\ free_name "float2" = true /\
  declares root_module "longitude" [] = false /\ declares root_module "float2" [] = false /\ fresh_member root_module [] "longitude" "a" /\ fresh_member root_module [] "longitude" "b" /\ fresh_member root_module [] "float2" "b".
Proof. split; [repeat split|]. split; [apply flat_no_nulls|]. split; [exact fresh_symbols|]. repeat split; try reflexivity; discriminate. Qed.

(** ** An example *)
Definition de_N : data := ex_int PI32 5.
Definition de_r1 : modl := snd (get (true, root_module) (call_create_constant keep "N" de_N false false root_module [])).
Definition de_r2 : modl := dc_enter "M" [] de_r1.
Definition de_vals : list (string * N) := [("Blue", 2%N); ("Green", 0%N); ("Red", 1%N)].
Definition de_E : ty := TEnum "E" 4 de_vals.
Definition de_r3 : modl := get root_module (declare_enumerators keep ["M"] (numbers 0 ["Green"; "Red"; "Blue"]) de_r2).
Definition de_r4 : modl := snd (get (true, root_module) (call_register Enums de_E false de_r3 ["M"])).
Definition de_E' : ty := TEnum "M::E" 4 de_vals.
Definition de_ms : list (string * ty) := [("a", TPrim PU64); ("b", array_of (TPrim PU64) [5; 2]%N); ("c", TSeq de_E' 5); ("d", TStr SK8 7); ("e", TMap (TPrim PC8) de_E' 0)].
Definition de_A : ty := get de_E (struct_of "A" None de_ms).
Definition de_r5 : modl := snd (get (true, root_module) (call_register Structs de_A false de_r4 ["M"])).
Definition de_A' : ty := rename de_A "M::A".
Definition de_T : ty := array_of (TSeq de_A' 0) [6; 4]%N.
Definition de_r6 : modl := snd (get (true, root_module) (call_create_alias None de_T "T" de_r5 ["M"])).
Definition de_B : ty := get de_E (struct_of "int99" (Some de_A') [("t", TAlias "M::T" de_T); ("w", TPrim PWC)]).
Definition de_r7 : modl := snd (get (true, root_module) (call_register Structs de_B false de_r6 [])).
Definition de_row : list (string * string) :=
  [("const long N = 2 + 3", NL);
   ("module " ++ "M" ++ " {" ++ NL ++ row_text [(enum_text "E" ["Green"; "Red"; "Blue"], NL);
      (struct_text "A" None "unsigned long long a, b[N][2]; sequence<E, N> c; string<7> d; map<char, M::E> e; ", " ");
      (typedef_text "sequence<M::A>" "T" "[6][4]", NL)] ++ "}", NL);
   (struct_text "int99" (Some "M::A") "M::T t; wchar w; ", NL)].
Example C49_text : row_text de_row = "const long N = 2 + 3;" ++ NL ++ "module M {" ++ NL ++ "enum E" ++ NL ++ "{" ++ NL ++ "    Green," ++ NL ++ "    Red," ++ NL ++ "    Blue" ++ NL ++ "};" ++ NL ++
  "struct A { unsigned long long a, b[N][2]; sequence<E, N> c; string<7> d; map<char, M::E> e; }; typedef sequence<M::A> T[6][4];" ++ NL ++ "};" ++ NL ++ "struct int99 : M::A { M::T t; wchar w; };" ++ NL.
Proof. reflexivity. Qed.
Lemma de_stored : exists d, const_entry de_r1 [] "N" = Some d /\ is_int d PI32 5.
Proof.
  assert (Hd : is_int de_N PI32 5) by (apply ex_is_int; [reflexivity|unfold fits, least, greatest, width; cbn; lia]). pose proof Hd as (Ht & bs & Hh & Hnum).
  destruct (C32_create_constant_partial keep "N" de_N (VBytes bs) false false root_module [] (flat_no_nulls _ _) eq_refl) as (b & root2 & E & Hb & Hnew & _).
  - intros q y. unfold tab_at. pose proof (fresh_root q y) as F. unfold declares, has_symbol_here in F. destruct (mod_at root_module q) as [m|] eqn:M; [|reflexivity].
    assert (X : m = root_module); [|subst m; reflexivity]. clear F. revert m M. induction q as [|a q IH]; intros m M; cbn [mod_at] in M; [congruence|]. destruct (mod_at root_module q) as [m0|]; [|discriminate M]. rewrite (IH m0 eq_refl) in M. discriminate M.
  - apply is_ident_name. reflexivity.
  - exact Hh.
  - rewrite Ht. exact Logic.I.
  - rewrite Ht. exact Logic.I.
  - unfold de_r1. rewrite E. cbn [get snd]. destruct (Hnew (proj2 Hb (or_intror eq_refl))) as (d' & Ed & Td & Hd'). exists d'. split; [exact Ed|]. split; [congruence|]. exists bs. split; [exact Hd'|exact Hnum].
Qed.
Example C49_nontrivial : say keep [] de_row root_module de_r7 /\ no_nulls root_module /\ ident_symbols root_module /\
  option_map member_list (assoc "int99" (structs (tab_at de_r7 []))) = Some (de_ms ++ [("t", TAlias "M::T" de_T); ("w", TPrim PWC)])%list.
Proof.
  split; [|split; [apply flat_no_nulls|split; [exact fresh_symbols|vm_compute; reflexivity]]].
  assert (PE : plain_scoped "E") by (exists false, [], "E"; split; [reflexivity|]; split; [repeat constructor|right; reflexivity]).
  assert (PA : plain_scoped "M::A") by (exists false, ["M"], "A"; split; [reflexivity|]; split; [repeat constructor|right; reflexivity]).
  assert (PME : plain_scoped "M::E") by (exists false, ["M"], "E"; split; [reflexivity|]; split; [repeat constructor|right; reflexivity]).
  assert (PT : plain_scoped "M::T") by (exists false, ["M"], "T"; split; [reflexivity|]; split; [repeat constructor|right; reflexivity]).
  assert (L2 : literal "2" 10 2) by (apply (decimal_literal "2"); reflexivity). assert (L3 : literal "3" 10 3) by (apply (decimal_literal "3"); reflexivity).
  assert (Hf : forall z, (-2000 <= z <= 2000)%Z -> fits PI32 z) by (intros z Hz; unfold fits, least, greatest, width; cbn; lia).
  assert (BN : forall T K x q, existsb (fun e => String.eqb x (fst e) && prim_eqb q (snd e)) base_names = true -> type_says T K x (TPrim q)).
  { intros T K x q H. apply existsb_exists in H as ([y r] & H & Q). apply andb_true_iff in Q as [Q Q']. apply String.eqb_eq in Q. cbn [fst snd] in *. subst y. assert (r = q) by (destruct r, q; try discriminate Q'; reflexivity). subst r. apply ts_base, H. }
  unfold de_row. apply say_more with de_r1; [|blanks|].
  { apply (say_const keep [] PI32 "long" "N" (EBin Add (ELit "2" "") (ELit "3" "")) [KLit "2" ""; KOp Add; KLit "3" ""] "2 + 3" (fun _ => None) 5%Z de_N); [reflexivity|apply TextSpec.cs_int; [reflexivity|right; split; [cbn; tauto|split; [discriminate|reflexivity]]]|reflexivity| | |intros ? ? Q; discriminate Q| | | | |vm_compute; reflexivity].
    - unfold idl_expr. apply (derives_up 4); [cbn; lia|]. refine (de_bin Add _ _ [_] [_] _ _); [apply (derives_up 3); [cbn; lia|apply de_lit]|apply (derives_up 2); [cbn; lia|apply de_lit]].
    - refine (to_more _ "2" " " _ _ (tt_lit _ _ _ L2) eq_refl _). refine (to_more _ "+" " " _ _ (tt_op Add) eq_refl _). exact (to_one _ _ (tt_lit _ _ _ L3)).
    - change 5%Z with (math Add 2 3). apply ev_bin; [econstructor; [exact L2|exact I|apply Hf; lia]|econstructor; [exact L3|exact I|apply Hf; lia]|exact I|apply Hf; cbn; lia].
    - cbn. repeat split; auto; left; cbn; try tauto; discriminate.
    - cbn. tauto.
    - apply ex_is_int; [reflexivity|apply Hf; lia]. }
  apply say_more with de_r6; [|blanks|].
  { apply say_module with de_r2; [reflexivity|discriminate|blanks|eexists; split; [reflexivity|vm_compute; reflexivity]|].
    apply say_more with de_r4; [|blanks|].
    { apply (say_enum_plain keep ["M"] "E" ["Green"; "Red"; "Blue"] de_vals de_r2 de_r3 de_r4); [reflexivity|discriminate|repeat constructor|repeat constructor; cbn; intuition discriminate|cbn; lia| |vm_compute; reflexivity|vm_compute; reflexivity].
      split; [cbn; repeat constructor|]. intros e v. split.
      - cbn [de_vals In]. intros [Q|[Q|[Q|[]]]]; injection Q as <- <-; reflexivity.
      - intros H. rewrite <- (N2Nat.id v). destruct (N.to_nat v) as [|[|[|k]]]; cbn in H; try (injection H as <-; cbn; tauto). destruct k; discriminate H. }
    apply say_more with de_r5; [|blanks|].
    { apply (say_struct keep ["M"] "A" None None _ de_ms de_A de_r4 de_r5); [reflexivity|vm_compute; reflexivity| | |repeat constructor; cbn; intuition discriminate|reflexivity|vm_compute; reflexivity|vm_compute; reflexivity].
      - set (T := types_for de_r4 ["M"] "A"). set (K := sizes_for de_r4 ["M"] "A").
        assert (SN : size_says K (2 ^ 32) "N" 5%N).
        { apply (size_constant K (2 ^ 32) false [] "N" 5%N); [reflexivity|repeat constructor|]. split; [|apply other_end; discriminate]. destruct de_stored as (d & Ed & Hd). exists 9%nat, d, PI32. split; [|split; [reflexivity|exact Hd]]. rewrite <- Ed. vm_compute. reflexivity. }
        assert (TE : type_says T K "E" de_E'). { apply ts_name; [exact PE|]. split; [exists 9%nat; vm_compute; reflexivity|apply other_end; discriminate]. }
        assert (TME : type_says T K "M::E" de_E'). { apply ts_name; [exact PME|]. split; [exists 9%nat; vm_compute; reflexivity|apply other_end; discriminate]. }
        apply plain_body. refine (members_more T K "unsigned long long" (TPrim PU64) ("a" ++ "" ++ "," ++ " " ++ "b" ++ ("[" ++ "N" ++ "]" ++ ("[" ++ to_string 2 ++ "]" ++ ""))) [("a", []); ("b", [5; 2]%N)] " " _ _ (BN _ _ "unsigned long long" PU64 eq_refl) _ gap_space _).
        { apply names_more; [apply dims_none|exact gap_space|]. apply names_one. apply dims_more; [exact SN|]. apply dims_more; [apply size_number; reflexivity|apply dims_none]. }
        refine (members_more T K ("sequence<" ++ "E" ++ ", " ++ "N" ++ ">") (TSeq de_E' 5) ("c" ++ "") [("c", [])] " " _ _ (ts_sequence_of _ _ _ _ _ _ TE SN) (names_one _ _ _ _ (dims_none _ _)) gap_space _).
        refine (members_more T K ("string<" ++ to_string 7 ++ ">") (TStr SK8 7) ("d" ++ "") [("d", [])] " " _ _ (ts_string_of _ _ _ _ (size_number _ _ _ _)) (names_one _ _ _ _ (dims_none _ _)) gap_space _); [reflexivity|].
        refine (members_more T K ("map<" ++ "char" ++ ", " ++ "M::E" ++ ">") (TMap (TPrim PC8) de_E' 0) ("e" ++ "") [("e", [])] " " "" [] (ts_map _ _ _ _ _ _ (BN _ _ "char" PC8 eq_refl) TME) (names_one _ _ _ _ (dims_none _ _)) gap_space (members_none _ _)).
      - repeat constructor; try reflexivity; discriminate. }
    apply say_more with de_r6; [|blanks|constructor].
    apply (say_typedef keep ["M"] "T" "sequence<M::A>" (TSeq de_A' 0) [6; 4]%N); [reflexivity|vm_compute; reflexivity| |repeat constructor|vm_compute; reflexivity].
    apply (ts_sequence _ _ "M::A"), ts_name; [exact PA|]. exists 9%nat. vm_compute. reflexivity. }
  apply say_more with de_r7; [|blanks|constructor].
  apply (say_struct keep [] "int99" (Some "M::A") (Some de_A') _ [("t", TAlias "M::T" de_T); ("w", TPrim PWC)] de_B de_r6 de_r7); [reflexivity|vm_compute; reflexivity| | |repeat constructor; cbn; intuition discriminate| |vm_compute; reflexivity|vm_compute; reflexivity].
  - apply plain_body. refine (members_more _ _ "M::T" (TAlias "M::T" de_T) ("t" ++ "") [("t", [])] " " _ _ (ts_name _ _ _ _ PT _) (names_one _ _ _ _ (dims_none _ _)) gap_space _); [split; [exists 9%nat; vm_compute; reflexivity|intros abs qs _ _; reflexivity]|].
    refine (members_more _ _ "wchar" (TPrim PWC) ("w" ++ "") [("w", [])] " " "" [] (BN _ _ "wchar" PWC eq_refl) (names_one _ _ _ _ (dims_none _ _)) gap_space (members_none _ _)).
  - repeat constructor; try reflexivity; discriminate.
  - exists false, ["M"], "A", de_A'. split; [reflexivity|]. split; [repeat constructor|]. split; [intros abs qs _ _; reflexivity|]. split; [reflexivity|]. exists 9%nat, ["M"], "A". vm_compute. reflexivity.
Qed.
(** The size given by the constant N of the example. *)
Example C48_nontrivial : no_nulls de_r1 /\ idents_only de_r1 [] /\ declares de_r1 "A" [] = false /\ Forall (fun y => fresh_member de_r1 [] "A" y) ["aa"; "bb"; "cc"; "dd"] /\
  exists abs qs y, "N" = render abs qs y /\ ident_path qs y /\ names_size de_r1 [] "N" 5 /\ not_hidden [] "A" "N".
Proof.
  split; [|split; [|split; [vm_compute; reflexivity|split; [repeat constructor; try reflexivity; discriminate|]]]].
  - apply flat_no_nulls.
  - intros y H. assert (X : y = "N"); [|subst y; reflexivity]. assert (E : map fst (consts (m_tab de_r1)) = ["N"]) by (vm_compute; reflexivity).
    assert (E1 : structs (m_tab de_r1) = [] /\ unions (m_tab de_r1) = [] /\ aliases (m_tab de_r1) = [] /\ enums (m_tab de_r1) = [] /\ m_inner de_r1 = []) by (vm_compute; repeat split). destruct E1 as (E1 & E2 & E3 & E4 & E5).
    cbn [has_symbol mod_at] in H. unfold has_symbol_here in H. rewrite E1, E2, E3, E4, E5 in H. cbn [mem assoc orb] in H. rewrite !orb_false_r in H. unfold mem in H. destruct (assoc y (consts (m_tab de_r1))) as [d|] eqn:A; [|discriminate H].
    apply assoc_in in A. apply (in_map fst) in A. rewrite E in A. destruct A as [Q|[]]. exact (eq_sym Q).
  - exists false, [], "N". split; [reflexivity|]. split; [repeat constructor|]. split; [|intros abs qs _ _; reflexivity]. destruct de_stored as (d & Ed & Hd). exists 9%nat, d, PI32. split; [rewrite <- Ed; vm_compute; reflexivity|split; [reflexivity|exact Hd]].
Qed.

Print Assumptions C49_document_partial.
Print Assumptions C49_any_layout_partial.
Print Assumptions C49_struct_partial.
Print Assumptions C49_typedef_partial.
Print Assumptions C49_enum_partial.
Print Assumptions C48_size_partial.
Print Assumptions C45_reserved.
Print Assumptions C45_accepted.
Print Assumptions C45_used_partial.
