(** Theorems about the IDL text generated for a declaration: C39. *)
From Verif Require Import Base Types TypeBuild Compat Mem Hash MapOps Ops Module ModuleSpec ModuleFacts IntOps IdlLit IdlLitFacts DepTree Peg0 Grammar Peg PegRules IdlParse GenIdl GenSpec TypeText StructText StructRead GrowFacts DocFacts GenStruct AliasText EnumText EnumFacts GenText PropParse.
From Verif Require Import GapSpec GapText.
Local Open Scope string_scope.

Lemma no_node_name : forall b t, match t with TPrim _ | TStr _ _ | TArr _ _ _ | TSeq _ _ | TMap _ _ _ => True | _ => gname no_node b t = tname t end.
Proof. intros b t. destruct t as [pr|nm sz vals|k bd|nm c bd|c bd|k v bd|k v|nm sz ms|nm sz ms ls dv iv d|nm a]; try exact Logic.I; unfold gname; cbn [type_idl g_scope no_node g_module append andb]; try reflexivity; match goal with |- context [split_last ?s] => destruct (split_last s) as [[]|] end; reflexivity. Qed.
Lemma same_names_fit : forall name name' root p x t, (forall t, match t with TPrim _ | TStr _ _ | TArr _ _ _ | TSeq _ _ | TMap _ _ _ => True | _ => name' t = name t end) ->
  (readable name t -> readable name' t) /\ (named_in name root p t -> named_in name' root p t) /\ (unshadowed name p x t -> unshadowed name' p x t).
Proof.
  intros name name' root p x t H. induction t as [pr|nm sz vals|k bd|nm c IHc bd|c IHc bd|k IHk v IHv bd|k IHk v IHv|nm sz ms|nm sz ms ls dv iv d|nm a IHa]; cbn [readable named_in unshadowed];
    try (match goal with |- context [name' ?u] => pose proof (H u) as Q; cbn beta iota in Q; rewrite Q end); tauto.
Qed.
Lemma fits_no_node : forall root p x y t, member_fits tname root p x y t -> member_fits (member_name no_node t) root p x y t.
Proof.
  intros root p x y t [A B C D R N U]. unfold member_name. destruct (same_names_fit tname (gname no_node (is_leaf t)) root p x (array_base t)) as (X & Y & Z); [intros u; apply no_node_name|].
  constructor; auto.
Qed.
Lemma registered_struct : forall root x t root', exists_module root [] = true -> is_ident x = true -> tname t = x -> (exists s l, t = TStruct x s l) -> mem x (structs (tab_at root [])) = false ->
  call_register Structs t false root [] = Ok (true, root') -> names_struct root' [] x t.
Proof.
  intros root x t root' E I T (s & l & ->) M H. rewrite (register_new root [] x (TStruct x s l) E I T M) in H.
  destruct (with_tables _ _ _) as [r|] eqn:W; [|discriminate H]. injection H as ->. destruct (with_tables_here _ _ _ _ E W) as [Tb E']. exists 1%nat, [], x.
  apply lookup_here; [lia|exact E'|exact I|]. rewrite Tb. cbn [get_table set_structs structs]. rewrite (mem_emplace _ _ _ _ M). reflexivity.
Qed.

(** ** Structs *)
(** The text generate(StructType) gives for a struct, parsed into a module that knows the types and the parent the struct
    mentions, declares this struct: parse does what registering the struct in the module does, and afterwards
    Module::structure answers with the struct. *)
Theorem C39_struct_partial : forall fc flt flit c root x parent ms t,
  usual c -> no_nulls root -> idents_only root [] -> plain_name x = true -> declares root x [] = false ->
  (forall y mt, In (y, mt) ms -> member_fits tname root [] x y mt) -> NoDup (map fst ms) ->
  base_named root [] x (option_map tname parent) parent -> struct_of x parent ms = Ok t ->
  exists root', call_register Structs t false root [] = Ok (true, root') /\ parses fc flt flit c (generate_struct parent t) root (Ok (true, root')) /\ names_struct root' [] x t.
Proof.
  intros fc flt flit c root x parent ms t U N IO PN D M ND BN S. destruct (struct_of_members _ _ _ _ S) as [T _].
  assert (BN' : base_named root [] x (option_map (fun b => g_scope no_node b ++ tname b) parent) parent) by exact BN.
  destruct (struct_sentence fc flt flit c [] O (member_name no_node) root x _ parent ms t U eq_refl N IO PN D (fun y mt H => fits_no_node _ _ _ _ _ (M y mt H)) ND BN' S) as (root' & R & Se).
  exists root'. split; [exact R|]. split.
  - unfold generate_struct. rewrite (struct_idl_text no_node O (tname t) x parent ms t S), T. 
    pose proof (document_reads fc flt flit c "" [(struct_core (member_name no_node) O x (option_map (fun b => g_scope no_node b ++ tname b) parent) ms, NL)] root root') as DR.
    cbn [in_row] in DR. rewrite app_nil_s in DR. apply DR; [discriminate|blanks|]. econstructor; [exact Se|blanks|constructor].
  - eapply registered_struct; [reflexivity|apply plain_name_ident, PN|exact T| |apply declares_structs; [reflexivity|exact D]|exact R].
    unfold struct_of in S. destruct parent as [[]|]; cbn [struct_new bind] in S; try discriminate S; apply add_members_name in S; exact S.
Qed.

Lemma flat_no_nulls : forall n t, no_nulls (Mod n t []).
Proof.
  intros n t c p m H. assert (X : m = Mod n t []); [|subst; discriminate]. revert m H. induction p as [|a p IH]; intros m H; cbn [mod_at] in H; [congruence|].
  destruct (mod_at (Mod n t []) p) as [m0|]; [|discriminate H]. rewrite (IH m0 eq_refl) in H. discriminate H.
Qed.
(** A module that knows a struct A, an enumeration E and an alias T, and a struct B : A which mentions them. *)
Definition ex_A : ty := TStruct "A" 4 [("a", 0%N, TPrim PI32)].
Definition ex_E : ty := TEnum "E" 4 [("one", 0%N); ("two", 1%N)].
Definition ex_T : ty := TAlias "T" (TSeq ex_A 3).
Definition ex_root : modl := Mod "" (mkTables [("A", ex_A)] [] [("T", ex_T)] [("E", ex_E)] [] [] []) [].
Definition ex_members : list (string * ty) :=
  [("s", TStr SK8 5); ("q", TArr "array_2_array_3_sequence_4_A" (TArr "array_3_sequence_4_A" (TSeq ex_A 4) 3) 2); ("m", TMap (TStr SKW 0) ex_E 0); ("t", ex_T); ("longitude", TPrim PF128)].
Definition ex_struct : ty := match struct_of "B" (Some ex_A) ex_members with Ok t => t | _ => ex_A end.
Example C39_struct_text : generate_struct (Some ex_A) ex_struct =
  "struct B : A" ++ NL ++ "{" ++ NL ++ "    string<5> s;" ++ NL ++ "    sequence<A, 4> q[2][3];" ++ NL ++ "    map<wstring, E> m;" ++ NL ++ "    T t;" ++ NL ++ "    long double longitude;" ++ NL ++ "};" ++ NL.
Proof. vm_compute. reflexivity. Qed.
Example C39_struct_nontrivial : no_nulls ex_root /\ idents_only ex_root [] /\ plain_name "B" = true /\ declares ex_root "B" [] = false /\
  (forall y mt, In (y, mt) ex_members -> member_fits tname ex_root [] "B" y mt) /\ NoDup (map fst ex_members) /\
  base_named ex_root [] "B" (option_map tname (Some ex_A)) (Some ex_A) /\ struct_of "B" (Some ex_A) ex_members = Ok ex_struct.
Proof.
  assert (PS : forall x, plain x = true -> plain_scoped x).
  { intros x P. exists false, [], x. split; [reflexivity|]. split; [repeat constructor; apply plain_ident, P|right; exact P]. }
  split; [|split; [|split; [reflexivity|split; [reflexivity|split; [|split; [|split; [|vm_compute; reflexivity]]]]]]].
  - apply flat_no_nulls.
  - intros x H. cbn [has_symbol mod_at] in H. unfold has_symbol_here, mem in H. cbn in H.
    destruct (String.eqb_spec x "A") as [Q|_]; [rewrite Q; reflexivity|]. destruct (String.eqb_spec x "T") as [Q|_]; [rewrite Q; reflexivity|]. destruct (String.eqb_spec x "E") as [Q|_]; [rewrite Q; reflexivity|]. discriminate H.
  - intros y mt H. cbn [ex_members In] in H.
    repeat (destruct H as [H|H]; [injection H as <- <-; constructor;
      [reflexivity|discriminate|reflexivity|cbn; repeat split; lia|cbn; repeat split; first [discriminate|lia|apply PS; reflexivity]|cbn; repeat split; exists 9%nat; reflexivity|apply unshadowed_root]|]). destruct H.
  - repeat constructor; cbn; intuition discriminate.
  - exists false, [], "A", ex_A. repeat split; try (repeat constructor; reflexivity). exists 9%nat, [], "A". reflexivity.
Qed.

(** ** Aliases *)
Definition type_in (x : string) (tab : tables) : option ty :=
  match assoc x (aliases tab) with Some a => Some a | None => match assoc x (unions tab) with Some a => Some a | None => match assoc x (structs tab) with Some a => Some a | None => assoc x (enums tab) end end end.
Lemma type_here : forall root p x t, exists_module root p = true -> is_ident x = true -> type_in x (tab_at root p) = Some t -> names_type root p x t.
Proof.
  intros root p x t E I T. exists 1%nat. unfold type_named, resolve. cbn [resolve_scope]. unfold exists_module in E. destruct (mod_at root p) as [m|] eqn:M; [|discriminate E].
  cbn [negb andb]. rewrite (ident_split x I). assert (H : has_symbol_here m x = true).
  { unfold tab_at in T. rewrite M in T. unfold type_in in T. unfold has_symbol_here, mem.
    destruct (assoc x (aliases (m_tab m))), (assoc x (unions (m_tab m))), (assoc x (structs (m_tab m))), (assoc x (enums (m_tab m))); try discriminate T; cbn; rewrite ?orb_true_r; reflexivity. }
  rewrite H. cbn [bind type_of]. rewrite (ident_split x I). unfold type_in in T. rewrite T. reflexivity.
Qed.
Lemma symbol_declares : forall root x, has_symbol root [] x = declares root x [].
Proof. intros root x. cbn [has_symbol mod_at]. unfold declares. cbn [mod_at]. apply orb_false_r. Qed.
(** The sentence of an alias, parsed into a module that knows the types it mentions, does what create_alias does; then
    Module::type answers with the alias. *)
Theorem C39_alias_partial : forall fc flt flit c g root x t,
  usual c -> idents_only root [] -> plain_name x = true -> declares root x [] = false ->
  canonical t -> Forall (fun d => d < 2 ^ 31)%N (array_dims t) -> readable (type_idl g false) (array_base t) -> named_in (type_idl g false) root [] (array_base t) ->
  exists root', call_create_alias None t x root [] = Ok (true, root') /\ parses fc flt flit c (alias_idl g 0 x t) root (Ok (true, root')) /\ names_type root' [] x (TAlias x t).
Proof.
  intros fc flt flit c g root x t U IO PN D Cn L R N.
  destruct (alias_sentence fc flt flit c [] (gname g false) root x t U eq_refl IO PN (eq_trans (symbol_declares root x) D) Cn L R N) as (root' & CA & Se). exists root'. split; [exact CA|]. split.
  - rewrite alias_idl_text. pose proof (document_reads fc flt flit c "" [(alias_core (gname g false) x t, NL)] root root') as DR.
    cbn [in_row] in DR. rewrite app_nil_s in DR. apply DR; [discriminate|blanks|]. econstructor; [exact Se|blanks|constructor].
  - pose proof (plain_name_ident _ PN) as I. unfold call_create_alias in CA. cbn [found] in CA.
    assert (M : mem x (aliases (tab_at root [])) = false). { unfold declares, has_symbol_here in D. cbn [mod_at] in D. rewrite !orb_false_iff in D. unfold tab_at. cbn [mod_at]. tauto. }
    erewrite (on_tables_with bool root [] _ true) in CA; [|reflexivity|unfold create_alias; rewrite (ident_split x I), M; reflexivity].
    destruct (with_tables _ _ _) as [r|] eqn:W; [|discriminate CA]. injection CA as ->. destruct (with_tables_here root [] _ _ eq_refl W) as [Tb E']. apply type_here; [exact E'|exact I|].
    rewrite Tb. unfold type_in. cbn [set_aliases aliases]. rewrite (mem_emplace _ _ _ _ M). reflexivity.
Qed.
Definition ex_array : ty := TArr "array_2_array_3_sequence_4_A" (TArr "array_3_sequence_4_A" (TSeq ex_A 4) 3) 2.
Example C39_alias_text : alias_idl no_node 0 "L" ex_array = "typedef sequence<A, 4> L[2][3];" ++ NL.
Proof. reflexivity. Qed.
Example C39_alias_nontrivial : idents_only ex_root [] /\ plain_name "L" = true /\ declares ex_root "L" [] = false /\ canonical ex_array /\ Forall (fun d => d < 2 ^ 31)%N (array_dims ex_array) /\
  readable (type_idl no_node false) (array_base ex_array) /\ named_in (type_idl no_node false) ex_root [] (array_base ex_array).
Proof.
  destruct C39_struct_nontrivial as (_ & IO & _ & _ & M & _). split; [exact IO|]. split; [reflexivity|]. split; [reflexivity|].
  split; [cbn; repeat split; lia|]. split; [cbn; repeat constructor; lia|]. destruct (M "q" ex_array) as [_ _ _ _ R N _]; [right; left; reflexivity|]. split; [exact R|exact N].
Qed.

(** ** Enumerations *)
(** The sentence of an enumeration whose values are 0, 1, ... declares the enumeration, after a constant for each of its
    enumerators. *)
Theorem C39_enum_partial : forall fc flt flit c root x vals,
  is_ident x = true -> declares root x [] = false -> vals <> [] -> Forall (fun e => is_ident (fst e) = true) vals -> sorted_names vals ->
  numbered 0 (sort_by_value vals) -> (N.of_nat (List.length vals) <= 2 ^ 32)%N ->
  exists root1 root', declare_enumerators fc [] (sort_by_value vals) root = Ok root1 /\ call_register Enums (TEnum x 4 vals) false root1 [] = Ok (true, root') /\
    parses fc flt flit c (enum_idl 0 x vals) root (Ok (true, root')) /\ names_type root' [] x (TEnum x 4 vals).
Proof.
  intros fc flt flit c root x vals I D NE Iv Hs Nu L.
  destruct (enum_sentence fc flt flit c [] 0 root x vals eq_refl I NE Iv Hs Nu L) as (root1 & b & root' & DE & RG & Se). exists root1, root'. split; [exact DE|].
  assert (T1 : exists_module root1 [] = true /\ aliases (tab_at root1 []) = aliases (tab_at root []) /\ unions (tab_at root1 []) = unions (tab_at root []) /\
    structs (tab_at root1 []) = structs (tab_at root []) /\ enums (tab_at root1 []) = enums (tab_at root [])).
  { clear - DE. revert root DE. induction (sort_by_value vals) as [|[e v] es IH]; intros root DE; cbn [declare_enumerators] in DE; [injection DE as ->; auto|].
    destruct (result fc PU32 _) as [d|]; [|discriminate DE]. cbn [bind] in DE. destruct (call_create_constant fc e d false true root []) as [r|] eqn:C; [|discriminate DE]. cbn [bind] in DE.
    destruct (IH _ DE) as (X & A & B & Cc & Dd). split; [exact X|]. rewrite A, B, Cc, Dd. unfold call_create_constant, on_tables in C. cbn [mod_at] in C.
    destruct (create_constant fc e d false true (m_tab root)) as [[b tab]|] eqn:K; [|discriminate C]. cbn [bind rev at_module fst snd] in C. injection C as <-. destruct root as [nm0 tb inn]. cbn [snd m_tab].
    unfold create_constant in K. unfold tab_at. cbn [mod_at m_tab] in *. destruct (split_scope e) as [|]; [injection K as <- <-; auto|].
    cbn [andb] in K. cbn [bind] in K. destruct (mem e (const_types tb)); [injection K as <- <-; auto|]. destruct (new_data (d_type d)) as [tmp|]; [|discriminate K]. cbn [bind] in K.
    destruct (assign_data fc tmp d) as [tmp1|]; [|discriminate K]. cbn [bind] in K. destruct (mem e (consts tb)); [injection K as <- <-; auto|]. destruct (copy_data fc tmp1) as [cc|]; [|discriminate K]. cbn [bind] in K. injection K as <- <-. auto. }
  destruct T1 as (E1 & A1 & U1 & S1 & N1). unfold declares, has_symbol_here in D. cbn [mod_at] in D. rewrite !orb_false_iff in D. unfold mem in D. unfold tab_at in A1, U1, S1, N1. cbn [mod_at] in A1, U1, S1, N1.
  assert (M : mem x (enums (m_tab root1)) = false). { rewrite N1. unfold mem. destruct (assoc x (enums (m_tab root))) eqn:Q; [|reflexivity]. decompose [and] D. congruence. }
  unfold call_register in RG. erewrite (on_tables_with bool root1 [] _ true) in RG; [|exact E1|unfold register; cbn [tname]; rewrite (ident_split x I); cbn [get_table set_table]; unfold tab_at; cbn [mod_at]; rewrite M; reflexivity].
  destruct (with_tables _ _ _) as [r|] eqn:W; [|discriminate RG]. injection RG as <- ->. split; [|split].
  - unfold call_register. erewrite (on_tables_with bool root1 [] _ true); [|exact E1|unfold register; cbn [tname]; rewrite (ident_split x I); cbn [get_table set_table]; unfold tab_at; cbn [mod_at]; rewrite M; reflexivity]. rewrite W. reflexivity.
  - rewrite enum_idl_text. pose proof (document_reads fc flt flit c "" [(enum_core 0 x (sort_by_value vals), NL)] root root') as DR.
    cbn [in_row] in DR. rewrite app_nil_s in DR. apply DR; [discriminate|blanks|]. econstructor; [exact Se|blanks|constructor].
  - destruct (with_tables_here _ _ _ _ E1 W) as [Tb E']. apply type_here; [exact E'|exact I|]. rewrite Tb. unfold type_in. cbn [set_enums aliases unions structs enums]. rewrite A1, U1, S1.
    destruct (assoc x (aliases (m_tab root))) eqn:Q1; [decompose [and] D; congruence|]. destruct (assoc x (unions (m_tab root))) eqn:Q2; [decompose [and] D; congruence|]. destruct (assoc x (structs (m_tab root))) eqn:Q3; [decompose [and] D; congruence|].
    rewrite (mem_emplace _ _ _ _ M). reflexivity.
Qed.
Definition ex_vals : list (string * N) := [("Blue", 2%N); ("Green", 1%N); ("Red", 0%N)].
Example C39_enum_text : enum_idl 0 "Color" ex_vals = "enum Color" ++ NL ++ "{" ++ NL ++ "    Red," ++ NL ++ "    Green," ++ NL ++ "    Blue" ++ NL ++ "};" ++ NL.
Proof. reflexivity. Qed.
Example C39_enum_nontrivial : declares ex_root "Color" [] = false /\ Forall (fun e => is_ident (fst e) = true) ex_vals /\ sorted_names ex_vals /\ numbered 0 (sort_by_value ex_vals) /\ (N.of_nat (List.length ex_vals) <= 2 ^ 32)%N.
Proof. split; [reflexivity|]. split; [repeat constructor|]. split; [cbn; repeat constructor|]. split; [cbn; repeat split|cbn; lia]. Qed.
(** Other values are lost: the text has the names only. *)
Theorem C39_enum_values_refuted : forall fc flt flit, exists root,
  parses fc flt flit default_ctx (enum_idl 0 "E" [("a", 5%N); ("b", 9%N)]) root_module (Ok (true, root)) /\ assoc "E" (enums (tab_at root [])) = Some (TEnum "E" 4 [("a", 0%N); ("b", 1%N)]).
Proof. intros fc flt flit. eexists. split; [parsed|]. vm_compute. reflexivity. Qed.
(** An enumeration without enumerators: the text is no IDL document. *)
Theorem C39_empty_enum_refuted : forall fc flt flit, parses fc flt flit default_ctx (enum_idl 0 "E" []) root_module (Ok (false, root_module)).
Proof. intros fc flt flit. parsed. Qed.

(** ** What is lost *)
Definition one_member (x : string) (t : ty) : ty := match struct_of "S" None [(x, t)] with Ok t => t | _ => t end.
(** The dimensions of an array in a sequence are not written. *)
Theorem C39_inner_array_refuted : forall fc flt flit, exists root sz,
  parses fc flt flit default_ctx (generate_struct None (one_member "q" (TSeq (TArr "array_2_int32_t" (TPrim PI32) 2) 0))) root_module (Ok (true, root)) /\
  declared root "S" = Some (TStruct "S" sz [("q", 0%N, TSeq (TPrim PI32) 0)]).
Proof. intros fc flt flit. do 2 eexists. split; [parsed|]. vm_compute. reflexivity. Qed.
(** char16_t comes back as wchar_t, std::u16string as std::wstring. *)
Theorem C39_char16_refuted : forall fc flt flit, exists root root' sz sz',
  parses fc flt flit default_ctx (generate_struct None (one_member "c" (TPrim PC16))) root_module (Ok (true, root)) /\ declared root "S" = Some (TStruct "S" sz [("c", 0%N, TPrim PWC)]) /\
  parses fc flt flit default_ctx (generate_struct None (one_member "s" (TStr SK16 0))) root_module (Ok (true, root')) /\ declared root' "S" = Some (TStruct "S" sz' [("s", 0%N, TStr SKW 0)]).
Proof. intros fc flt flit. do 4 eexists. split; [parsed|]. split; [vm_compute; reflexivity|]. split; [parsed|]. vm_compute. reflexivity. Qed.
(** The escape underscore of a member's name is lost. *)
Theorem C39_underscore_refuted : forall fc flt flit, exists root sz,
  parses fc flt flit default_ctx (generate_struct None (one_member "_x" (TPrim PI32))) root_module (Ok (true, root)) /\ declared root "S" = Some (TStruct "S" sz [("x", 0%N, TPrim PI32)]).
Proof. intros fc flt flit. do 2 eexists. split; [parsed|]. vm_compute. reflexivity. Qed.
(** A member with the name of a declared type: parse throws. *)
Theorem C39_member_symbol_refuted : forall fc flt flit,
  parses fc flt flit default_ctx (generate_struct None (one_member "A" (TPrim PI32))) ex_root (Fail Throw).
Proof. intros fc flt flit. parsed. Qed.
(** The struct of a submodule: the text is no IDL document. *)
Theorem C39_submodule_refuted : forall fc flt flit,
  generate_struct None (TStruct "M::S" 4 [("a", 0%N, TPrim PI32)]) = "struct M::S" ++ NL ++ "{" ++ NL ++ "    int32 a;" ++ NL ++ "};" ++ NL /\
  parses fc flt flit default_ctx (generate_struct None (TStruct "M::S" 4 [("a", 0%N, TPrim PI32)])) root_module (Ok (false, root_module)).
Proof. intros fc flt flit. split; [vm_compute; reflexivity|parsed]. Qed.
(** A member named like a keyword with a digit, or a type named so: other declarations, or no IDL document (C45). *)
Theorem C39_keyword_digit_refuted : forall fc flt flit,
  parses fc flt flit default_ctx (generate_struct None (one_member "m" (TStruct "string2" 0 []))) (Mod "" (mkTables [("string2", TStruct "string2" 0 [])] [] [] [] [] [] []) []) (Ok (false, Mod "" (mkTables [("string2", TStruct "string2" 0 [])] [] [] [] [] [] []) [])).
Proof. intros fc flt flit. parsed. Qed.

Print Assumptions C39_struct_partial.
Print Assumptions C39_alias_partial.
Print Assumptions C39_enum_partial.
Print Assumptions C39_enum_values_refuted.
Print Assumptions C39_empty_enum_refuted.
Print Assumptions C39_inner_array_refuted.
Print Assumptions C39_char16_refuted.
Print Assumptions C39_underscore_refuted.
Print Assumptions C39_member_symbol_refuted.
Print Assumptions C39_submodule_refuted.
Print Assumptions C39_keyword_digit_refuted.
