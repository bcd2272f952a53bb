(** Theorems about forward declarations in IDL texts: C55. *)
From Verif Require Import Base Types TypeBuild Compat Mem MemSpec Hash MapOps Ops Module ModuleSpec ModuleFacts NumSpec IntSpec IntOps IdlLit IdlLitFacts IdlExpr IdlSpec Peg0 Grammar Peg PegRules IdlParse IdlParseFacts GenIdl GenSpec TypeText StructText StructRead GrowFacts DocFacts GenStruct AliasText EnumFacts EnumText GenText ModuleText ExprSpec ConstText DocSpec DocText BlankSpec FreeSpec TokenFacts FreeText FreeStruct FreeDecl DeclSpec DeclText PropParse PropModule PropGen PropDoc PropDecl.
From Verif Require Import GapSpec GapText.
Local Open Scope string_scope.

Section Values.
  Variable fc : prim -> prim -> list N -> list N.
  Variable flt : arith -> prim -> list N -> list N -> list N.
  Variable flit : prim -> string -> res (list N).
  Variable c : ctx.
  Hypothesis U : usual c.
  Notation parses := (parses fc flt flit c).

  Lemma declare_ok : forall root x, is_ident x = true -> declares root x [] = false -> exists root1, call_register Structs (TStruct x 0 []) false root [] = Ok (true, root1).
  Proof.
    intros root x I D. rewrite (register_new root [] x (TStruct x 0 []) eq_refl I eq_refl (declares_structs root x [] eq_refl D)).
    match goal with |- context [with_tables root [] ?t] => destruct (with_tables_ok root [] t eq_refl) as (r & ->) end. exists r. reflexivity.
  Qed.
  (** struct x; and union x;  make x a struct without members and change nothing else. *)
Theorem C55_declares : forall root k x, no_nulls root -> ident_symbols root -> k = "struct" \/ k = "union" -> free_name x = true -> declares root x [] = false ->
    exists root', parses (k ++ " " ++ x ++ ";") root (Ok (true, root')) /\ names_struct root' [] x (TStruct x 0 []) /\
      (forall q y t, q <> [] \/ y <> x -> (entry root' q Structs y = Some t <-> entry root q Structs y = Some t)) /\
      forall q y t, (entry root' q Unions y = Some t <-> entry root q Unions y = Some t) /\ (entry root' q Aliases y = Some t <-> entry root q Aliases y = Some t) /\ (entry root' q Enums y = Some t <-> entry root q Enums y = Some t).
  Proof.
    intros root k x N IS K FN D. pose proof (free_name_ident _ FN) as I. destruct (declare_ok root x I D) as (root' & C). exists root'.
    assert (H : has_symbol root [] x = false) by (rewrite symbol_declares; exact D).
    assert (S : says fc [] (k ++ " " ++ x) root root') by (apply say_forward; assumption).
    split; [|split].
    - pose proof (C49_document_partial fc flt flit c "" [(k ++ " " ++ x, "")] root root' U N IS ltac:(discriminate) gap_none) as P. cbn [row_text] in P. rewrite !app_assoc_s in P. apply P. econstructor; [exact S|blanks|constructor].
    - eapply registered_struct; [reflexivity|exact I|reflexivity|eexists _, _; reflexivity|apply declares_structs; [reflexivity|exact D]|exact C].
    - unfold call_register in C. apply on_tables_spec in C as (E & tab' & F & Rt). unfold register in F. cbn [tname] in F. rewrite (ident_split x I) in F. cbn [get_table set_table] in F. injection F as _ <-.
      assert (X : forall q, tab_at root' q = if list_eq_dec string_dec q [] then set_structs (emplace x (rename (TStruct x 0 []) (scoped (scope []) x)) (structs (tab_at root []))) (tab_at root []) else tab_at root q).
      { intros q. apply (retabled_tab _ _ _ _ _ E Rt). }
      split.
      + intros q y t Q. unfold entry. rewrite X. destruct (list_eq_dec string_dec q []) as [->|]; [|reflexivity]. cbn [get_table set_structs structs]. destruct Q as [Q|Q]; [congruence|]. rewrite emplace_assoc. destruct (String.eqb_spec y x); [congruence|reflexivity].
      + intros q y t. unfold entry. rewrite X. destruct (list_eq_dec string_dec q []) as [->|]; cbn [get_table set_structs unions aliases enums]; repeat split; auto.
  Qed.
  (** The definition of a struct does the same whether the struct was declared before or not.  A member may mention the
      struct itself, which is the struct without members then (C71_recursive_refuted). *)
Theorem C55_definition : forall root declared k w x pn bt body ms, no_nulls root -> ident_symbols root -> k = "struct" \/ k = "union" -> gap w -> free_name x = true -> declares root x [] = false ->
    parses (k ++ " " ++ x ++ ";") root (Ok (true, declared)) ->
    body_says (names_type declared []) (names_size declared []) body ms -> Forall (fun m => fresh_member root [] x (fst m)) ms -> parent_named declared [] pn bt ->
    match bt with Some b => is_struct b = true | None => True end -> NoDup (map fst ((match bt with Some b => member_list b | None => [] end) ++ ms)) ->
    exists root' t, parses (k ++ " " ++ x ++ ";" ++ w ++ struct_text x pn body ++ ";") root (Ok (true, root')) /\ parses (struct_text x pn body ++ ";") root (Ok (true, root')) /\
      parses (struct_text x pn body ++ ";") declared (Ok (true, root')) /\
      names_struct root' [] x t /\ member_list t = ((match bt with Some b => member_list b | None => [] end) ++ ms)%list.
  Proof.
    intros root declared k w x pn bt body ms N IS K W FN D P M FM PN Sb ND. pose proof (free_name_ident _ FN) as I. destruct (declare_ok root x I D) as (root1 & C).
    assert (H : has_symbol root [] x = false) by (rewrite symbol_declares; exact D).
    assert (S : says fc [] (k ++ " " ++ x) root root1) by (apply say_forward; assumption).
    assert (Q : declared = root1).
    { pose proof (C49_document_partial fc flt flit c "" [(k ++ " " ++ x, "")] root root1 U N IS ltac:(discriminate) gap_none) as P'. cbn [row_text] in P'. rewrite !app_assoc_s in P'. specialize (P' ltac:(econstructor; [exact S|blanks|constructor])).
      destruct P as (n1 & P), P' as (n2 & P'). specialize (P (Nat.max n1 n2) ltac:(lia)). specialize (P' (Nat.max n1 n2) ltac:(lia)). change (parse_idl fc flt flit (Nat.max n1 n2) c (k ++ " " ++ x ++ ";") root = Ok (true, root1)) in P'. rewrite P in P'. injection P' as ->. reflexivity. }
    subst root1. destruct (struct_of_exact x bt ms Sb ND) as (t & St & TS & ML).
    assert (ND' : NoDup (map fst ms)) by (rewrite map_app in ND; clear - ND; induction (map fst (match bt with Some b => member_list b | None => [] end)) as [|a l IH]; [exact ND|]; apply IH; inversion ND; assumption).
    destruct (free_struct_from fc flt flit c [] root declared root x pn bt body ms t U eq_refl N (tidy_idents _ _ IS) FN D C (or_introl eq_refl) M FM ND' PN St) as (root' & R & _).
    assert (S0 : forall from, from = root \/ from = declared -> says fc [] (struct_text x pn body) from root') by (intros from Fr; eapply (say_defined fc [] x pn bt body ms t root declared from root'); eassumption).
    assert (T1 : tidy declared).
    { destruct (say_reads fc flt flit c U [] [(k ++ " " ++ x, "")] root declared) as [[A _] _]; [econstructor; [exact S|blanks|constructor]|split; assumption|reflexivity|exact A]. }
    exists root', t. split; [|split; [|split; [|split; [|exact ML]]]].
    - pose proof (C49_document_partial fc flt flit c "" [(k ++ " " ++ x, w); (struct_text x pn body, "")] root root' U N IS ltac:(discriminate) gap_none) as P'. cbn [row_text] in P'. rewrite !app_assoc_s in P'. apply P'.
      econstructor; [exact S|exact W|]. econstructor; [apply S0; right; reflexivity|blanks|constructor].
    - pose proof (C49_document_partial fc flt flit c "" [(struct_text x pn body, "")] root root' U N IS ltac:(discriminate) gap_none) as P'. apply P'. econstructor; [apply S0; left; reflexivity|blanks|constructor].
    - pose proof (C49_document_partial fc flt flit c "" [(struct_text x pn body, "")] declared root' U (proj1 T1) (proj2 T1) ltac:(discriminate) gap_none) as P'. apply P'. econstructor; [apply S0; right; reflexivity|blanks|constructor].
    - destruct (struct_of_members _ _ _ _ St) as [T _]. eapply registered_struct; [reflexivity|exact I|exact T|exact TS|apply declares_structs; [reflexivity|exact D]|exact R].
  Qed.
End Values.
(** For a struct that refers to another declared before, and is declared before itself. *)
Definition fw_root : modl := Eval vm_compute in snd (get (true, root_module) (call_register Structs (TStruct "A" 4 [("n", 0%N, TPrim PI32)]) false root_module [])).
Definition fw_declared : modl := Eval vm_compute in snd (get (true, root_module) (call_register Structs (TStruct "X" 0 []) false fw_root [])).
Example C55_nontrivial : no_nulls fw_root /\ ident_symbols fw_root /\ declares fw_root "X" [] = false /\ (forall fc flt flit, parses fc flt flit default_ctx ("struct" ++ " " ++ "X" ++ ";") fw_root (Ok (true, fw_declared))) /\
  body_says (names_type fw_declared []) (names_size fw_declared []) "sequence<X> q; A a; " [("q", TSeq (TStruct "X" 0 []) 0); ("a", TStruct "A" 4 [("n", 0%N, TPrim PI32)])] /\
  Forall (fun m : string * ty => fresh_member fw_root [] "X" (fst m)) [("q", TSeq (TStruct "X" 0 []) 0); ("a", TStruct "A" 4 [("n", 0%N, TPrim PI32)])] /\
  parent_named fw_declared [] (Some "A") (Some (TStruct "A" 4 [("n", 0%N, TPrim PI32)])).
Proof.
  assert (PS : forall x, plain x = true -> plain_scoped x) by (intros x P; exists false, [], x; split; [reflexivity|]; split; [repeat constructor; apply plain_ident, P|right; exact P]).
  split; [apply flat_no_nulls|]. split; [|split; [reflexivity|split; [intros fc flt flit; parsed|split; [|split]]]].
  - intros q y H. unfold declares in H. destruct (mod_at fw_root q) as [m|] eqn:M; [|discriminate H]. assert (X : m = fw_root).
    { clear H. revert m M. induction q as [|a q IH]; intros m M; cbn [mod_at] in M; [congruence|]. destruct (mod_at fw_root q) as [m0|]; [|discriminate M]. rewrite (IH m0 eq_refl) in M. discriminate M. }
    subst m. destruct (String.eqb_spec y "A") as [Q|Q]; [rewrite Q; reflexivity|]. unfold has_symbol_here, mem in H. cbn in H. apply String.eqb_neq in Q. rewrite Q in H. discriminate H.
  - apply plain_body. refine (members_more _ _ ("sequence<" ++ "X" ++ ">") _ ("q" ++ "") [("q", [])] " " _ [("a", _)] (ts_sequence _ _ "X" _ (ts_name _ _ "X" _ _ _)) (names_one _ _ _ _ (dims_none _ _)) gap_space _); [apply PS; reflexivity|exists 9%nat; reflexivity|].
    refine (members_more _ _ "A" _ ("a" ++ "") [("a", [])] " " "" [] (ts_name _ _ "A" _ _ _) (names_one _ _ _ _ (dims_none _ _)) gap_space (members_none _ _)); [apply PS; reflexivity|exists 9%nat; reflexivity].
  - repeat constructor; try reflexivity; discriminate.
  - exists false, [], "A". eexists. split; [reflexivity|]. split; [repeat constructor|]. split; [reflexivity|]. exists 9%nat, [], "A". reflexivity.
Qed.

(** ** What a declaration is not *)
(** A struct that mentions one declared before keeps it without members, whatever its definition says later. *)
Theorem C71_used_before_refuted : forall fc flt flit, exists root sz sz',
  parses fc flt flit default_ctx "struct X; struct Y { sequence<X> b; }; struct X { long a; };" root_module (Ok (true, root)) /\
  declared root "X" = Some (TStruct "X" sz [("a", 0%N, TPrim PI32)]) /\ declared root "Y" = Some (TStruct "Y" sz' [("b", 0%N, TSeq (TStruct "X" 0 []) 0)]).
Proof. intros fc flt flit. do 3 eexists. split; [parsed|]. split; vm_compute; reflexivity. Qed.
(** A struct that mentions itself holds structs without members. *)
Theorem C71_recursive_refuted : forall fc flt flit, exists root sz,
  parses fc flt flit default_ctx "struct X { long a; sequence<X> b; };" root_module (Ok (true, root)) /\
  declared root "X" = Some (TStruct "X" sz [("a", 0%N, TPrim PI32); ("b", 4%N, TSeq (TStruct "X" 0 []) 0)]).
Proof. intros fc flt flit. do 2 eexists. split; [parsed|]. vm_compute; reflexivity. Qed.
(** A union declared before its definition is a struct, too. *)
Theorem C71_union_refuted : forall fc flt flit, exists root u,
  parses fc flt flit default_ctx "union U; union U switch (long) { case 1: long a; case 2: char b; };" root_module (Ok (true, root)) /\
  declared root "U" = Some (TStruct "U" 0 []) /\ entry root [] Unions "U" = Some u /\ List.length (members_of u) = 3%nat.
Proof. intros fc flt flit. do 2 eexists. split; [parsed|]. split; [vm_compute; reflexivity|]. split; vm_compute; reflexivity. Qed.
(** ... and a member of that type is a struct without members. *)
Theorem C71_union_used_refuted : forall fc flt flit, exists root sz,
  parses fc flt flit default_ctx "union U; struct S { U u; }; union U switch (long) { case 1: long a; case 2: char b; };" root_module (Ok (true, root)) /\
  declared root "S" = Some (TStruct "S" sz [("u", 0%N, TStruct "U" 0 [])]).
Proof. intros fc flt flit. do 2 eexists. split; [parsed|]. vm_compute; reflexivity. Qed.
(** A second declaration, or one after the definition, is refused. *)
Theorem C71_twice_refuted : forall fc flt flit, parses fc flt flit default_ctx "struct X; struct X; struct X { long a; };" root_module (Fail Throw) /\
  parses fc flt flit default_ctx "struct X { long a; }; struct X;" root_module (Fail Throw).
Proof. intros fc flt flit. split; parsed. Qed.

Print Assumptions C55_declares.
Print Assumptions C55_definition.
Print Assumptions C71_used_before_refuted.
Print Assumptions C71_recursive_refuted.
Print Assumptions C71_union_refuted.
Print Assumptions C71_union_used_refuted.
Print Assumptions C71_twice_refuted.
