(** Theorems about the IDL text generated for a union: C39. *)
From Verif Require Import Base Types TypeBuild Compat Mem Hash MapOps Ops Module ModuleSpec ModuleFacts NumSpec IntSpec IntOps IdlLit IdlLitFacts DepTree Peg0 Grammar Peg PegRules IdlParse GenIdl GenSpec TypeText StructText StructRead GrowFacts DocFacts GenStruct AliasText EnumText GenText ConstText UnionSpec UnionText UnionBuilt UnionRead GenUnion PropParse PropGen.
From Coq Require Import Sorting.
From Verif Require Import GapSpec GapText.
Local Open Scope string_scope.

(** The sentence of a union built by UnionType(x, disc) and add_case_member for each of its at least two cases, parsed into
    a module that knows the types it mentions, declares this union: parse does what registering the union does, and then
    Module::type answers with the union. *)
Theorem C39_union_partial : forall fc flt flit c g root x disc cs u,
  usual c -> no_nulls root -> idents_only root [] -> plain_name x = true -> declares root x [] = false ->
  switchable (type_idl g false) disc -> named_in (type_idl g false) root [] disc ->
  (forall k, In k cs -> case_fits (fun _ => type_idl g false) root [] x disc k /\ case_sorted disc k) -> (2 <= List.length cs)%nat ->
  union_of x disc cs = Ok u ->
  exists text root', union_idl g 0 x u = Ok text /\ call_register Unions u false root [] = Ok (true, root') /\
    parses fc flt flit c text root (Ok (true, root')) /\ names_type root' [] x u.
Proof.
  intros fc flt flit c g root x disc cs u Us N IO PN D Sw Nd CF Two U.
  destruct (union_sentence fc flt flit c [] O (case_name g) root x disc cs u Us eq_refl N IO PN D Sw Nd (fun k H => proj1 (CF k H)) Two U) as (ks & root' & PR & R & Se).
  eexists. exists root'. split; [apply (union_idl_text (case_name g) root [] x g O x disc cs ks u PR CF U)|]. split; [exact R|]. split.
  - pose proof (document_reads fc flt flit c "" [(union_core (case_name g) O x disc ks, NL)] root root') as DR.
    cbn [in_row] in DR. rewrite app_nil_s in DR. apply DR; [discriminate|blanks|]. econstructor; [exact Se|blanks|constructor].
  - pose proof (plain_name_ident _ PN) as I. pose proof (declares_unions root x [] eq_refl D) as M.
    assert (B : exists s ms ls dv iv d, u = TUnion x s ms ls dv iv d).
    { assert (B : built disc x cs u). { apply union_built_of; [|exact U]. intros ls isd [y mt] Hi. destruct (CF _ Hi) as ((_ & _ & LF & _) & So). split; [|exact So]. intros l Il. eapply label_small, LF, Il. }
      destruct B as [(s & ms & labels & d & -> & _) _ _ _]. repeat eexists. }
    destruct B as (s & ms & ls & dv & iv & d & ->). rewrite (register_union root [] x (TUnion x s ms ls dv iv d) eq_refl I eq_refl M) in R. destruct (with_tables _ _ _) as [r|] eqn:W in R; [|discriminate R]. injection R as ->.
    destruct (with_tables_here root [] _ _ eq_refl W) as [Tb E']. apply type_here; [exact E'|exact I|]. rewrite Tb. unfold type_in. cbn [set_unions aliases unions rename scope scoped].
    assert (A : assoc x (aliases (tab_at root [])) = None).
    { unfold declares, has_symbol_here in D. cbn [mod_at] in D. rewrite !orb_false_iff in D. unfold mem in D. unfold tab_at. cbn [mod_at]. destruct (assoc x (aliases (m_tab root))); [decompose [and] D; congruence|reflexivity]. }
    rewrite A, (mem_emplace _ _ _ _ M). reflexivity.
Qed.
(** A union over the enumeration of [ex_root], another over the integers with a default case. *)
Definition ex_u1 : list ucase := [([0]%Z, false, ("a", TPrim PI32)); ([1]%Z, true, ("q", ex_array))].
Definition ex_u2 : list ucase := [([1; 5; 70000]%Z, false, ("a", ex_T)); ([]%Z, true, ("b", TStr SK8 0)); ([2; 3]%Z, false, ("c", TPrim PF64))].
Example C39_union_text :
  (do u <- union_of "U" ex_E ex_u1; union_idl no_node 0 "U" u) = Ok ("union U switch (E)" ++ NL ++ "{" ++ NL ++ "    case one:" ++ NL ++ "        int32 a;" ++ NL ++ "    case two:" ++ NL ++ "    default:" ++ NL ++ "        sequence<A, 4> q[2][3];" ++ NL ++ "};" ++ NL) /\
  (do u <- union_of "V" (TPrim PU32) ex_u2; union_idl no_node 0 "V" u) = Ok ("union V switch (uint32)" ++ NL ++ "{" ++ NL ++ "    case 1:" ++ NL ++ "    case 5:" ++ NL ++ "    case 70000:" ++ NL ++ "        T a;" ++ NL ++ "    default:" ++ NL ++ "        string b;" ++ NL ++
    "    case 2:" ++ NL ++ "    case 3:" ++ NL ++ "        double c;" ++ NL ++ "};" ++ NL).
Proof. split; vm_compute; reflexivity. Qed.
Example C39_union_nontrivial :
  (switchable (type_idl no_node false) ex_E /\ named_in (type_idl no_node false) ex_root [] ex_E /\ (forall k, In k ex_u1 -> case_fits (fun _ => type_idl no_node false) ex_root [] "U" ex_E k /\ case_sorted ex_E k) /\ exists u, union_of "U" ex_E ex_u1 = Ok u) /\
  (switchable (type_idl no_node false) (TPrim PU32) /\ (forall k, In k ex_u2 -> case_fits (fun _ => type_idl no_node false) ex_root [] "V" (TPrim PU32) k /\ case_sorted (TPrim PU32) k) /\ exists u, union_of "V" (TPrim PU32) ex_u2 = Ok u).
Proof.
  assert (PS : forall x, plain x = true -> plain_scoped x).
  { intros x P. exists false, [], x. split; [reflexivity|]. split; [repeat constructor; apply plain_ident, P|right; exact P]. }
  assert (MF : forall x y t, In y ["a"; "b"; "c"; "q"] -> x = "U" \/ x = "V" -> In t [TPrim PI32; ex_array; ex_T; TStr SK8 0; TPrim PF64] -> member_fits (type_idl no_node false) ex_root [] x y t).
  { intros x y t Hy Hx Ht. cbn [In] in Hy, Ht. destruct Hx as [-> | ->]; repeat (destruct Hy as [<-|Hy]; [|]); try contradiction; repeat (destruct Ht as [<-|Ht]; [|]); try contradiction;
      (constructor; [reflexivity|discriminate|reflexivity|cbn; repeat split; lia|cbn; repeat split; first [discriminate|lia|apply PS; reflexivity]|cbn; repeat split; exists 9%nat; reflexivity|apply unshadowed_root]). }
  split; [split; [|split; [|split]]|split; [|split]].
  - apply PS. reflexivity.
  - exists 9%nat. reflexivity.
  - intros k [<-|[<-|[]]]; (split; [split; [apply MF; cbn; auto 9|split; [left; discriminate|split; [|intros _; reflexivity]]]|split; [repeat constructor|cbn; intros _; discriminate]]); intros l [<-|[]];
      (split; [reflexivity|]; split; [lia|]; repeat split; try reflexivity; try discriminate; left; reflexivity).
  - eexists. vm_compute. reflexivity.
  - left. reflexivity.
  - intros k [<-|[<-|[<-|[]]]]; (split; [split; [apply MF; cbn; auto 9|split; [first [right; reflexivity|left; discriminate]|split; [|first [discriminate|intros _; reflexivity]]]]|split; [repeat constructor; lia|cbn; try discriminate; auto]]); intros l Hl; cbn [In] in Hl;
      repeat (destruct Hl as [<-|Hl]; [split; [reflexivity|]; split; [lia|unfold fits; cbn; lia]|]); contradiction.
  - eexists. vm_compute. reflexivity.
Qed.

(** ** What is lost *)
Definition ex_union (disc : ty) (cs : list ucase) : ty := match union_of "U" disc cs with Ok u => u | _ => disc end.
Definition ex_union_text (disc : ty) (cs : list ucase) : string := match union_idl no_node 0 "U" (ex_union disc cs) with Ok s => s | _ => "" end.
Definition union_declared (root : modl) (x : string) : option ty := assoc x (unions (tab_at root [])).
(** A union with one case comes back without its member: the parser's tree has no node for a body of one case. *)
Theorem C39_union_one_case_refuted : forall fc flt flit, exists root,
  union_of "U" (TPrim PI32) [([5]%Z, false, ("a", TPrim PI32))] = Ok (ex_union (TPrim PI32) [([5]%Z, false, ("a", TPrim PI32))]) /\
  parses fc flt flit default_ctx (ex_union_text (TPrim PI32) [([5]%Z, false, ("a", TPrim PI32))]) root_module (Ok (true, root)) /\
  union_declared root "U" = Some (ex_union (TPrim PI32) []).
Proof. intros fc flt flit. eexists. split; [vm_compute; reflexivity|]. split; [parsed|]. vm_compute. reflexivity. Qed.
(** A union without cases: the text is no IDL document. *)
Theorem C39_union_empty_refuted : forall fc flt flit,
  union_of "U" (TPrim PI32) [] = Ok (ex_union (TPrim PI32) []) /\ parses fc flt flit default_ctx (ex_union_text (TPrim PI32) []) root_module (Ok (false, root_module)).
Proof. intros fc flt flit. split; [vm_compute; reflexivity|parsed]. Qed.
(** The default value of the discriminator is the first label of the default case as given to add_case_member; the text has
    the labels in ascending order, and the union read from it another default value. *)
Definition ex_default : list ucase := [([5; 3]%Z, true, ("a", TPrim PI32)); ([2]%Z, false, ("b", TPrim PI32))].
Definition default_of (t : option ty) : option Z := match t with Some (TUnion _ _ _ _ _ _ d) => Some d | _ => None end.
Theorem C39_union_default_refuted : forall fc flt flit, exists root,
  union_of "U" (TPrim PI32) ex_default = Ok (ex_union (TPrim PI32) ex_default) /\
  parses fc flt flit default_ctx (ex_union_text (TPrim PI32) ex_default) root_module (Ok (true, root)) /\
  default_of (Some (ex_union (TPrim PI32) ex_default)) = Some 5%Z /\ default_of (union_declared root "U") = Some 3%Z.
Proof. intros fc flt flit. eexists. split; [vm_compute; reflexivity|]. split; [parsed|]. split; vm_compute; reflexivity. Qed.
(** A negative label of a 64 bit discriminator is written as an unsigned number which is read as the largest label: an
    assertion fails. *)
Definition ex_negative : list ucase := [([-1]%Z, false, ("a", TPrim PI32)); ([2]%Z, false, ("b", TPrim PI32))].
Theorem C39_union_negative_refuted : forall fc flt flit,
  union_of "U" (TPrim PI64) ex_negative = Ok (ex_union (TPrim PI64) ex_negative) /\
  parses fc flt flit default_ctx (ex_union_text (TPrim PI64) ex_negative) root_module (Fail Assert).
Proof. intros fc flt flit. split; [vm_compute; reflexivity|parsed]. Qed.
(** The label of an apostrophe: the text is no IDL document. *)
Definition ex_quote : list ucase := [([39]%Z, false, ("a", TPrim PI32)); ([98]%Z, false, ("b", TPrim PI32))].
Theorem C39_union_quote_refuted : forall fc flt flit,
  union_of "U" (TPrim PC8) ex_quote = Ok (ex_union (TPrim PC8) ex_quote) /\
  parses fc flt flit default_ctx (ex_union_text (TPrim PC8) ex_quote) root_module (Ok (false, root_module)).
Proof. intros fc flt flit. split; [vm_compute; reflexivity|parsed]. Qed.
(** A boolean label other than 0 and 1 comes back as 1. *)
Definition ex_bool : list ucase := [([0]%Z, false, ("a", TPrim PI32)); ([2]%Z, false, ("b", TPrim PI32))].
Theorem C39_union_bool_refuted : forall fc flt flit, exists root,
  union_of "U" (TPrim PBool) ex_bool = Ok (ex_union (TPrim PBool) ex_bool) /\ get_labels (ex_union (TPrim PBool) ex_bool) "b" = [2%Z] /\
  parses fc flt flit default_ctx (ex_union_text (TPrim PBool) ex_bool) root_module (Ok (true, root)) /\ option_map (fun u => get_labels u "b") (union_declared root "U") = Some [1%Z].
Proof. intros fc flt flit. eexists. split; [vm_compute; reflexivity|]. split; [vm_compute; reflexivity|]. split; [parsed|]. vm_compute. reflexivity. Qed.

Print Assumptions C39_union_partial.
Print Assumptions C39_union_one_case_refuted.
Print Assumptions C39_union_empty_refuted.
Print Assumptions C39_union_default_refuted.
Print Assumptions C39_union_negative_refuted.
Print Assumptions C39_union_quote_refuted.
Print Assumptions C39_union_bool_refuted.
