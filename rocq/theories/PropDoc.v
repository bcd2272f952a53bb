(** Theorems about whole documents: C39. *)
From Verif Require Import Base Types TypeBuild Compat Mem Hash MapOps Ops Module ModuleSpec ModuleFacts NumSpec IntSpec IntOps IdlLit IdlLitFacts DepTree Peg0 Grammar Peg PegRules IdlParse GenIdl GenSpec TypeText StructText StructRead GrowFacts DocFacts GenStruct AliasText EnumText GenText ModuleText ConstText UnionSpec UnionText UnionBuilt UnionRead GenUnion DocSpec DocText PropParse PropGen PropExpr PropUnion.
Local Open Scope string_scope.

(** A text made of the sentences of structs, unions, aliases, enumerations, integer constants and modules nested to any
    depth, in an order in which everything is declared before it is mentioned, with anything blank between the sentences:
    parse does to the module exactly what the calls of the API do that make these declarations. *)
Theorem C39_document_partial : forall fc flt flit c ds root root' text, usual c -> no_nulls root -> ident_symbols root -> ds <> [] ->
  all_declared fc [] ds root root' -> written_all 0 ds text -> parses fc flt flit c text root (Ok (true, root')).
Proof. intros fc flt flit c ds root root' text U N IS NE A W. exact (document_declares fc flt flit c U ds root root' text NE (conj N IS) A W). Qed.
(** Two texts that differ in the blank characters between the sentences mean the same. *)
Theorem C39_layout_partial : forall fc flt flit c ds root root' text text', usual c -> no_nulls root -> ident_symbols root -> ds <> [] ->
  all_declared fc [] ds root root' -> written_all 0 ds text -> written_all 0 ds text' -> exists r, parses fc flt flit c text root r /\ parses fc flt flit c text' root r.
Proof. intros fc flt flit c ds root root' text text' U N IS NE A W W'. exists (Ok (true, root')). split; eapply C39_document_partial; eassumption. Qed.

(** ** An example with nested modules *)
Definition get {A} (a : A) (r : res A) : A := match r with Ok x => x | _ => a end.
Definition keep : prim -> prim -> list N -> list N := fun _ _ b => b.
Definition dc_vals : list (string * N) := [("Blue", 1%N); ("Red", 0%N)].
Definition dc_E : ty := TEnum "Color" 4 dc_vals.
Definition dc_A0 : ty := get dc_E (struct_of "A" None [("color", dc_E); ("x", TPrim PI32)]).
Definition dc_A : ty := rename dc_A0 "M::A".
Definition dc_k : data := ex_int PI16 (-12).
Definition dc_T : ty := TArr ("array_3_" ++ tname (TSeq dc_A 7)) (TSeq dc_A 7) 3.
Definition dc_B : ty := get dc_E (struct_of "B" (Some dc_A) [("all", TAlias "M::N::T" dc_T); ("one", TMap (TStr SK8 0) dc_A 0)]).
Definition dc_r0 : modl := root_module.
Definition dc_r1 : modl := get dc_r0 (declare_enumerators keep [] (sort_by_value dc_vals) dc_r0).
Definition dc_r2 : modl := snd (get (true, dc_r0) (call_register Enums dc_E false dc_r1 [])).
Definition dc_enter (x : string) (p : place) (root : modl) : modl := snd (get (true, root) (call_submodule x (get root (if has_submodule root p x then Ok root else call_create_submodule x root p)) p)).
Definition dc_r3 : modl := dc_enter "M" [] dc_r2.
Definition dc_r4 : modl := snd (get (true, dc_r0) (call_register Structs dc_A0 false dc_r3 ["M"])).
Definition dc_r5 : modl := dc_enter "N" ["M"] dc_r4.
Definition dc_r6 : modl := snd (get (true, dc_r0) (call_create_constant keep "k" dc_k false false dc_r5 ["N"; "M"])).
Definition dc_r7 : modl := snd (get (true, dc_r0) (call_create_alias None dc_T "T" dc_r6 ["N"; "M"])).
Definition dc_r8 : modl := snd (get (true, dc_r0) (call_register Structs dc_B false dc_r7 [])).
Definition dc_decls : list decl :=
  [DEnum "Color" dc_vals; DModule "M" [DStruct no_node "A" None [("color", dc_E); ("x", TPrim PI32)]; DModule "N" [DConst no_node "k" dc_k; DAlias no_node "T" dc_T]];
   DStruct no_node "B" (Some dc_A) [("all", TAlias "M::N::T" dc_T); ("one", TMap (TStr SK8 0) dc_A 0)]].
Definition dc_text : string :=
  "enum Color" ++ NL ++ "{" ++ NL ++ "    Red," ++ NL ++ "    Blue" ++ NL ++ "};" ++ NL ++ NL ++
  "module M" ++ NL ++ "{" ++ NL ++ "    struct A" ++ NL ++ "    {" ++ NL ++ "        Color color;" ++ NL ++ "        int32 x;" ++ NL ++ "    };" ++ NL ++ NL ++
  "    module N" ++ NL ++ "    {" ++ NL ++ "        const int16 k = -12;" ++ NL ++ NL ++ "        typedef sequence<M::A, 7> T[3];" ++ NL ++ "    };" ++ NL ++ "};" ++ NL ++ NL ++
  "struct B : M::A" ++ NL ++ "{" ++ NL ++ "    M::N::T all;" ++ NL ++ "    map<string, M::A> one;" ++ NL ++ "};" ++ NL.
Fixpoint last_of (s : string) : option ascii := match s with EmptyString => None | String a r => match last_of r with Some b => Some b | None => Some a end end.
Lemma last_app : forall a b, b <> "" -> last_of (a ++ b) = last_of b.
Proof.
  induction a as [|k a IH]; intros b NE; [reflexivity|]. cbn [append last_of]. rewrite (IH b NE). destruct b as [|k' b]; [congruence|]. cbn [last_of]. destruct (last_of b); reflexivity.
Qed.
Lemma last_qualified : forall qs x, x <> "" -> last_of (qualified qs x) = last_of x.
Proof. induction qs as [|q qs IH]; intros x NE; [reflexivity|]. cbn [qualified]. rewrite last_app by discriminate. rewrite last_app; [apply IH, NE|]. destruct qs; cbn [qualified]; [exact NE|destruct s; discriminate]. Qed.
Lemma other_end : forall p x s, x <> "" -> last_of s <> last_of x -> not_hidden p x s.
Proof. intros p x s NE H abs qs Q _. exfalso. apply H. rewrite Q. destruct abs; cbn [render]; [rewrite last_app by (destruct qs as [|q r]; [exact NE|destruct q; discriminate])|]; apply last_qualified, NE. Qed.
Example C39_document_nontrivial : all_declared keep [] dc_decls dc_r0 dc_r8 /\ written_all 0 dc_decls dc_text /\ no_nulls dc_r0 /\ ident_symbols dc_r0 /\ assoc "A" (structs (tab_at dc_r8 ["M"])) = Some dc_A.
Proof.
  assert (PS : forall x, plain x = true -> plain_scoped x).
  { intros x P. exists false, [], x. split; [reflexivity|]. split; [repeat constructor; apply plain_ident, P|right; exact P]. }
  assert (PA : plain_scoped "M::A") by (exists false, ["M"], "A"; split; [reflexivity|]; split; [repeat constructor|right; reflexivity]).
  assert (PT : plain_scoped "M::N::T") by (exists false, ["M"; "N"], "T"; split; [reflexivity|]; split; [repeat constructor|right; reflexivity]).
  split; [|split; [|split; [|split]]].
  - unfold dc_decls. apply ad_cons with dc_r2.
    { apply db_enum with dc_r1; [reflexivity|discriminate|repeat constructor|cbn; repeat constructor|cbn; repeat split|cbn; lia|vm_compute; reflexivity|vm_compute; reflexivity]. }
    apply ad_cons with dc_r7.
    { apply db_module with dc_r3; [reflexivity|discriminate|eexists; split; [reflexivity|vm_compute; reflexivity]|]. apply ad_cons with dc_r4.
      - apply db_struct with dc_A0; [reflexivity|vm_compute; reflexivity| |repeat constructor; cbn; intuition discriminate|reflexivity|vm_compute; reflexivity|vm_compute; reflexivity].
        intros y mt [Q|[Q|[]]]; injection Q as <- <-; (constructor; [reflexivity|discriminate|vm_compute; reflexivity|exact Logic.I| | |]).
        + apply (PS "Color"); reflexivity.
        + exists 9%nat. vm_compute. reflexivity.
        + apply other_end; discriminate.
        + discriminate.
        + exact Logic.I.
        + exact Logic.I.
      - apply ad_cons with dc_r7; [|constructor]. apply db_module with dc_r5; [reflexivity|discriminate|eexists; split; [reflexivity|vm_compute; reflexivity]|]. apply ad_cons with dc_r6; [|apply ad_cons with dc_r7; [|constructor]].
        + apply (db_const keep _ no_node "k" dc_k PI16 (-12)%Z); [reflexivity|reflexivity|apply ex_is_int; [reflexivity|unfold fits, least, greatest, width; cbn; lia]|intros _; vm_compute; discriminate|vm_compute; reflexivity].
        + apply db_alias; [reflexivity|vm_compute; reflexivity|cbn; repeat split; lia|cbn; repeat constructor|split; [exact PA|lia]|exists 9%nat; vm_compute; reflexivity|vm_compute; reflexivity]. }
    apply ad_cons with dc_r8; [|constructor].
    apply db_struct with dc_B; [reflexivity|vm_compute; reflexivity| |repeat constructor; cbn; intuition discriminate| |vm_compute; reflexivity|vm_compute; reflexivity].
    + intros y mt [Q|[Q|[]]]; injection Q as <- <-; (constructor; [reflexivity|discriminate|vm_compute; reflexivity|exact Logic.I| | |apply unshadowed_root]).
      * exact PT.
      * exists 9%nat. vm_compute. reflexivity.
      * split; [split; [discriminate|reflexivity]|]. split; [exact PA|reflexivity].
      * split; [exact Logic.I|]. exists 9%nat. vm_compute. reflexivity.
    + exists false, ["M"], "A", dc_A. split; [reflexivity|]. split; [repeat constructor|]. split; [intros abs qs _ _; reflexivity|]. split; [reflexivity|]. exists 9%nat, ["M"], "A". vm_compute. reflexivity.
  - change dc_text with ("" ++ enum_idl 0 "Color" dc_vals ++ (NL ++
      (indent 0 ++ "module " ++ "M" ++ NL ++ indent 0 ++ "{" ++ NL ++ ("" ++ struct_idl no_node 1 "A" None dc_A0 ++ (NL ++
        (indent 1 ++ "module " ++ "N" ++ NL ++ indent 1 ++ "{" ++ NL ++ ("" ++ get "" (const_idl no_node 2 "k" dc_k) ++ (NL ++ alias_idl no_node 2 "T" dc_T ++ "")) ++ indent 1 ++ "};" ++ NL) ++ "")) ++ indent 0 ++ "};" ++ NL) ++ (NL ++
      struct_idl no_node 0 "B" (Some dc_A) dc_B ++ ""))).
    apply wa_cons; [reflexivity|apply wr_enum|]. apply wa_cons; [reflexivity| |].
    + apply wr_module. apply wa_cons; [reflexivity|apply wr_struct; reflexivity|]. apply wa_cons; [reflexivity| |constructor; reflexivity].
      apply wr_module. apply wa_cons; [reflexivity|apply wr_const; vm_compute; reflexivity|]. apply wa_cons; [reflexivity|apply wr_alias|constructor; reflexivity].
    + apply wa_cons; [reflexivity|apply wr_struct; reflexivity|constructor; reflexivity].
  - apply flat_no_nulls.
  - intros q y D. exfalso. unfold declares in D. destruct (mod_at dc_r0 q) as [m|] eqn:M; [|discriminate D].
    assert (X : m = dc_r0); [|subst m; discriminate D]. clear D. revert m M. induction q as [|a q IH]; intros m M; cbn [mod_at] in M; [congruence|].
    destruct (mod_at dc_r0 q) as [m0|]; [|discriminate M]. rewrite (IH m0 eq_refl) in M. discriminate M.
  - vm_compute. reflexivity.
Qed.
(** A module without declarations: the generator writes it, the grammar has no such module. *)
Theorem C39_empty_module_refuted : forall fc flt flit, parses fc flt flit default_ctx ("module M" ++ NL ++ "{" ++ NL ++ "};" ++ NL) root_module (Ok (false, root_module)) /\
  written_all 0 [DModule "M" []] ("module M" ++ NL ++ "{" ++ NL ++ "};" ++ NL).
Proof.
  intros fc flt flit. split; [parsed|].
  change ("module M" ++ NL ++ "{" ++ NL ++ "};" ++ NL) with ("" ++ (indent 0 ++ "module " ++ "M" ++ NL ++ indent 0 ++ "{" ++ NL ++ "" ++ indent 0 ++ "};" ++ NL) ++ "").
  apply wa_cons; [reflexivity|apply wr_module; constructor; reflexivity|constructor; reflexivity].
Qed.

Print Assumptions C39_document_partial.
Print Assumptions C39_layout_partial.
Print Assumptions C39_empty_module_refuted.
