(** Theorems about all trees of modules that programs make: C74. *)
From Verif Require Import Base Types TypeBuild Compat Mem MemSpec Hash MapOps Ops Module ModuleSpec ModuleFacts ModList ModListSpec NumSpec IntSpec IntOps IdlLit IdlExpr IdlSpec Peg0 Grammar Peg PegFacts IdlParse IdlParseFacts PropModule PropList PropParse KeepRun KeepInv KeepSpec KeepFacts KeepNull PropKeep TreeSpec TreeFacts.
Local Open Scope string_scope.

Section Values.
  Variable fc : prim -> prim -> list N -> list N.
  Variable flt : arith -> prim -> list N -> list N -> list N.
  Variable flit : prim -> string -> res (list N).
  Notation made := (made fc flt flit).
  (** No submodule is a null pointer, none is there twice and each has the name under which it is found. *)
Theorem C74_structure : forall root, made root -> no_nulls root /\ inner_once root /\ keyed root.
  Proof.
    intros root H. apply made_neat in H. repeat split.
    - intros c p m M E. rewrite mod_at_walk in M. destruct (H _ _ M) as [_ N]. destruct (N _ _ E) as (y & Q & _). discriminate Q.
    - intros p m M. rewrite mod_at_walk in M. apply (H _ _ M).
    - intros c p m M. cbn [mod_at] in M. destruct (mod_at root p) as [u|] eqn:U; [|discriminate M]. destruct (assoc c (m_inner u)) as [[z|]|] eqn:E; [|discriminate M..]. injection M as ->. rewrite mod_at_walk in U. destruct (H _ _ U) as [_ N]. destruct (N _ _ E) as (y & Q & N'). congruence.
  Qed.
  (** The name of a type is the qualified name of its place; structs, unions, enumerations and aliases are not mixed up. *)
Theorem C74_titles : forall root, made root -> titled root.
  Proof.
    intros root H q k x t E. apply made_good in H. unfold entry, tab_at in E. destruct (mod_at root q) as [m|] eqn:M; [|destruct k; discriminate E]. rewrite mod_at_walk in M. specialize (H _ _ M). rewrite rev_involutive, app_nil_r in H.
    destruct (H k x t E) as [K T]. split; [exact K|]. intros F. rewrite T. apply scope_names, F.
  Qed.
  (** The lookup of every IDL name from every module ends with the answer of [lookup_name]. *)
Theorem C74_lookup : forall root p abs qs x, made root -> exists_module root p = true -> Forall ident qs -> ident x -> resolves root p (render abs qs x) (lookup_name root p abs qs x).
  Proof. intros root p abs qs x H. apply C29_lookup. apply C74_structure, H. Qed.
  (** Every walk over the tree visits every module once. *)
Theorem C74_walk : forall S (visitor : S -> place -> modl -> S) root p m s, made root -> mod_at root p = Some m ->
  exists order, for_each_module visitor p m s = Ok (fold_left (fun s e => visitor s (fst e) (snd e)) order s) /\ NoDup (map fst order) /\ forall q x, In (q, x) order <-> inside p q /\ mod_at root q = Some x.
  Proof.
    intros S visitor root p m s H M. destruct (C74_structure root H) as (N & O & _). destruct (C53_for_each S visitor root p m s N O M) as (order & A & B & C & _). exists order. auto.
  Qed.
End Values.

(** A tree made by calls, a parse that is refused and a parse that returns. *)
Example C74_nontrivial : forall fc flt flit, exists root t u, made fc flt flit root /\ entry root ["B"; "A"] Structs "S" = Some t /\ tname t = "A::B::S" /\ entry root ["A"] Enums "E" = Some u /\ tname u = "A::E" /\
  entry root ["A"] Structs "T" = Some (TStruct "A::T" 0 []).
Proof.
  intros fc flt flit.
  assert (X : exists r1, call_create_submodule "A" root_module [] = Ok r1 /\ exists r2, call_create_submodule "B" r1 ["A"] = Ok r2 /\ exists b r3, call_register Structs (TStruct "S" 0 []) false r2 ["B"; "A"] = Ok (b, r3) /\
    exists r4, parse_run fc flt flit 300 default_ctx "module A { struct T { long a; long a; }; };" r3 = (r4, Fail Throw) /\ exists r5, parse_run fc flt flit 300 default_ctx "module A { enum E { X, Y }; };" r4 = (r5, Ok true) /\
    exists t u, entry r5 ["B"; "A"] Structs "S" = Some t /\ tname t = "A::B::S" /\ entry r5 ["A"] Enums "E" = Some u /\ tname u = "A::E" /\ entry r5 ["A"] Structs "T" = Some (TStruct "A::T" 0 [])).
  { eexists. split; [reflexivity|]. eexists. split; [reflexivity|]. do 2 eexists. split; [reflexivity|]. eexists. split; [vm_compute; reflexivity|]. eexists. split; [vm_compute; reflexivity|]. do 2 eexists. repeat split. }
  destruct X as (r1 & E1 & r2 & E2 & b & r3 & E3 & r4 & E4 & r5 & E5 & t & u & K). exists r5, t, u. split; [|exact K].
  assert (M3 : made fc flt flit r3) by (eapply made_type; [eapply made_module; [eapply made_module; [apply made_empty|exact E1]|exact E2]| |exact E3]; reflexivity).
  pose proof (made_parse fc flt flit r3 300 default_ctx "module A { struct T { long a; long a; }; };" M3) as M4. rewrite E4 in M4. cbn [fst] in M4. pose proof (made_parse fc flt flit r4 300 default_ctx "module A { enum E { X, Y }; };" M4) as M5. rewrite E5 in M5. exact M5.
Qed.

Print Assumptions C74_structure.
Print Assumptions C74_titles.
Print Assumptions C74_lookup.
Print Assumptions C74_walk.
