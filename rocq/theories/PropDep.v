(** The IDL generated for a module declares types before use (C40). *)
From Verif Require Import Base Types TyInd TypeBuild Mem Ops Module ModuleSpec ModuleFacts DepTree DepSpec DepFacts DepGen DepSolve DepOrder DepTerm DepCheck.

(** Every declaration of the tree is printed exactly once, in its module, and nothing else is printed. *)
Theorem C40_complete root par o : well_named root -> generates root par o ->
  well_nested o /\ (forall n, wanted root n -> times n o = 1%nat) /\ (forall n, In (EDecl n) o -> wanted root n).
Proof.
  intros W (D & f & s & HS & HG & <-). destruct (solve_from root par D HS) as [F _].
  destruct (gen_result root D _ f s W (solve_Dok root par D W F) HG) as (WN & I & HC).
  assert (ALL : forall n, wanted root n -> In (EDecl n) (g_out s)).
  { intros n [Hn P]. apply (closed_decl root D _ (g_out s) [] (n_in n) n (inv_q _ _ _ _ I) HC).
    - rewrite app_nil_r. now apply node_module.
    - rewrite app_nil_r. now apply all_in_tree.
    - exact P. }
  split; [exact WN |]. split.
  - intros n Hn. assert (HI := ALL n Hn). destruct Hn as [Hn P]. rewrite (inv_times _ _ _ _ I n (all_in_tree root n Hn)), P, andb_true_r.
    apply (inv_decl _ _ _ _ I) in HI. assert (X : it_node n s = true) by (apply existsb_exists; exists n; split; [exact HI | apply node_eqb_refl]). now rewrite X.
  - intros n HI. assert (HN := inv_decl _ _ _ _ I n HI). assert (T := inv_tree _ _ _ _ I n HN). split.
    + apply all_nodes_in. split; [| exact T]. apply places_exist; [exact W |]. unfold in_tree in T. apply nodes_of_in in T. destruct T as [_ T].
      unfold exists_module, tab_at in *. destruct (mod_at root (n_in n)); [reflexivity |]. destruct (n_kind n); contradiction.
    + assert (E := inv_times _ _ _ _ I n T). destruct (printed root n); [reflexivity |]. rewrite andb_false_r in E. exfalso.
      unfold times in E. apply length_zero_iff_nil in E. assert (X : In (EDecl n) (filter (fun e => match e with EDecl m => node_eqb n m | _ => false end) (g_out s))) by (apply filter_In; split; [exact HI | apply node_eqb_refl]).
      rewrite E in X. contradiction.
Qed.
(** The text does not depend on how long the program is allowed to run. *)
Theorem C40_deterministic root par o o' : generates root par o -> generates root par o' -> o = o'.
Proof.
  intros (D & f & s & HS & HG & <-) (D' & f' & s' & HS' & HG' & <-). rewrite HS in HS'. inversion HS'; subst D'.
  apply (gen_fuel_le root D f (Nat.max f f')) in HG; [| lia]. apply (gen_fuel_le root D f' (Nat.max f f')) in HG'; [| lia]. congruence.
Qed.
(** A declaration used in a module that does not contain it comes first.  What is missing: aliases of collections, names declared twice. *)
Theorem C40_other_module_partial root par o n u : well_named root -> generates root par o -> uses root par n u -> wanted root n ->
  unambiguous root u -> direct n u -> n_in n <> n_in u -> inside (n_in u) (n_in n) = false -> before o (EDecl u) (EDecl n).
Proof.
  intros W G Us Wn UA DI NE IN. destruct (C40_complete root par o W G) as (WN & T & _). destruct G as (D & f & s & HS & HG & <-). destruct (solve_from root par D HS) as [F _].
  destruct (gen_result root D _ f s W (solve_Dok root par D W F) HG) as (_ & I & HC).
  eapply other_before; eauto; [apply (inv_q _ _ _ _ I) |]. destruct Wn as [Hn P].
  apply (closed_decl root D _ (g_out s) [] (n_in n) n (inv_q _ _ _ _ I) HC); [rewrite app_nil_r; now apply node_module | rewrite app_nil_r; now apply all_in_tree | exact P].
Qed.
(** A declaration of an inner module comes before the declarations of the outer module that use it, unless these are
    themselves needed by an inner module. *)
Theorem C40_inner_module_partial root par o n u : well_named root -> generates root par o -> uses root par n u -> wanted root n ->
  unambiguous root u -> direct n u -> inside (n_in u) (n_in n) = true -> ~ needed_inside root par n -> before o (EDecl u) (EDecl n).
Proof.
  intros W G Us Wn UA DI IN NN. destruct G as (D & f & s & HS & HG & <-). destruct (solve_from root par D HS) as [F _].
  destruct (gen_result root D _ f s W (solve_Dok root par D W F) HG) as (_ & I & HC).
  eapply inner_before; eauto; [apply (inv_q _ _ _ _ I) |]. destruct Wn as [Hn P].
  apply (closed_decl root D _ (g_out s) [] (n_in n) n (inv_q _ _ _ _ I) HC); [rewrite app_nil_r; now apply node_module | rewrite app_nil_r; now apply all_in_tree | exact P].
Qed.
(** Within a module the order is right when dependencies are between declarations of one kind and at most one deep, or go
    back in the order alias, constant, enumeration, structure, union. *)
Theorem C40_same_module_partial root par o n u : well_named root -> generates root par o -> uses root par n u -> wanted root n ->
  n_in u = n_in n -> n <> u -> shallow root par (n_in n) -> ~ needed_inside root par n -> before o (EDecl u) (EDecl n).
Proof.
  intros W G Us Wn EP NE SH NN. destruct G as (D & f & s & HS & HG & <-). destruct Wn as [Hn P].
  destruct (gen_result root D _ f s W (same_Dok root par D (n_in n) W HS (node_module root n W Hn) SH) HG) as (_ & I & HC).
  eapply same_before; eauto.
  apply (closed_decl root D _ (g_out s) [] (n_in n) n (inv_q _ _ _ _ I) HC); [rewrite app_nil_r; now apply node_module | rewrite app_nil_r; now apply all_in_tree | exact P].
Qed.
(** The generation ends when every type mentioned is declared in the tree and sibling modules do not use each other in a circle. *)
Theorem C40_ends root par : well_named root -> self_contained root par -> no_circle root par -> exists o, generates root par o.
Proof.
  intros W SC NC. destruct (solve_total root par W SC) as (D & HS). destruct (gen_terminates root par D W HS NC) as (f & s & HG).
  exists (g_out s), D, f, s. auto.
Qed.
(** With such a circle it never ends, although the types themselves need not depend on each other in a circle. *)
Theorem C40_circle_refuted root par C o : well_named root -> circle root par C -> ~ generates root par o.
Proof. intros W HC (D & f & s & HS & HG & _). exact (circle_diverges root par D C f s W HS HC HG). Qed.

(** ** Concrete modules *)
Definition alone : node -> option ty := fun _ => None.
Definition struct_of (nm : string) (l : list ty) : ty := TStruct nm 0 (map (fun t => ("m"%string, 0, t)) l).
Definition union_of (nm : string) (l : list ty) : ty := TUnion nm 0 (map (fun t => ("m"%string, 0, t)) (TPrim PI32 :: l)) [] 0 0 0.
Definition tabs (al en st un : list (string * ty)) : tables := mkTables st un al en [] [] [].
Ltac decide_incl := let x := fresh in let H := fresh in vm_compute; intros x H; repeat (destruct H as [<- | H]; [tauto |]); contradiction H.
(** typedef S L; struct S {U m;}; union U: printed in the order L, S, U. *)
Definition tree_kinds : modl :=
  Mod "" (tabs [("L"%string, TAlias "L" (struct_of "S" [union_of "U" []]))] [] [("S"%string, struct_of "S" [union_of "U" []])] [("U"%string, union_of "U" [])]) [].
Definition nS := Node [] xSTRUCT "S" (struct_of "S" [union_of "U" []]).
Definition nU := Node [] xUNION "U" (union_of "U" []).
Definition nL := Node [] xALIAS "L" (TAlias "L" (struct_of "S" [union_of "U" []])).
Theorem C40_kinds_refuted : well_named tree_kinds /\ self_contained tree_kinds alone /\ no_circle tree_kinds alone /\
  uses tree_kinds alone nS nU /\ uses tree_kinds alone nL nS /\
  exists o, generates tree_kinds alone o /\ ~ before o (EDecl nU) (EDecl nS) /\ ~ before o (EDecl nS) (EDecl nL).
Proof.
  split; [apply well_named_check; reflexivity |]. split; [apply self_contained_check; decide_incl |].
  split; [apply (no_circle_check _ _ (fun _ => 0%nat)); reflexivity |].
  split; [repeat split; vm_compute; try tauto; discriminate |]. split; [repeat split; vm_compute; try tauto; discriminate |].
  exists [EOpen []; EDecl nL; EDecl nS; EDecl nU; EClose []].
  split; [| split; apply not_before_check; reflexivity].
  eexists _, 5%nat, _. split; [vm_compute; reflexivity |]. split; [vm_compute; reflexivity | reflexivity].
Qed.

(** struct A {B b;}; struct B {C c;}; struct C {long m;}; is printed in the order B, C, A. *)
Definition tC := struct_of "C" [TPrim PI32].
Definition tB := struct_of "B" [tC].
Definition tA := struct_of "A" [tB].
Definition tree_chain : modl := Mod "" (tabs [] [] [("A"%string, tA); ("B"%string, tB); ("C"%string, tC)] []) [].
Theorem C40_chain_refuted : well_named tree_chain /\ self_contained tree_chain alone /\ no_circle tree_chain alone /\
  uses tree_chain alone (Node [] xSTRUCT "B" tB) (Node [] xSTRUCT "C" tC) /\
  exists o, generates tree_chain alone o /\ ~ before o (EDecl (Node [] xSTRUCT "C" tC)) (EDecl (Node [] xSTRUCT "B" tB)).
Proof.
  split; [apply well_named_check; reflexivity |]. split; [apply self_contained_check; decide_incl |].
  split; [apply (no_circle_check _ _ (fun _ => 0%nat)); reflexivity |].
  split; [repeat split; vm_compute; try tauto; discriminate |].
  exists [EOpen []; EDecl (Node [] xSTRUCT "B" tB); EDecl (Node [] xSTRUCT "C" tC); EDecl (Node [] xSTRUCT "A" tA); EClose []].
  split; [| apply not_before_check; reflexivity].
  eexists _, 5%nat, _. split; [vm_compute; reflexivity |]. split; [vm_compute; reflexivity | reflexivity].
Qed.
(** typedef sequence<M::S> L; comes before module M. *)
Definition tMS := struct_of "M::S" [TPrim PI32].
Definition tree_seq : modl := Mod "" (tabs [("L"%string, TAlias "L" (TSeq tMS 0))] [] [] []) [("M"%string, Some (Mod "M" (tabs [] [] [("S"%string, tMS)] []) []))].
Theorem C40_collection_refuted : well_named tree_seq /\ self_contained tree_seq alone /\ no_circle tree_seq alone /\
  uses tree_seq alone (Node [] xALIAS "L" (TAlias "L" (TSeq tMS 0))) (Node ["M"%string] xSTRUCT "S" tMS) /\
  exists o, generates tree_seq alone o /\ ~ before o (EDecl (Node ["M"%string] xSTRUCT "S" tMS)) (EDecl (Node [] xALIAS "L" (TAlias "L" (TSeq tMS 0)))).
Proof.
  split; [apply well_named_check; reflexivity |]. split; [apply self_contained_check; decide_incl |].
  split; [apply (no_circle_check _ _ (fun _ => 0%nat)); reflexivity |].
  split; [repeat split; vm_compute; try tauto; discriminate |].
  exists [EOpen []; EDecl (Node [] xALIAS "L" (TAlias "L" (TSeq tMS 0))); EOpen ["M"%string]; EDecl (Node ["M"%string] xSTRUCT "S" tMS); EClose ["M"%string]; EClose []].
  split; [| apply not_before_check; reflexivity].
  eexists _, 5%nat, _. split; [vm_compute; reflexivity |]. split; [vm_compute; reflexivity | reflexivity].
Qed.
(** struct B {C c;}; struct C {long m;}; is printed as C, B; with module I {struct T {::B b;};} and struct A {I::T t;} the order
    is B, C, T, A. *)
Definition tI := struct_of "I::T" [tB].
Definition tree_pair : modl := Mod "" (tabs [] [] [("B"%string, tB); ("C"%string, tC)] []) [].
Definition tIA := struct_of "A" [tI].
Definition tree_early : modl := Mod "" (tabs [] [] [("A"%string, tIA); ("B"%string, tB); ("C"%string, tC)] []) [("I"%string, Some (Mod "I" (tabs [] [] [("T"%string, tI)] []) []))].
Theorem C40_early_refuted : well_named tree_early /\ self_contained tree_early alone /\ no_circle tree_early alone /\
  uses tree_early alone (Node [] xSTRUCT "B" tB) (Node [] xSTRUCT "C" tC) /\
  (exists o, generates tree_pair alone o /\ before o (EDecl (Node [] xSTRUCT "C" tC)) (EDecl (Node [] xSTRUCT "B" tB))) /\
  exists o, generates tree_early alone o /\ ~ before o (EDecl (Node [] xSTRUCT "C" tC)) (EDecl (Node [] xSTRUCT "B" tB)).
Proof.
  split; [apply well_named_check; reflexivity |]. split; [apply self_contained_check; decide_incl |].
  split; [apply (no_circle_check _ _ (fun p => 0%nat)); reflexivity |].
  split; [repeat split; vm_compute; try tauto; discriminate |]. split.
  - exists [EOpen []; EDecl (Node [] xSTRUCT "C" tC); EDecl (Node [] xSTRUCT "B" tB); EClose []]. split.
    + eexists _, 5%nat, _. split; [vm_compute; reflexivity |]. split; [vm_compute; reflexivity | reflexivity].
    + exists [EOpen []], [], [EClose []]. reflexivity.
  - exists [EOpen []; EDecl (Node [] xSTRUCT "B" tB); EDecl (Node [] xSTRUCT "C" tC); EOpen ["I"%string]; EDecl (Node ["I"%string] xSTRUCT "T" tI); EClose ["I"%string]; EDecl (Node [] xSTRUCT "A" tIA); EClose []].
    split; [| apply not_before_check; reflexivity].
    eexists _, 5%nat, _. split; [vm_compute; reflexivity |]. split; [vm_compute; reflexivity | reflexivity].
Qed.
(** struct Z {I::W w;}; module I {struct W {long m;}; struct T {::Z z;};}: Z is printed before module I. *)
Definition tW4 := struct_of "I::W" [TPrim PI32].
Definition tZ4 := struct_of "Z" [tW4].
Definition tT4 := struct_of "I::T" [tZ4].
Definition tree_reopen : modl := Mod "" (tabs [] [] [("Z"%string, tZ4)] []) [("I"%string, Some (Mod "I" (tabs [] [] [("T"%string, tT4); ("W"%string, tW4)] []) []))].
Theorem C40_reopen_refuted : well_named tree_reopen /\ self_contained tree_reopen alone /\ no_circle tree_reopen alone /\
  uses tree_reopen alone (Node [] xSTRUCT "Z" tZ4) (Node ["I"%string] xSTRUCT "W" tW4) /\
  exists o, generates tree_reopen alone o /\ ~ before o (EDecl (Node ["I"%string] xSTRUCT "W" tW4)) (EDecl (Node [] xSTRUCT "Z" tZ4)).
Proof.
  split; [apply well_named_check; reflexivity |]. split; [apply self_contained_check; decide_incl |].
  split; [apply (no_circle_check _ _ (fun p => 0%nat)); reflexivity |].
  split; [repeat split; vm_compute; try tauto; discriminate |].
  exists [EOpen []; EDecl (Node [] xSTRUCT "Z" tZ4); EOpen ["I"%string]; EDecl (Node ["I"%string] xSTRUCT "W" tW4); EDecl (Node ["I"%string] xSTRUCT "T" tT4); EClose ["I"%string]; EClose []].
  split; [| apply not_before_check; reflexivity].
  eexists _, 5%nat, _. split; [vm_compute; reflexivity |]. split; [vm_compute; reflexivity | reflexivity].
Qed.
(** Two modules that use each other's types, which do not depend on each other in a circle. *)
Definition tN1 := struct_of "N::S1" [TPrim PI32].
Definition tM1 := struct_of "M::S1" [TPrim PI32].
Definition tN2 := struct_of "N::S2" [tM1].
Definition tM2 := struct_of "M::S2" [tN1].
Definition tree_circle : modl := Mod "" no_tables
  [("M"%string, Some (Mod "M" (tabs [] [] [("S1"%string, tM1); ("S2"%string, tM2)] []) [])); ("N"%string, Some (Mod "N" (tabs [] [] [("S1"%string, tN1); ("S2"%string, tN2)] []) []))].
Example C40_circle_nontrivial : well_named tree_circle /\ self_contained tree_circle alone /\ circle tree_circle alone (fun p => p = ["M"%string] \/ p = ["N"%string]).
Proof.
  assert (W : well_named tree_circle) by (apply well_named_check; reflexivity). split; [exact W |].
  split; [apply self_contained_check; decide_incl |]. split; [exists ["M"%string]; now left |].
  intros a [-> | ->]; (split; [reflexivity |]).
  - exists "M"%string, "N"%string, [], (Node ["M"%string] xSTRUCT "S2" tM2), (Node ["N"%string] xSTRUCT "S1" tN1).
    split; [reflexivity |]. split; [now right |]. split; [discriminate |]. split; [now exists [] |]. split; [now exists [] |].
    split; [repeat split; vm_compute; try tauto; discriminate |]. split; [split; discriminate |]. apply unambiguous_check; [exact W | vm_compute; tauto | reflexivity].
  - exists "N"%string, "M"%string, [], (Node ["N"%string] xSTRUCT "S2" tN2), (Node ["M"%string] xSTRUCT "S1" tM1).
    split; [reflexivity |]. split; [now left |]. split; [discriminate |]. split; [now exists [] |]. split; [now exists [] |].
    split; [repeat split; vm_compute; try tauto; discriminate |]. split; [split; discriminate |]. apply unambiguous_check; [exact W | vm_compute; tauto | reflexivity].
Qed.
(** A tree that meets the hypotheses of the theorems: module J {struct W;}; module I {enum E; struct T {E e; J::W w; ::Z z;};};
    struct Z; struct M {I::T t; Z z;}. *)
Definition tW := struct_of "J::W" [TPrim PI32].
Definition tE := TEnum "I::E" 4 [("x"%string, 0)].
Definition tZ3 := struct_of "Z" [TPrim PI32].
Definition tT3 := struct_of "I::T" [tE; tW; tZ3].
Definition tM3 := struct_of "M" [tT3; TSeq tZ3 0].
Definition tree_good : modl := Mod "" (tabs [] [] [("M"%string, tM3); ("Z"%string, tZ3)] [])
  [("I"%string, Some (Mod "I" (tabs [] [("E"%string, tE)] [("T"%string, tT3)] []) [])); ("J"%string, Some (Mod "J" (tabs [] [] [("W"%string, tW)] []) []))].
Example C40_nontrivial : well_named tree_good /\ self_contained tree_good alone /\ no_circle tree_good alone /\
  let nM := Node [] xSTRUCT "M" tM3 in let nZ := Node [] xSTRUCT "Z" tZ3 in let nT := Node ["I"%string] xSTRUCT "T" tT3 in let nW := Node ["J"%string] xSTRUCT "W" tW in
  (uses tree_good alone nT nW /\ wanted tree_good nT /\ unambiguous tree_good nW /\ direct nT nW) /\
  (uses tree_good alone nM nT /\ unambiguous tree_good nT /\ direct nM nT /\ ~ needed_inside tree_good alone nM) /\
  (uses tree_good alone nM nZ /\ nM <> nZ /\ shallow tree_good alone []) /\
  exists o, generates tree_good alone o.
Proof.
  assert (W : well_named tree_good) by (apply well_named_check; reflexivity). split; [exact W |].
  assert (SC : self_contained tree_good alone) by (apply self_contained_check; decide_incl). split; [exact SC |].
  assert (NC : no_circle tree_good alone) by (apply (no_circle_check _ _ (fun p => match p with [c] => if String.eqb c "I" then 1%nat else 0%nat | _ => 0%nat end)); reflexivity).
  split; [exact NC |]. cbn zeta. split; [| split; [| split]].
  - split; [repeat split; vm_compute; try tauto; discriminate |]. split; [split; vm_compute; tauto |]. split; [apply unambiguous_check; [exact W | vm_compute; tauto | reflexivity] | split; discriminate].
  - split; [repeat split; vm_compute; try tauto; discriminate |]. split; [apply unambiguous_check; [exact W | vm_compute; tauto | reflexivity] |]. split; [split; discriminate |].
    intros (m & Hm & _ & M). apply mentionsb_iff in M. vm_compute in Hm. repeat (destruct Hm as [<- | Hm]; [vm_compute in M; discriminate M |]). contradiction.
  - split; [repeat split; vm_compute; try tauto; discriminate |]. split; [discriminate |].
    intros l1 n l2 u E Hu M. apply mentionsb_iff in M. vm_compute in E, Hu.
    destruct l1 as [| x [| y [| z l1]]]; cbn in E; inversion E; subst; try (destruct l1; discriminate).
    + destruct Hu as [<- | [<- | []]]; [vm_compute in M; discriminate |]. right. split; [reflexivity |]. split; [split; discriminate |].
      intros v Hv (_ & _ & _ & Hw). vm_compute in Hw. contradiction.
    + destruct Hu as [<- | [<- | []]]; vm_compute in M; discriminate M.
  - now apply C40_ends.
Qed.

Print Assumptions C40_complete.
Print Assumptions C40_deterministic.
Print Assumptions C40_other_module_partial.
Print Assumptions C40_inner_module_partial.
Print Assumptions C40_same_module_partial.
Print Assumptions C40_ends.
Print Assumptions C40_circle_refuted.
Print Assumptions C40_kinds_refuted.
Print Assumptions C40_chain_refuted.
Print Assumptions C40_collection_refuted.
Print Assumptions C40_early_refuted.
Print Assumptions C40_reopen_refuted.
