(** Theorems about the scopes that generate() writes in front of a name: C39. *)
From Verif Require Import Base Types TypeBuild Mem Hash MapOps Ops ModuleSpec ModuleFacts Module Peg0 IntOps IdlLit Peg Grammar IdlParse GenIdl GrowFacts GenModule.
From Verif Require Import DepTree DepFacts RoundFacts.
Local Open Scope string_scope.

Lemma app_assoc_s : forall a b c : string, (a ++ b) ++ c = a ++ b ++ c.
Proof. induction a; intros; cbn; congruence. Qed.
Lemma down_to_below : forall p r, down_to p (r ++ p)%list = rev r.
Proof.
  intros p r. induction r as [|c r IH]; [destruct p; [reflexivity|]; cbn [app down_to]; rewrite place_eqb_refl; reflexivity|].
  cbn [app down_to]. destruct (place_eqb (c :: r ++ p)%list p) eqn:E.
  - apply place_eqb_eq, (f_equal (@List.length string)) in E. cbn in E. rewrite app_length in E. lia.
  - rewrite IH. reflexivity.
Qed.
Lemma scopes_qualified : forall l x, scopes l ++ x = qualified l x.
Proof. induction l as [|c l IH]; intros x; [reflexivity|]. cbn [scopes qualified]. rewrite <- IH, !app_assoc_s. reflexivity. Qed.
Lemma qualified_last : forall l c x, qualified (l ++ [c])%list x = qualified l (c ++ "::" ++ x).
Proof. induction l as [|d l IH]; intros c x; [reflexivity|]. cbn [List.app qualified]. rewrite IH. reflexivity. Qed.
Lemma scope_qualified : forall q x, Forall ident q -> q <> [] -> scope q ++ "::" ++ x = qualified (rev q) x.
Proof.
  induction q as [|c o IH]; intros x F NE; [congruence|]. inversion F as [|? ? [C1 C2] F']; subst. cbn [scope rev]. rewrite qualified_last. destruct o as [|d o].
  - reflexivity.
  - assert (S : scope (d :: o) <> "").
    { clear - F'. inversion F' as [|? ? [D1 D2] F'']; subst. cbn [scope]. destruct (String.eqb (scope o) "") eqn:E; [exact D1|]. destruct (scope o); discriminate. }
    apply String.eqb_neq in S. rewrite S. rewrite !app_assoc_s. apply (IH (c ++ "::" ++ x) F'). discriminate.
Qed.

(** The name that generate() writes, in the module at [p], for the declaration [x] of the module at [q] it decided to
    qualify: the parser, reading that name in [p], finds the declaration of [q].
    What is missing: an outer module [c::o] is named by its last name only, so the innermost submodule of that name seen from
    [p] must be that one ([C39_scope_refuted]). *)
Theorem C39_scope_partial : forall root p q x, no_nulls root -> exists_module root p = true -> exists_module root q = true -> Forall ident q -> ident x -> declares root x q = true ->
  (forall c o, q = c :: o -> (exists r d, p = r ++ d :: q)%list -> forall h, around h p -> exists_module root (c :: h) = true -> around h o) ->
  resolves root p (relative_scope p q ++ x) (Some (q, x)).
Proof.
  intros root p q x N Ep Eq Iq Ix D H.
  assert (K : forall abs qs, render abs qs x = relative_scope p q ++ x -> Forall ident qs -> named_module root p abs qs = Some q -> resolves root p (relative_scope p q ++ x) (Some (q, x))).
  { intros abs qs E F M. rewrite <- E. assert (L : lookup_name root p abs qs x = Some (q, x)).
    { unfold lookup_name. rewrite M. assert (Q : enclosing (declares root x) q = Some q) by (destruct q; cbn [enclosing]; rewrite D; reflexivity). rewrite Q. reflexivity. }
    rewrite <- L. apply resolves_name; [apply Forall_forall; intros c _; apply N|exact Ep|exact F|exact Ix]. }
  unfold relative_scope in *. destruct (place_eqb p q) eqn:E1.
  { apply place_eqb_eq in E1. subst q. apply (K false []); [reflexivity|constructor|]. unfold named_module. cbn [rev List.app]. rewrite Ep. reflexivity. }
  destruct (inside p q) eqn:E2.
  { apply inside_iff in E2. destruct q as [|c o].
    - apply (K true []); [reflexivity|constructor|]. unfold named_module. cbn [rev List.app]. rewrite Eq. reflexivity.
    - apply (K false [c]); [cbn [render qualified]; rewrite app_assoc_s; reflexivity|inversion Iq; constructor; [assumption|constructor]|].
      assert (S : enclosing (has_inner root c) p = Some o).
      { pose proof (enclosing_spec (has_inner root c) p) as S. assert (Ao : around o p) by (destruct E2 as (r & d & ->); exists (r ++ [d; c])%list; rewrite <- app_assoc; reflexivity).
        destruct (enclosing (has_inner root c) p) as [h|].
        - destruct S as (A & B & C). f_equal. apply around_antisym; [|apply C; [exact Ao|rewrite (has_inner_exists _ _ _ N); exact Eq]].
          apply (H c o eq_refl E2 h A). rewrite <- (has_inner_exists _ _ _ N). exact B.
        - specialize (S o Ao). rewrite (has_inner_exists _ _ _ N) in S. congruence. }
      unfold named_module. rewrite S. cbn [rev List.app]. rewrite Eq. reflexivity. }
  destruct (toward p q) as [i|] eqn:E3.
  { destruct (toward_some _ _ _ E3) as (c & r & -> & Q). replace (r ++ c :: p)%list with ((r ++ [c]) ++ p)%list in Q by (rewrite <- app_assoc; reflexivity).
    assert (Dn : down_to p q = c :: rev r) by (rewrite Q, down_to_below, rev_app_distr; reflexivity). rewrite Dn in *.
    apply (K false (c :: rev r)); [symmetry; apply scopes_qualified|change (c :: rev r) with ([c] ++ rev r)%list; rewrite <- (rev_involutive ([c] ++ rev r)), rev_app_distr, rev_involutive; apply Forall_rev; rewrite Q in Iq; apply Forall_app in Iq as [Iq _]; exact Iq|].
    assert (Hc : has_inner root c p = true). { rewrite (has_inner_exists _ _ _ N). apply (exists_around root _ q); [|exact Eq]. exists r. rewrite Q, <- app_assoc. reflexivity. }
    unfold named_module. assert (S : enclosing (has_inner root c) p = Some p) by (destruct p; cbn [enclosing]; rewrite Hc; reflexivity). rewrite S. cbn [rev]. rewrite rev_involutive, <- Q, Eq. reflexivity. }
  assert (NE : q <> []). { intros ->. destruct (inside_iff p []) as [_ I]. rewrite I in E2; [discriminate|]. destruct p as [|d p] using rev_ind; [discriminate E1|]. exists p, d. reflexivity. }
  apply (K true (rev q)); [|apply Forall_rev, Iq|].
  - cbn [render]. rewrite <- (scope_qualified q x Iq NE). cbn [append]. rewrite !app_assoc_s. reflexivity.
  - unfold named_module. rewrite rev_involutive, app_nil_r, Eq. reflexivity.
Qed.

(** ** The modules A, A::B, A::B::A, A::C and D; [X] is declared in A, A::B::A, A::C and D. *)
Definition sc_X : ty := TStruct "X" 0 [].
Definition sc_tabs : tables := set_structs [("X", sc_X)] no_tables.
Definition sc_tree : modl := Mod "" no_tables
  [("A", Some (Mod "A" sc_tabs [("B", Some (Mod "B" no_tables [("A", Some (Mod "A" sc_tabs []))])); ("C", Some (Mod "C" sc_tabs []))])); ("D", Some (Mod "D" sc_tabs []))].
Ltac one_of H := repeat match type of H with context [String.eqb ?a ?b] => destruct (String.eqb a b); cbn in H end; try discriminate H.
Lemma sc_no_nulls : no_nulls sc_tree.
Proof.
  intros c q m Hm Ha. rewrite mod_at_walk in Hm. destruct (rev q) as [|a l1]; cbn [walk] in Hm; [injection Hm as <-; cbn in Ha; one_of Ha|].
  cbn in Hm. one_of Hm.
  - destruct l1 as [|b l2]; cbn [walk] in Hm; [injection Hm as <-; cbn in Ha; one_of Ha|]. cbn in Hm. one_of Hm.
    + destruct l2 as [|d l3]; cbn [walk] in Hm; [injection Hm as <-; cbn in Ha; one_of Ha|]. cbn in Hm. one_of Hm.
      destruct l3 as [|? l3]; cbn in Hm; [injection Hm as <-; discriminate Ha|discriminate Hm].
    + destruct l2 as [|? ?]; cbn in Hm; [injection Hm as <-; discriminate Ha|discriminate Hm].
  - destruct l1 as [|? ?]; cbn in Hm; [injection Hm as <-; discriminate Ha|discriminate Hm].
Qed.
(** From A::B the [X] of A would be found as A::X, if A::B::A did not exist: the conditions of the theorem. *)
Example C39_scope_nontrivial :
  (forall p q t, In (p, q, t) [(["C"; "A"], ["A"], "A::X"); ([], ["C"; "A"], "A::C::X"); (["B"; "A"], ["A"; "B"; "A"], "A::X"); (["B"; "A"], ["C"; "A"], "::A::C::X"); (["C"; "A"], ["D"], "::D::X")] ->
    relative_scope p q ++ "X" = t /\ resolves sc_tree p t (Some (q, "X"))).
Proof.
  intros p q t H. assert (I : ident "A" /\ ident "B" /\ ident "C" /\ ident "D" /\ ident "X") by (unfold ident; repeat split; discriminate). destruct I as (IA & IB & IC & ID & IX).
  repeat (destruct H as [H | H]; [injection H as <- <- <-; split; [reflexivity|]; match goal with |- resolves _ ?p ?t (Some (?q, _)) => change t with (relative_scope p q ++ "X") end; apply C39_scope_partial; [exact sc_no_nulls|reflexivity|reflexivity|repeat constructor; (apply IA || apply IB || apply IC || apply ID)|exact IX|reflexivity|]|]); [..|contradiction].
  - intros c o E _ h (r & A) M. injection E as <- <-. destruct r as [|? [|? [|? r]]]; cbn in A; try discriminate A; [subst h; discriminate M|injection A as _ <-; discriminate M|injection A as _ _ <-; exists []; reflexivity].
  - intros c o E (r & d & A). destruct r; discriminate A.
  - intros c o E (r & d & A). apply (f_equal (@List.length string)) in A. rewrite app_length in A. cbn in A. lia.
  - intros c o E (r & d & A). apply (f_equal (@List.length string)) in A. rewrite app_length in A. cbn in A. lia.
  - intros c o E (r & d & A). destruct r as [|? [|? r]]; cbn in A; try discriminate A. injection A as _ _ A. destruct r; discriminate A.
Qed.
(** An outer module hidden by an inner one of the same name: from A::B the [X] of A is written A::X, which is the [X] of
    A::B::A there. *)
Theorem C39_scope_refuted : exists root p q x q', no_nulls root /\ exists_module root p = true /\ exists_module root q = true /\ Forall ident q /\ ident x /\ declares root x q = true /\
  resolves root p (relative_scope p q ++ x) (Some (q', x)) /\ q' <> q.
Proof.
  exists sc_tree, ["B"; "A"], ["A"], "X", ["A"; "B"; "A"]. split; [exact sc_no_nulls|]. split; [reflexivity|]. split; [reflexivity|]. split; [constructor; [split; [discriminate|reflexivity]|constructor]|]. split; [split; [discriminate|reflexivity]|].
  split; [reflexivity|]. split; [exists 9%nat; vm_compute; reflexivity|discriminate].
Qed.

Print Assumptions C39_scope_partial.
Print Assumptions C39_scope_refuted.
