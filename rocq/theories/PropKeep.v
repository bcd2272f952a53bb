(** Theorems about what a context holds after a parse, whether it returns or throws: C60. *)
From Verif Require Import Base Types TypeBuild Compat Mem Hash MapOps Ops Module ModuleSpec ModuleFacts NumSpec IntSpec IntOps IdlLit IdlExpr IdlSpec Peg0 Grammar Peg PegFacts IdlParse IdlParseFacts PropParse KeepRun KeepSpec KeepFacts KeepSteady KeepNull.
Local Open Scope string_scope.

(** parse(text, context) on a context with module [root] returns or throws [r] and leaves the module [root'] behind. *)
Definition leaves fc flt flit (c : ctx) (text : string) (root root' : modl) (r : res bool) : Prop :=
  exists n, parse_run fc flt flit n c text root = (root', r) /\ r <> Fail Loop.
Lemma leaves_at : forall fc flt flit c text root n root' r, parse_run fc flt flit n c text root = (root', r) -> r <> Fail Loop -> leaves fc flt flit c text root root' r.
Proof. intros. exists n. auto. Qed.
Ltac left_behind := eapply (leaves_at _ _ _ _ _ _ 600); [vm_compute; reflexivity|discriminate].

Section Values.
  Variable fc : prim -> prim -> list N -> list N.
  Variable flt : arith -> prim -> list N -> list N -> list N.
  Variable flit : prim -> string -> res (list N).
  (** There is one answer and one module left behind; they are the ones of [parses]. *)
Theorem C60_one : forall c text root r1 x1 r2 x2, leaves fc flt flit c text root r1 x1 -> leaves fc flt flit c text root r2 x2 -> r1 = r2 /\ x1 = x2.
  Proof.
    intros c text root r1 x1 r2 x2 (n1 & E1 & N1) (n2 & E2 & N2). pose proof (firm_parse fc flt flit c text root) as F. destruct (Nat.le_ge_cases n1 n2) as [L|L].
    - specialize (F n1 n2 L). cbv beta in F. rewrite E1, E2 in F. specialize (F N1). split; congruence.
    - specialize (F n2 n1 L). cbv beta in F. rewrite E1, E2 in F. specialize (F N2). split; congruence.
  Qed.
Theorem C60_answer : forall c text root b root', parses fc flt flit c text root (Ok (b, root')) <-> leaves fc flt flit c text root root' (Ok b).
  Proof.
    intros c text root b root'. split.
    - intros (n & H). specialize (H n (le_n n)). exists n. split; [|discriminate]. pose proof (agree_parse fc flt flit n c text root) as A. unfold agree in A. destruct (parse_run fc flt flit n c text root) as [r [a|e]]; rewrite H in A; congruence.
    - intros (n & H & _). apply (parses_at _ _ _ _ _ _ n); [|discriminate]. pose proof (agree_parse fc flt flit n c text root) as A. unfold agree in A. rewrite H in A. exact A.
  Qed.
Theorem C60_thrown : forall c text root e, e <> Loop -> (parses fc flt flit c text root (Fail e) <-> exists root', leaves fc flt flit c text root root' (Fail e)).
  Proof.
    intros c text root e NL. split.
    - intros (n & H). specialize (H n (le_n n)). pose proof (agree_parse fc flt flit n c text root) as A. unfold agree in A. destruct (parse_run fc flt flit n c text root) as [r [a|e']] eqn:E; rewrite H in A; [discriminate A|]. injection A as ->. exists r, n. split; [exact E|congruence].
    - intros (root' & n & H & _). apply (parses_at _ _ _ _ _ _ n); [|congruence]. pose proof (agree_parse fc flt flit n c text root) as A. unfold agree in A. rewrite H in A. exact A.
  Qed.
  (** Whatever the text, and whether parse returns or throws: nothing declared before is lost or changed. *)
Theorem C60_kept : forall c text root root' r, leaves fc flt flit c text root root' r -> keeps root root'.
  Proof. intros c text root root' r (n & H & _). pose proof (safe_parse fc flt flit n c text root) as S. rewrite H in S. exact S. Qed.
  (** Any number of parses, with any settings, some of them failing. *)
Inductive history : modl -> modl -> Prop :=
  | none_parsed : forall root, history root root
  | one_more : forall root root1 root2 c text r, history root root1 -> leaves fc flt flit c text root1 root2 r -> history root root2.
Theorem C60_history : forall root root', history root root' -> keeps root root'.
  Proof. intros root root' H. induction H as [root|root root1 root2 c text r H IH L]; [apply keeps_refl|]. eapply keeps_trans; [exact IH|eapply C60_kept, L]. Qed.
  (** No parse puts a null pointer into the tree of modules. *)
Theorem C60_no_nulls : forall root root', history root root' -> no_nulls root -> no_nulls root'.
  Proof.
    intros root root' H. induction H as [root|root root1 root2 c text r H IH (n & L & _)]; [auto|]. intros N. pose proof (clean_parse fc flt flit n c text root1 (IH N)) as C. rewrite L in C. exact C.
  Qed.
  (** The absolute name of a type or constant finds it after any number of parses, from every module. *)
  Lemma still_found : forall root q x p, no_nulls root -> Forall ident q -> ident x -> declares root x q = true -> exists_module root p = true -> resolves root p (render true (rev q) x) (Some (q, x)).
  Proof.
    intros root q x p N I X D P. assert (IR : Forall ident (rev q)) by (apply Forall_rev; exact I). pose proof (resolves_name root p true (rev q) x) as R. unfold lookup_name, named_module in R. rewrite rev_involutive, app_nil_r in R.
    assert (EX : exists_module root q = true) by (unfold exists_module; unfold declares in D; destruct (mod_at root q); congruence). rewrite EX in R.
    assert (EN : enclosing (declares root x) q = Some q) by (destruct q; cbn [enclosing]; rewrite D; reflexivity). rewrite EN in R. apply R; auto. apply Forall_forall. intros c _. apply N.
  Qed.
Theorem C60_absolute : forall root root' q k x t p, no_nulls root -> history root root' -> Forall ident q -> ident x -> entry root q k x = Some t -> exists_module root' p = true ->
    resolves root' p (render true (rev q) x) (Some (q, x)) /\ exists t', entry root' q k x = Some t' /\ (settled k t -> t' = t).
  Proof.
    intros root root' q k x t p N H I X E P. destruct (C60_history _ _ H) as (_ & T & _). destruct (T _ _ _ _ E) as (t' & E' & S). split; [|exists t'; auto].
    apply still_found; auto; [eapply C60_no_nulls; eassumption|eapply declares_entry, E'].
  Qed.
Theorem C60_absolute_constant : forall root root' q x d p, no_nulls root -> history root root' -> Forall ident q -> ident x -> const_entry root q x = Some d -> exists_module root' p = true ->
    resolves root' p (render true (rev q) x) (Some (q, x)) /\ const_entry root' q x = Some d.
  Proof.
    intros root root' q x d p N H I X E P. destruct (C60_history _ _ H) as (_ & _ & C). pose proof (C _ _ _ E) as E'. split; [|exact E'].
    apply still_found; auto; [eapply C60_no_nulls; eassumption|]. unfold declares, const_entry, tab_at, has_symbol_here, mem in *. destruct (mod_at root' q) as [m|]; [|discriminate E']. rewrite E', !orb_true_r. reflexivity.
  Qed.
End Values.

Definition kp_base : string := "module M { struct S { long a; }; const long N = 3; }; struct F; typedef long T;".
Definition kp_more : string := "struct F { double x; }; module M { enum E { A, B }; struct S { double b; }; };".
(** Three parses, the second throws; every declaration of the first is there, the announced struct got its members. *)
Example C60_nontrivial : forall fc flt flit, exists root1 root2, leaves fc flt flit default_ctx kp_base root_module root1 (Ok true) /\
  leaves fc flt flit default_ctx kp_more root1 root2 (Fail Throw) /\
  entry root1 ["M"] Structs "S" = Some (TStruct "M::S" 4 [("a", 0%N, TPrim PI32)]) /\ entry root2 ["M"] Structs "S" = Some (TStruct "M::S" 4 [("a", 0%N, TPrim PI32)]) /\
  entry root1 [] Structs "F" = Some (TStruct "F" 0 []) /\ entry root2 [] Structs "F" = Some (TStruct "F" 8 [("x", 0%N, TPrim PF64)]) /\
  entry root1 ["M"] Enums "E" = None /\ entry root2 ["M"] Enums "E" = Some (TEnum "M::E" 4 [("A", 0%N); ("B", 1%N)]) /\ const_entry root1 ["M"] "N" <> None.
Proof. intros fc flt flit. do 2 eexists. split; [left_behind|]. split; [left_behind|]. repeat split; vm_compute; discriminate. Qed.

Print Assumptions C60_one.
Print Assumptions C60_answer.
Print Assumptions C60_thrown.
Print Assumptions C60_kept.
Print Assumptions C60_history.
Print Assumptions C60_no_nulls.
Print Assumptions C60_absolute.
Print Assumptions C60_absolute_constant.
