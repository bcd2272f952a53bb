(** The module left behind does not depend on the fuel of the model. *)
From Verif Require Import Base Types TypeBuild Compat Mem Hash MapOps Ops Module ModuleFacts NumSpec IntSpec IntOps IdlLit IdlExpr IdlSpec Peg0 Grammar Peg PegFacts IdlParse IdlParseFacts KeepRun.
Local Open Scope string_scope.

Definition firm {A} (f : nat -> run A) : Prop := forall n m, (n <= m)%nat -> snd (f n) <> Fail Loop -> f m = f n.
Lemma firm_const : forall A (x : run A), firm (fun _ => x).
Proof. intros A x n m _ _; reflexivity. Qed.
Lemma firm_query : forall A B root (f : nat -> res A) (g : nat -> A -> run B), steady f -> (forall a, firm (fun n => g n a)) -> firm (fun n => query root (f n) (g n)).
Proof.
  intros A B root f g Hf Hg n m L H. unfold query in *. destruct (f n) as [a|e] eqn:E; cbn [snd] in H.
  - rewrite (Hf n m L) by congruence. rewrite E. apply Hg; assumption.
  - rewrite (Hf n m L) by congruence. rewrite E. reflexivity.
Qed.
Lemma firm_then : forall A B (f : nat -> run A) (g : nat -> A -> modl -> run B), firm f -> (forall a r, firm (fun n => g n a r)) -> firm (fun n => andthen (f n) (g n)).
Proof.
  intros A B f g Hf Hg n m L H. unfold andthen in *. pose proof (Hf n m L) as F. destruct (f n) as [r [a|e]] eqn:E; cbn [snd] in *.
  - rewrite F by discriminate. apply Hg; assumption.
  - rewrite F by congruence. reflexivity.
Qed.
Lemma firm_update_ : forall root (f : nat -> res modl), steady f -> firm (fun n => update_ root (f n)).
Proof.
  intros root f Hf n m L H. unfold update_ in *. destruct (f n) as [a|e] eqn:E; cbn [snd] in *; rewrite (Hf n m L) by congruence; rewrite E; reflexivity.
Qed.
Ltac firm_step :=
  match goal with
  | |- forall _, _ => intro
  | H : firm _ |- firm _ => exact H
  | H : forall _, firm _ |- firm _ => apply H
  | H : forall _ _, firm _ |- firm _ => apply H
  | |- firm (fun n => query ?root (@?f n) (@?g n)) => apply (firm_query _ _ root f g); [solve [steadily]|]
  | |- firm (fun n => andthen (@?f n) (@?g n)) => apply (firm_then _ _ f g)
  | |- firm (fun _ => ?x) => apply (firm_const _ x)
  | |- context [match ?x with _ => _ end] => destruct x
  | |- context [if ?x then _ else _] => destruct x
  end.
Ltac firmly := repeat firm_step.
Lemma firm_declare : forall c p x root, firm (fun n => declare_struct_run n c p x root).
Proof. intros. unfold declare_struct_run. pose proof (steady_resolve_identifier c root p x true). firmly. Qed.
Lemma firm_struct_parts : forall c p l name parent ms root, firm (fun n => struct_parts_run n c p l name parent ms root).
Proof.
  intros c p. induction l as [|a l IH]; intros name parent ms root; cbn [struct_parts_run]; [firmly|].
  pose proof (firm_declare c p (a_tok a) root). pose proof (steady_find _ root p structs (a_tok a)). pose proof (steady_member_def c root p (a_sub a) None ms).
  destruct (a_orig a); firmly; apply IH.
Qed.
Lemma firm_struct : forall c p a root, firm (fun n => struct_run n c p a root).
Proof.
  intros. unfold struct_run. pose proof (firm_struct_parts c p (a_sub a) "" "" [] root). pose proof (fun r => firm_declare c p (a_tok a) r). pose proof (fun r x => steady_lookup Structs r p x).
  apply firm_then; [assumption|]. intros [[name parent] ms] r. apply firm_then; [destruct (_ && _); firmly|]. intros nm r'. apply firm_query; [apply H1|]. intros [[q y] t]. destruct (members_of t); [|firmly]. destruct (String.eqb parent ""); [firmly|].
  apply firm_query; [apply H1|]. intro b. apply firm_query; [steadily|]. intro t'. apply firm_then; [firmly|]. intros u r2. apply firm_query; [apply H1|]. intro; firmly.
Qed.
Section Values.
  Variable fc : prim -> prim -> list N -> list N.
  Variable flt : arith -> prim -> list N -> list N -> list N.
  Variable flit : prim -> string -> res (list N).
  Lemma firm_union_parts : forall c p l name cs root, firm (fun n => union_parts_run n c p l name cs root).
  Proof.
    intros c p. induction l as [|a l IH]; intros name cs root; cbn [union_parts_run]; [firmly|].
    pose proof (steady_resolve_identifier c root p (a_tok a) true). pose proof (steady_type_spec c root p a). pose proof (steady_switch_body c root p (a_sub a) cs).
    destruct (a_orig a); firmly; apply IH.
  Qed.
  Lemma firm_union : forall c p a root, firm (fun n => union_run n c p a root).
  Proof.
    intros. unfold union_run. pose proof (firm_union_parts c p (a_sub a) "" [] root). pose proof (fun r x => steady_lookup Unions r p x). apply firm_then; [assumption|]. intros s r. apply firm_query; [apply H0|]. intro e. firmly.
  Qed.
  Lemma firm_build : forall c a p root, firm (fun n => build_run fc flt flit n c p a root).
  Proof.
    intros c. induction a as [o t k l IH] using ast_rect'; intros p root.
    destruct t; cbn [build_run]; try solve [apply firm_struct|apply firm_union|apply firm_const|apply firm_update_; first [apply steady_const_dcl|apply steady_forward_dcl|apply steady_alias_dcl|apply steady_check_names]];
      try solve [revert root; induction IH as [|a l Ha Hl IHl]; intros root; [apply firm_const|]; apply firm_then; [apply Ha|intros [] r; apply IHl]].
    generalize (@None place) as sc. revert root. induction IH as [|a l Ha Hl IHl]; intros root sc; [apply firm_const|].
    destruct (a_tag a); try (apply firm_then; [apply Ha|intros [] r; apply IHl]). destruct (rule_eqb (a_orig a) R_IDENTIFIER).
    - apply firm_query; [apply steady_resolve_identifier|]. intro x. apply firm_then; [destruct (has_submodule root p x); apply firm_const|]. intros [] r. apply firm_then; [apply firm_const|].
      intros b r'. destruct b; [apply IHl|apply firm_const].
    - destruct sc as [q|]; [|apply firm_const]. apply firm_then; [apply firm_struct|intros [] r; apply IHl].
  Qed.
  Lemma firm_parse : forall c text root, firm (fun n => parse_run fc flt flit n c text root).
  Proof.
    intros c text root n m L H. unfold parse_run in *. unfold parse_document in *.
    destruct (peg n (Ref R_DOCUMENT) text) as [o|] eqn:E; [|cbn [snd] in H; congruence]. rewrite (peg_mono _ _ _ _ _ L E).
    destruct o as [|cs [|a []] ts [|]]; try reflexivity.
    refine (firm_then _ _ _ _ (firm_build c (optimize a) [] root) _ n m L H). intros; apply firm_const.
  Qed.
End Values.
