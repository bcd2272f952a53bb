(** The answer of the parser does not depend on the fuel of the model. *)
From Verif Require Import Base Types TypeBuild Compat Mem Hash MapOps Ops Module ModuleFacts IntOps IdlLit Peg0 Grammar Peg PegFacts IdlParse.
Local Open Scope string_scope.

(** More fuel does not change an answer. *)
Definition steady {A} (f : nat -> res A) : Prop := forall n m, (n <= m)%nat -> f n <> Fail Loop -> f m = f n.
Lemma steady_const {A} (x : res A) : steady (fun _ => x).
Proof. intros n m _ _; reflexivity. Qed.
Lemma steady_bind {A B} (f : nat -> res A) (g : nat -> A -> res B) :
  steady f -> (forall a, steady (fun n => g n a)) -> steady (fun n => bind (f n) (g n)).
Proof.
  intros Hf Hg n m L H. destruct (f n) as [a|e] eqn:E; cbn [bind] in H.
  - rewrite (Hf n m L) by congruence. rewrite E. cbn [bind]. apply Hg; assumption.
  - rewrite (Hf n m L) by congruence. rewrite E. reflexivity.
Qed.
Lemma steady_ext {A} (f g : nat -> res A) : (forall n, f n = g n) -> steady f -> steady g.
Proof. intros E H n m L Hn. rewrite <- !E in *. apply H; assumption. Qed.

Lemma steady_matches : forall r x, forall n m, (n <= m)%nat -> matches n r x <> None -> matches m r x = matches n r x.
Proof.
  intros r x n m L H. unfold matches in *. destruct (peg n (Ref r) x) as [o|] eqn:E; [|congruence].
  rewrite (peg_mono _ _ _ _ _ L E). reflexivity.
Qed.
Lemma steady_any_matches : forall l x, steady (fun n => any_matches n l x).
Proof.
  induction l as [|r l IH]; intros x; [intros n m _ _; reflexivity|]. intros n m L H. cbn [any_matches] in *.
  destruct (matches n r x) as [b|] eqn:E; [|congruence].
  rewrite (steady_matches r x n m L) by congruence. rewrite E. destruct b; [reflexivity|apply IH; assumption].
Qed.
Lemma steady_resolve : forall n m root p sym orig first, (n <= m)%nat ->
  resolve_scope n root p sym orig first <> Fail Loop -> resolve_scope m root p sym orig first = resolve_scope n root p sym orig first.
Proof.
  induction n as [|n IH]; intros m root p sym orig first L H; [cbn in H; congruence|].
  destruct m as [|m]; [lia|]. apply le_S_n in L. cbn [resolve_scope] in *.
  destruct (mod_at root p) as [mo|]; [|reflexivity].
  destruct (negb first && String.eqb sym orig); [reflexivity|].
  destruct (split_scope sym) as [[sc rest]|].
  - destruct (String.eqb sc "").
    + destruct p; apply IH; assumption.
    + assert (K : forall A B : res (option (place * string)), (A <> Fail Loop -> B = A) ->
        bind A (fun r => match r with Some _ => Ok r | None => if mem sc (m_inner mo) then resolve_scope n root (sc :: p) rest orig false
                 else match p with [] => Ok None | _ :: o => if first then resolve_scope n root o orig orig true else Ok None end end) <> Fail Loop ->
        bind B (fun r => match r with Some _ => Ok r | None => if mem sc (m_inner mo) then resolve_scope m root (sc :: p) rest orig false
                 else match p with [] => Ok None | _ :: o => if first then resolve_scope m root o orig orig true else Ok None end end) =
        bind A (fun r => match r with Some _ => Ok r | None => if mem sc (m_inner mo) then resolve_scope n root (sc :: p) rest orig false
                 else match p with [] => Ok None | _ :: o => if first then resolve_scope n root o orig orig true else Ok None end end)).
      { intros A B HAB HA. destruct A as [a|e]; cbn [bind] in HA |- *.
        - rewrite HAB by congruence. cbn [bind]. destruct a; [reflexivity|]. destruct (mem sc (m_inner mo)); [apply IH; assumption|].
          destruct p; [reflexivity|]. destruct first; [apply IH; assumption|reflexivity].
        - rewrite HAB by congruence. reflexivity. }
      apply K; [|exact H]. destruct (String.eqb sc (m_name_ mo) && mem sc (m_inner mo)); [apply IH; exact L|reflexivity].
  - destruct (has_symbol_here mo sym); [reflexivity|]. destruct p; [reflexivity|apply IH; assumption].
Qed.

Ltac steady_step :=
  match goal with
  | |- forall _, _ => intro
  | H : steady _ |- steady _ => exact H
  | H : forall _, steady _ |- steady _ => apply H
  | H : forall _ _, steady _ |- steady _ => apply H
  | |- steady (fun n => bind (@?f n) (@?g n)) => apply (steady_bind f g)
  | |- steady (fun _ => ?x) => apply (steady_const x)
  | |- context [match ?x with _ => _ end] => destruct x
  | |- context [if ?x then _ else _] => destruct x
  end.
Ltac steadily := repeat steady_step.

Lemma steady_is_token : forall c x, steady (fun n => is_token n c x).
Proof. intros c x. unfold is_token. apply steady_any_matches. Qed.
Lemma steady_resolve_identifier : forall c root p x b, steady (fun n => resolve_identifier n c root p x b).
Proof.
  intros c root p x b. unfold resolve_identifier. pose proof (steady_is_token c x) as H.
  destruct x as [|k r]; [|destruct k as [[] [] [] [] [] [] [] []]]; steadily.
Qed.
Lemma steady_res : forall root p x, steady (fun n => resolve n root p x).
Proof. intros root p x n m L H. unfold resolve in *. apply steady_resolve; assumption. Qed.
Lemma steady_find : forall A root p (tab : tables -> list (string * A)) x, steady (fun n => find_in n root p tab x).
Proof. intros. unfold find_in. pose proof (steady_res root p x). steadily. Qed.
Lemma steady_type_named : forall root p x, steady (fun n => type_named n root p x).
Proof. intros. unfold type_named. pose proof (steady_res root p x). steadily. Qed.
Lemma steady_constant_dimension : forall root p x, steady (fun n => constant_dimension n root p x).
Proof. intros. unfold constant_dimension. pose proof (steady_find _ root p consts x). steadily. Qed.
Lemma steady_get_dimension : forall root p a, steady (fun n => get_dimension n root p a).
Proof. intros. unfold get_dimension. pose proof (steady_constant_dimension root p (a_tok a)). steadily. Qed.

Lemma ast_rect' : forall P : ast -> Prop, (forall o t k l, Forall P l -> P (Ast o t k l)) -> forall a, P a.
Proof.
  intros P H. fix IH 1. intros [o t k l]. apply H. induction l as [|x l IHl]; constructor; [apply IH|exact IHl].
Qed.
Lemma steady_type_spec : forall c root p a, steady (fun n => type_spec n c root p a).
Proof.
  intros c root p. induction a as [o t k l IH] using ast_rect'.
  pose proof (steady_type_named root p k). pose proof (steady_find _ root p consts k). pose proof (steady_constant_dimension root p k).
  pose proof (steady_get_dimension root p).
  destruct l as [|x [|y [|z l]]]; destruct t; cbn [type_spec];
    repeat match goal with H : Forall _ (_ :: _) |- _ => inversion H; clear H; subst end; steadily.
Qed.
Lemma steady_declarator_parts : forall c root p l name dims, steady (fun n => declarator_parts n c root p l name dims).
Proof.
  intros c root p. induction l as [|a l IH]; intros name dims; cbn [declarator_parts]; [steadily|].
  pose proof (steady_resolve_identifier c root p (a_tok a) false). pose proof (steady_constant_dimension root p (a_tok a)).
  destruct (a_tag a); steadily; apply IH.
Qed.
Lemma steady_declarator : forall c root p a, steady (fun n => declarator n c root p a).
Proof.
  intros. unfold declarator. pose proof (steady_resolve_identifier c root p (a_tok a) false). pose proof (steady_declarator_parts c root p (a_sub a) "" []).
  destruct (a_tag a); steadily.
Qed.
Lemma steady_map_res : forall A B (f : nat -> A -> res B), (forall a, steady (fun n => f n a)) -> forall l, steady (fun n => map_res (f n) l).
Proof. intros A B f H. induction l as [|x l IH]; cbn [map_res]; steadily. Qed.
Lemma steady_identifier_list : forall c root p a, steady (fun n => identifier_list n c root p a).
Proof.
  intros. unfold identifier_list. pose proof (steady_declarator c root p). destruct (rule_eqb (a_tag a) (a_orig a)); [|steadily].
  apply steady_map_res. assumption.
Qed.
Lemma steady_member_def : forall c root p l t ms, steady (fun n => member_def n c root p l t ms).
Proof.
  intros c root p. induction l as [|a l IH]; intros t ms; cbn [member_def]; [steadily|].
  pose proof (steady_type_spec c root p a). pose proof (steady_identifier_list c root p a). 
  destruct (a_orig a); steadily; apply IH.
Qed.
Lemma steady_lookup : forall k root p x, steady (fun n => lookup n k root p x).
Proof. intros. unfold lookup. pose proof (steady_res root p x). steadily. Qed.
Lemma steady_declare_struct : forall c root p x, steady (fun n => declare_struct n c root p x).
Proof. intros. unfold declare_struct. pose proof (steady_resolve_identifier c root p x true). steadily. Qed.
Lemma steady_struct_parts : forall c p l s, steady (fun n => struct_parts n c p l s).
Proof.
  intros c p. induction l as [|a l IH]; intros s; cbn [struct_parts]; [steadily|].
  pose proof (steady_declare_struct c (sa_root s) p (a_tok a)). pose proof (steady_find _ (sa_root s) p structs (a_tok a)).
  pose proof (steady_member_def c (sa_root s) p (a_sub a) None (sa_ms s)).
  destruct (a_orig a); steadily; apply IH.
Qed.
Lemma steady_struct_def : forall c p a root, steady (fun n => struct_def n c p a root).
Proof.
  intros. unfold struct_def. pose proof (steady_struct_parts c p (a_sub a) (SA root "" "" [])).
  pose proof (fun r => steady_declare_struct c r p (a_tok a)). pose proof (fun r x => steady_lookup Structs r p x).
  apply steady_bind; [assumption|intro s].
  apply steady_bind; [destruct (String.eqb (sa_name s) "" && rule_eqb (a_tag a) R_IDENTIFIER); steadily|intro s'].
  steadily.
Qed.
Lemma steady_forward_dcl : forall c p a root, steady (fun n => forward_dcl n c p a root).
Proof. intros. unfold forward_dcl. pose proof (steady_resolve_identifier c root p (a_tok a) false). steadily. Qed.
Lemma steady_alias_dcl : forall c p a root, steady (fun n => alias_dcl n c p a root).
Proof.
  intros. unfold alias_dcl. destruct (a_sub a) as [|x [|y l]]; [steadily|steadily|].
  pose proof (steady_type_spec c root p x). pose proof (fun z => steady_resolve_identifier c root p z (ignore_redefinition c)). pose proof (steady_res root p).
  apply steady_bind; [assumption|intro t]. apply steady_bind; [|steadily]. destruct (a_tag y); steadily.
Qed.

Section Values.
  Variable fc : prim -> prim -> list N -> list N.
  Variable flt : arith -> prim -> list N -> list N -> list N.
  Variable flit : prim -> string -> res (list N).

  Lemma steady_solve_expr : forall root p t a, steady (fun n => solve_expr fc flt flit n root p t a).
  Proof.
    intros root p t. induction a as [o g k l IH] using ast_rect'.
    pose proof (steady_find _ root p consts k).
    destruct l as [|x [|y [|z l]]]; destruct g; cbn [solve_expr];
      repeat match goal with H : Forall _ (_ :: _) |- _ => inversion H; clear H; subst end; steadily.
  Qed.
  Lemma steady_const_dcl : forall c p a root, steady (fun n => const_dcl fc flt flit n c p a root).
  Proof.
    intros. unfold const_dcl. destruct (a_sub a) as [|x [|i [|e l]]]; try solve [steadily].
    pose proof (steady_type_spec c root p x). pose proof (fun t => steady_solve_expr root p t e).
    repeat (apply steady_bind; [solve [steadily]|intro]). steadily.
  Qed.
  Lemma steady_case_member_def : forall c root p l t ds, steady (fun n => case_member_def n c root p l t ds).
  Proof.
    intros c root p. induction l as [|a l IH]; intros t ds; cbn [case_member_def]; [steadily|].
    pose proof (steady_type_spec c root p a). pose proof (steady_declarator c root p a).
    destruct (a_orig a); steadily; apply IH.
  Qed.
  Lemma steady_switch_case : forall c root p l labels ms acc, steady (fun n => switch_case n c root p l labels ms acc).
  Proof.
    intros c root p. induction l as [|a l IH]; intros labels ms acc; cbn [switch_case]; [steadily|].
    pose proof (steady_find _ root p consts (a_tok a)). pose proof (steady_case_member_def c root p (a_sub a) None []).
    destruct (a_orig a); steadily; apply IH.
  Qed.
  Lemma steady_switch_body : forall c root p l acc, steady (fun n => switch_body n c root p l acc).
  Proof.
    intros c root p. induction l as [|a l IH]; intros acc; cbn [switch_body]; [steadily|].
    pose proof (steady_switch_case c root p (a_sub a) [] [] acc).
    destruct (a_orig a); steadily; apply IH.
  Qed.
  Lemma steady_union_parts : forall c p l root name cs, steady (fun n => union_parts n c p l root name cs).
  Proof.
    intros c p. induction l as [|a l IH]; intros root name cs; cbn [union_parts]; [steadily|].
    pose proof (steady_resolve_identifier c root p (a_tok a) true). pose proof (steady_type_spec c root p a). pose proof (steady_switch_body c root p (a_sub a) cs).
    destruct (a_orig a); steadily; apply IH.
  Qed.
  Lemma steady_union_def : forall c p a root, steady (fun n => union_def n c p a root).
  Proof.
    intros. unfold union_def. pose proof (steady_union_parts c p (a_sub a) root "" []). pose proof (fun r x => steady_lookup Unions r p x).
    steadily.
  Qed.
  Lemma steady_check_names : forall c p l root, steady (fun n => check_names n c p l root).
  Proof.
    intros c p. induction l as [|a l IH]; intros root; cbn [check_names]; [steadily|].
    pose proof (steady_resolve_identifier c root p (a_tok a) true). destruct (a_orig a); steadily; apply IH.
  Qed.
  Lemma steady_build : forall c a p root, steady (fun n => build fc flt flit n c p a root).
  Proof.
    intros c. induction a as [o t k l IH] using ast_rect'; intros p root.
    pose proof (fun q r a => steady_struct_def c q a r). pose proof (steady_forward_dcl c p). pose proof (steady_alias_dcl c p).
    pose proof (steady_const_dcl c p). pose proof (steady_union_def c p). pose proof (steady_check_names c p l).
    pose proof (fun root x => steady_resolve_identifier c root p x true).
    destruct t; cbn [build]; try solve [apply steady_struct_def]; try solve [steadily];
      try solve [revert root; induction IH as [|a l Ha Hl IHl]; intros root; [steadily|];
        apply steady_bind; [apply Ha|intro root'; apply IHl; intros; apply steady_check_names]].
    generalize (@None place) as sc. revert root. induction IH as [|a l Ha Hl IHl]; intros root sc; [steadily|].
    assert (IHl' : forall root sc, steady (fun n => (fix go (l : list ast) (sc : option place) (root : modl) {struct l} : res modl :=
               match l with
               | [] => Ok root
               | a :: r =>
                   match a_tag a with
                   | R_IDENTIFIER =>
                       if rule_eqb (a_orig a) R_IDENTIFIER then
                         do x <- resolve_identifier n c root p (a_tok a) true;
                         do root <- (if has_submodule root p x then Ok root else call_create_submodule x root p);
                         do s <- call_submodule x root p;
                         if fst s then go r (Some (x :: p)) (snd s) else Fail UB
                       else match sc with
                            | Some q => do root <- struct_def n c q a root; go r sc root
                            | None => Fail UB
                            end
                   | _ => do root <- build fc flt flit n c (match sc with Some q => q | None => [] end) a root; go r sc root
                   end
               end) l sc root)) by (intros; apply IHl; intros; apply steady_check_names).
    destruct (a_tag a); try (apply steady_bind; [apply Ha|intro; apply IHl']).
    destruct (rule_eqb (a_orig a) R_IDENTIFIER).
    - apply steady_bind; [apply H5|intro x]. apply steady_bind; [steadily|intro r]. apply steady_bind; [steadily|intro s].
      destruct (fst s); [apply IHl'|steadily].
    - destruct sc; [|steadily]. apply steady_bind; [apply H|intro; apply IHl'].
  Qed.
  (** More fuel does not change the answer of parse. *)
  Lemma steady_parse : forall c text root, steady (fun n => parse_idl fc flt flit n c text root).
  Proof.
    intros c text root n m L H. unfold parse_idl in *. unfold parse_document in *.
    destruct (peg n (Ref R_DOCUMENT) text) as [o|] eqn:E; [|congruence]. rewrite (peg_mono _ _ _ _ _ L E).
    destruct o as [|cs [|a []] ts [|]]; try reflexivity.
    refine (steady_bind _ _ (steady_build c (optimize a) [] root) _ n m L H). intros; apply steady_const.
  Qed.
End Values.
