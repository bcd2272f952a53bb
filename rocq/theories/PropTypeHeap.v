(** C75, C76, C77: type objects, their copies, and the data made of them. *)
From Verif Require Import Base Types TypeBuild TypeSpec Compat TyInd Mem Ops TypeHeap TypeHeapSpec TypeHeapFacts TypeHeapRel.
From Coq Require Import Lia.

(** The state after a program. *)
Definition after (p : list op) : st := fst (run st0 p).
(** What a step did: returned, asserted, or undefined. *)
Definition outcome (p : list op) (o : op) : res unit := snd (step (after p) o).

Definition obj_type (s : st) (o : obj) : option ty :=
  match at_obj s o with Some a => look_type (the_heap s) a | None => None end.
(** The variable whose object the step changes or ends. *)
Definition target (o : op) : option nat :=
  match o with Change i _ _ | Alter i _ | Drop i => Some i | _ => None end.
(** The object is owned by a DynamicType::Ptr. *)
Definition held (s : st) (o : obj) : bool :=
  match at_obj s o with
  | Some a => match get (the_heap s) a with Some c => managed c | None => false end
  | None => false
  end.

Lemma Forall2_length {A B} {R : A -> B -> Prop} {l m} : Forall2 R l m -> List.length l = List.length m.
Proof. intros F. induction F; cbn; auto. Qed.

Definition vafter (p : list op) : vst := fst (vrun vst0 p).
Lemma after_rel p : rel (after p) (vafter p).
Proof. exact (proj2 (run_rel p _ _ rel0)). Qed.

Lemma run_app s p q : run s (p ++ q) = (fst (run (fst (run s p)) q), snd (run s p) ++ snd (run (fst (run s p)) q))%list.
Proof.
  revert s. induction p as [|o p IH]; intros s; cbn [run app fst snd].
  - now destruct (run s q).
  - destruct (step s o) as [s1 x]. rewrite IH. destruct (run s1 p) as [s2 xs]. reflexivity.
Qed.
Lemma vrun_app s p q : vrun s (p ++ q) = (fst (vrun (fst (vrun s p)) q), snd (vrun s p) ++ snd (vrun (fst (vrun s p)) q))%list.
Proof.
  revert s. induction p as [|o p IH]; intros s; cbn [vrun app fst snd].
  - now destruct (vrun s q).
  - destruct (vstep s o) as [s1 x]. rewrite IH. destruct (vrun s1 p) as [s2 xs]. reflexivity.
Qed.
Lemma after_snoc p o : after (p ++ [o]) = fst (step (after p) o).
Proof. unfold after. rewrite run_app. cbn. now destruct (step (fst (run st0 p)) o). Qed.
Lemma vafter_snoc p o : vafter (p ++ [o]) = fst (vstep (vafter p) o).
Proof. unfold vafter. rewrite vrun_app. cbn. now destruct (vstep (fst (vrun vst0 p)) o). Qed.

Lemma rel_obj s v o : rel s v -> obj_type s o = vobj v o.
Proof.
  intros R. pose proof (obj_at s v o R) as O. unfold obj_type. destruct (vobj v o); [|now rewrite O].
  destruct O as (a & -> & D & _). now apply den_look.
Qed.

(** * C75 *)

(** Programs on types do what they would do if types were plain values (with what
    [TypeHeapSpec] says of data made of pointer variables): same outcomes, same types seen. *)
Theorem C75_values : forall p,
  snd (run st0 p) = snd (vrun vst0 p) /\
  (forall i, var_type (after p) i = vvar_type (vafter p) i) /\
  (forall d, data_type (after p) d = vdata_type (vafter p) d).
Proof.
  intros p. split; [exact (proj1 (run_rel p _ _ rel0))|]. pose proof (after_rel p) as R.
  split; intros; [now apply rel_var|now apply rel_datum].
Qed.

Lemma vvar_snoc l x ds i : vvar (Vst (l ++ [x]) ds) i =
  if Nat.eqb i (List.length l) then x else vvar (Vst l ds) i.
Proof.
  unfold vvar. cbn [vvars]. destruct (Nat.eqb_spec i (List.length l)) as [->|N].
  - rewrite nth_error_app2 by lia. rewrite Nat.sub_diag. cbn. now destruct x.
  - destruct (Nat.lt_ge_cases i (List.length l)) as [L|L]; [now rewrite nth_error_app1|].
    rewrite (proj2 (nth_error_None (l ++ [x]) i)) by (rewrite app_length; cbn; lia).
    now rewrite (proj2 (nth_error_None l i)) by lia.
Qed.

Lemma vstep_keeps v o i w : vvar v i = Some w -> target o <> Some i -> vvar (fst (vstep v o)) i = Some w.
Proof.
  intros W T.
  assert (App : forall x ds, vvar (Vst (vvars v ++ [x]) ds) i = Some w).
  { intros x ds. rewrite vvar_snoc. destruct (Nat.eqb_spec i (List.length (vvars v))) as [->|N]; [|exact W].
    unfold vvar in W. rewrite (proj2 (nth_error_None (vvars v) _)) in W by lia. discriminate. }
  assert (Set_ : forall j x ds, j <> i -> vvar (Vst (set_nth (vvars v) j x) ds) i = Some w).
  { intros j x ds N. unfold vvar. cbn [vvars]. rewrite set_nth_nth. destruct (Nat.eqb_spec i j); [congruence|exact W]. }
  destruct o as [k args|o|o|j c o|j c|j|o]; cbn [vstep target] in *.
  - destruct (all_some _); [|exact W]. destruct (build k l); [apply App|exact W].
  - destruct (vobj v o); [apply App|exact W].
  - destruct (vobj v o); [apply App|exact W].
  - destruct (vvar v j); [|exact W]. destruct (vobj v o); [|exact W]. destruct (changed c _ _). apply Set_. congruence.
  - destruct (vvar v j) as [u|]; [|exact W]. destruct (altered c _ _) as [[? ?] ?]. apply Set_. congruence.
  - destruct (vvar v j); [|exact W]. apply Set_. congruence.
  - destruct (vobj v o); exact W.
Qed.

(** A type in a variable changes only through that variable, whatever it was copied from,
    inserted into, or used for before. *)
Theorem C75_independent : forall p o i t, var_type (after p) i = Some t -> target o <> Some i ->
  var_type (after (p ++ [o])) i = Some t.
Proof.
  intros p o i t V T. rewrite (rel_var _ _ i (after_rel p)) in V. rewrite (rel_var _ _ i (after_rel (p ++ [o]))), vafter_snoc.
  unfold vvar_type in *. destruct (vvar (vafter p) i) as [w|] eqn:W; [|discriminate].
  now rewrite (vstep_keeps _ _ _ _ W T).
Qed.

(** A copy, and what a pointer is made of, has the type of its original. *)
Theorem C75_copy : forall p o t, obj_type (after p) o = Some t ->
  outcome p (Copy o) = Ok tt /\ outcome p (Point o) = Ok tt /\
  var_type (after (p ++ [Copy o])) (List.length (vars (after p))) = Some t /\
  var_type (after (p ++ [Point o])) (List.length (vars (after p))) = Some t.
Proof.
  intros p o t O. pose proof (after_rel p) as R. rewrite (rel_obj _ _ o R) in O. unfold outcome.
  assert (Len : List.length (vars (after p)) = List.length (vvars (vafter p))) by exact (Forall2_length (r_vars _ _ R)).
  rewrite (proj1 (step_rel _ _ (Copy o) R)), (proj1 (step_rel _ _ (Point o) R)). cbn [vstep]. rewrite O.
  split; [reflexivity|]. split; [reflexivity|].
  rewrite (rel_var _ _ _ (after_rel (p ++ [Copy o]))), (rel_var _ _ _ (after_rel (p ++ [Point o]))), !vafter_snoc. cbn [vstep]. rewrite O. cbn [fst]. unfold vvar_type.
  rewrite !vvar_snoc, Len, Nat.eqb_refl. now split.
Qed.

(** What a live variable and a data hold is always there to be read. *)
Theorem C75_alive : forall p,
  (forall i a, nth_error (vars (after p)) i = Some (Some a) -> exists t, var_type (after p) i = Some t) /\
  (forall d, (d < List.length (datas (after p)))%nat -> exists t, data_type (after p) d = Some t).
Proof.
  intros p. pose proof (after_rel p) as R. split.
  - intros i a E. pose proof (Forall2_nth _ _ _ (r_vars _ _ R) i) as F. rewrite E in F. unfold var_type. rewrite E.
    destruct (nth_error (vvars (vafter p)) i) as [[w|]|]; try contradiction. destruct F as (c & _ & _ & _ & D).
    exists (type_of w). now apply den_look.
  - intros d L. pose proof (Forall2_nth _ _ _ (r_data _ _ R) d) as F. unfold data_type.
    destruct (nth_error (datas (after p)) d) as [a|] eqn:E; [|apply nth_error_None in E; lia].
    destruct (nth_error (vdatas (vafter p)) d) as [[t|i]|]; [| |contradiction]; cbn in F.
    + exists t. now apply den_look.
    + destruct F as [Ei (w & Ew & _)]. pose proof (Forall2_nth _ _ _ (r_vars _ _ R) i) as G. rewrite Ei, Ew in G.
      destruct G as (c & _ & _ & _ & D). exists (type_of w). now apply den_look.
Qed.

Lemma vrun_own v q : forall d t, nth_error (vdatas v) d = Some (Own t) -> nth_error (vdatas (fst (vrun v q))) d = Some (Own t).
Proof.
  revert v. induction q as [|o q IH]; intros v d t E; [exact E|]. cbn [vrun].
  assert (S1 : nth_error (vdatas (fst (vstep v o))) d = Some (Own t)).
  { destruct o as [k args|o|o|j c o|j c|j|o]; cbn [vstep].
    - destruct (all_some _); [|exact E]. destruct (build k l); exact E.
    - destruct (vobj v o); exact E.
    - destruct (vobj v o); exact E.
    - destruct (vvar v j); [|exact E]. destruct (vobj v o); [|exact E]. destruct (changed c _ _). exact E.
    - destruct (vvar v j) as [u|]; [|exact E]. destruct (altered c _ _) as [[? ?] ?]. exact E.
    - destruct (vvar v j); [|exact E]. cbn [fst vdatas]. rewrite nth_error_map, E. reflexivity.
    - destruct (vobj v o); [|exact E]. cbn [fst vdatas]. rewrite nth_error_app1; [exact E|]. apply nth_error_Some. congruence. }
  destruct (vstep v o) as [v1 x]. cbn [fst] in S1. specialize (IH v1 d t S1). destruct (vrun v1 q) as [v2 xs]. exact IH.
Qed.

Lemma data_made p o t : obj_type (after p) o = Some t ->
  outcome p (Data o) = Ok tt /\ vobj (vafter p) o = Some t /\
  vafter (p ++ [Data o]) = Vst (vvars (vafter p)) (vdatas (vafter p) ++ [vdata (vafter p) o t]) /\
  List.length (datas (after p)) = List.length (vdatas (vafter p)).
Proof.
  intros O. pose proof (after_rel p) as R. rewrite (rel_obj _ _ o R) in O. unfold outcome.
  rewrite (proj1 (step_rel _ _ (Data o) R)), vafter_snoc. cbn [vstep]. rewrite O.
  repeat (split; [reflexivity|]). exact (Forall2_length (r_data _ _ R)).
Qed.

(** A data made of a type that a variable of a type class holds, of an alias, or of a member or
    content type, keeps that type: whatever the program does to types afterwards, the end of the
    life of the type's variable included. *)
Theorem C75_data : forall p o t q, obj_type (after p) o = Some t ->
  held (after p) o = false \/ snd o <> [] \/ is_alias t = true ->
  outcome p (Data o) = Ok tt /\
  data_type (after (p ++ Data o :: q)) (List.length (datas (after p))) = Some (rget t).
Proof.
  intros p o t q O H. destruct (data_made p o t O) as (E & VO & A & L). split; [exact E|].
  rewrite (rel_datum _ _ _ (after_rel _)). replace (p ++ Data o :: q)%list with ((p ++ [Data o]) ++ q)%list by now rewrite <- app_assoc.
  unfold vafter. rewrite vrun_app. cbn [fst]. fold (vafter (p ++ [Data o])).
  assert (V : vdata (vafter p) o t = Own (rget t)).
  { unfold vdata. destruct (snd o) as [|? ?] eqn:So; [|now destruct (vvar (vafter p) (fst o))].
    destruct H as [H|[H|H]]; [|contradiction|rewrite H; destruct (vvar (vafter p) (fst o)); [now rewrite andb_false_r|reflexivity]].
    destruct (vvar (vafter p) (fst o)) as [w|] eqn:W; [|reflexivity].
    pose proof (obj_at _ _ o (after_rel p)) as OA. rewrite VO in OA. destruct OA as (a & Ea & _ & [[_ (w' & c & Ew & _ & _ & _ & G & M & _)]|[N _]]); [|contradiction].
    rewrite W in Ew. inversion Ew; subst w'. unfold held in H. rewrite Ea, G in H. rewrite <- M, H. reflexivity. }
  unfold vdata_type. rewrite (vrun_own _ q _ (rget t)); [reflexivity|]. rewrite A. cbn [vdatas]. rewrite L, nth_error_app2 by lia.
  rewrite Nat.sub_diag. cbn. now rewrite V.
Qed.

(** A type built, put into another one, into a pointer and into a data; then changed, and gone. *)
Definition demo : list op :=
  [New (MPrim PI32) []; New (MStruct "In") []; Change 1 (CMember "x") (0, []);
   New (MStruct "Out") []; Change 2 (CMember "in") (1, []); Point (1, []); Data (1, []);
   Change 1 (CMember "y") (0, []); Alter 1 (AName "Else"); Drop 1]%nat%string.
Example C75_nontrivial :
  snd (run st0 demo) = repeat (Ok tt) 10 /\
  var_type (after demo) 1 = None /\
  var_type (after demo) 2 = Some (TStruct "Out" 4 [("in", 0, TStruct "In" 4 [("x", 0, TPrim PI32)])])%string /\
  var_type (after demo) 3 = Some (TStruct "In" 4 [("x", 0, TPrim PI32)])%string /\
  data_type (after demo) 0 = Some (TStruct "In" 4 [("x", 0, TPrim PI32)])%string /\
  obj_type (after (firstn 6 demo)) (1, [])%nat <> None /\ held (after (firstn 6 demo)) (1, [])%nat = false.
Proof. vm_compute. repeat split; congruence. Qed.

(** * C76 *)

Lemma vstep_follows v o d i w : nth_error (vdatas v) d = Some (Follows i) -> vvar v i = Some w -> o <> Drop i ->
  nth_error (vdatas (fst (vstep v o))) d = Some (Follows i) /\ exists w', vvar (fst (vstep v o)) i = Some w'.
Proof.
  intros E W N. split.
  - destruct o as [k args|o|o|j c o|j c|j|o]; cbn [vstep].
    + destruct (all_some _); [|exact E]. destruct (build k l); exact E.
    + destruct (vobj v o); exact E.
    + destruct (vobj v o); exact E.
    + destruct (vvar v j); [|exact E]. destruct (vobj v o); [|exact E]. destruct (changed c _ _). exact E.
    + destruct (vvar v j) as [u|]; [|exact E]. destruct (altered c _ _) as [[? ?] ?]. exact E.
    + destruct (vvar v j); [|exact E]. cbn [fst vdatas]. rewrite nth_error_map, E. cbn.
      destruct (Nat.eqb_spec i j); [congruence|reflexivity].
    + destruct (vobj v o); [|exact E]. cbn [fst vdatas]. rewrite nth_error_app1; [exact E|]. apply nth_error_Some. congruence.
  - destruct (target o) as [j|] eqn:T; [|exists w; apply vstep_keeps; [exact W|congruence]].
    destruct (Nat.eq_dec j i) as [->|Nj]; [|exists w; apply vstep_keeps; [exact W|congruence]].
    assert (Ni : nth_error (vvars v) i = Some (Some w)).
    { unfold vvar in W. destruct (nth_error (vvars v) i) as [[?|]|]; congruence. }
    destruct o as [k args|o|o|j c o|j c|j|o]; try discriminate; inversion T; subst; cbn [vstep]; rewrite W.
    + destruct (vobj v o); [|eauto]. destruct (changed c _ _). eexists. unfold vvar. cbn [fst vvars]. rewrite set_nth_nth, Nat.eqb_refl, Ni. reflexivity.
    + destruct (altered c _ _) as [[? ?] ?]. eexists. unfold vvar. cbn [fst vvars]. rewrite set_nth_nth, Nat.eqb_refl, Ni. reflexivity.
    + congruence.
Qed.

Lemma vrun_follows q : forall v d i w, nth_error (vdatas v) d = Some (Follows i) -> vvar v i = Some w -> ~ In (Drop i) q ->
  nth_error (vdatas (fst (vrun v q))) d = Some (Follows i).
Proof.
  induction q as [|o q IH]; intros v d i w E W N; [exact E|]. cbn [vrun].
  destruct (vstep_follows v o d i w E W ltac:(intros ->; apply N; now left)) as [E1 [w1 W1]].
  destruct (vstep v o) as [v1 x]. cbn [fst] in *. specialize (IH v1 d i w1 E1 W1 ltac:(intros I; apply N; now right)).
  destruct (vrun v1 q) as [v2 xs]. exact IH.
Qed.

(** The data of a type that a DynamicType::Ptr or a module holds has, as long as that holds the
    type, whatever type is there. *)
Theorem C76_follows : forall p i t q, obj_type (after p) (i, []) = Some t -> held (after p) (i, []) = true ->
  is_alias t = false -> ~ In (Drop i) q ->
  data_type (after (p ++ Data (i, []) :: q)) (List.length (datas (after p))) = var_type (after (p ++ Data (i, []) :: q)) i.
Proof.
  intros p i t q O H Al N. destruct (data_made p (i, []) t O) as (_ & VO & A & L).
  rewrite (rel_datum _ _ _ (after_rel _)), (rel_var _ _ _ (after_rel _)).
  replace (p ++ Data (i, []) :: q)%list with ((p ++ [Data (i, [])]) ++ q)%list by now rewrite <- app_assoc.
  unfold vafter. rewrite vrun_app. cbn [fst]. fold (vafter (p ++ [Data (i, [])])).
  pose proof (obj_at _ _ (i, []) (after_rel p)) as OA. rewrite VO in OA.
  destruct OA as (a & Ea & _ & [[_ (w & c & Ew & _ & _ & _ & G & M & _)]|[C _]]); [|now cbn in C].
  cbn [fst] in Ew. unfold held in H. rewrite Ea, G in H.
  unfold vdata_type. rewrite (vrun_follows q _ _ i w); [reflexivity| |rewrite A; exact Ew|exact N].
  rewrite A. cbn [vdatas]. rewrite L, nth_error_app2 by lia. rewrite Nat.sub_diag. cbn.
  unfold vdata. cbn [fst snd]. now rewrite Ew, <- M, H, Al.
Qed.

(** So the type of a data is changed under it: its memory is of the old type, and already its
    destructor reads past the end. *)
Definition demo_shared : list op :=
  [New (MStruct "X") []; Point (0, []); New (MStr SK8 0) []; Data (1, [])]%nat%string.
Definition demo_grow : op := Change 1 (CMember "a") (2, [])%nat%string.
Theorem C76_shared_refuted : exists p o d t t' x,
  (forall r, In r (snd (run st0 (p ++ [o]))) -> r = Ok tt) /\
  data_type (after p) d = Some t /\ data_type (after (p ++ [o])) d = Some t' /\ t <> t' /\
  new_data t = Ok x /\ destroy_data (mkData t' (d_mem x)) = Fail UB.
Proof.
  exists demo_shared, demo_grow, 0%nat, (TStruct "X" 0 [])%string, (TStruct "X" 32 [("a", 0, TStr SK8 0)])%string.
  eexists. split; [vm_compute; intuition congruence|]. split; [reflexivity|]. split; [reflexivity|]. split; [discriminate|].
  split; [reflexivity|]. reflexivity.
Qed.
Example C76_nontrivial :
  obj_type (after (firstn 3 demo_shared)) (1, [])%nat = Some (TStruct "X" 0 [])%string /\
  held (after (firstn 3 demo_shared)) (1, [])%nat = true /\ ~ In (Drop 1) [demo_grow] /\
  data_type (after (firstn 3 demo_shared ++ [Data (1, []); demo_grow]))%nat 0 = Some (TStruct "X" 32 [("a", 0, TStr SK8 0)])%string.
Proof. vm_compute. repeat split. intuition congruence. Qed.

(** * C77 *)

(** Adding enumerators one after the other. *)
Fixpoint enumerate (e : enum_st) (l : list (string * option N)) : enum_st * list (res unit) :=
  match l with
  | [] => (e, [])
  | (x, v) :: r =>
      let (e1, o) := match v with Some n => add_enumerator e x n | None => add_enumerator_next e x end in
      let (e2, os) := enumerate e1 r in (e2, o :: os)
  end.
Definition additions (i : nat) (l : list (string * option N)) : list op := map (fun a => Alter i (AEnum (fst a) (snd a))) l.

Lemma vrun_enumerate i l : forall v e b, vvar v i = Some (Value b (Some (es_next e)) (enum_type e)) ->
  snd (vrun v (additions i l)) = snd (enumerate e l) /\
  vvar (fst (vrun v (additions i l))) i = Some (Value b (Some (es_next (fst (enumerate e l)))) (enum_type (fst (enumerate e l)))).
Proof.
  induction l as [|[x n] l IH]; intros v e b V; [now split|]. cbn [additions map vrun enumerate fst snd].
  cbn [vstep]. rewrite V. cbn [type_of next pointer].
  assert (A : exists e1 r, match n with Some n => add_enumerator e x n | None => add_enumerator_next e x end = (e1, r) /\
    altered (AEnum x n) (enum_type e) (Some (es_next e)) = (enum_type e1, Some (es_next e1), r)).
  { unfold enum_type, altered, add_enumerator_next. destruct e as [nm sz vals nx]. cbn [es_name es_size es_vals es_next].
    destruct n as [n|]; destruct (add_enumerator _ _ _) as [e1 r]; exists e1, r; now split. }
  destruct A as (e1 & r & -> & ->).
  assert (Ni : nth_error (vvars v) i <> None).
  { unfold vvar in V. destruct (nth_error (vvars v) i); congruence. }
  destruct (IH (Vst (set_nth (vvars v) i (Some (Value b (Some (es_next e1)) (enum_type e1)))) (vdatas v)) e1 b) as [I1 I2].
  { unfold vvar. cbn [vvars]. rewrite set_nth_nth, Nat.eqb_refl. now destruct (nth_error (vvars v) i). }
  fold (additions i l). destruct (vrun _ (additions i l)) as [v2 xs]. destruct (enumerate e1 l) as [e2 os]. cbn [fst snd] in *.
  split; [now subst|exact I2].
Qed.

(** Declaring an enumeration, copying it, adding enumerators to the copy: what the same additions
    to one enumeration give; in every program. *)
Theorem C77_declared : forall p nm sz l l',
  let i := List.length (vars (after p)) in
  let q := (New (MEnum nm sz) [] :: additions i l ++ Copy (i, []) :: additions (S i) l')%list in
  let e := fst (enumerate (enum_new nm sz) l) in
  snd (run (after p) q) = (Ok tt :: snd (enumerate (enum_new nm sz) l) ++ Ok tt :: snd (enumerate e l'))%list /\
  var_type (after (p ++ q)) i = Some (enum_type e) /\
  var_type (after (p ++ q)) (S i) = Some (enum_type (fst (enumerate e l'))).
Proof.
  intros p nm sz l l' i q e. pose proof (after_rel p) as R.
  assert (Len : i = List.length (vvars (vafter p))) by exact (Forall2_length (r_vars _ _ R)).
  rewrite !(rel_var _ _ _ (after_rel (p ++ q))). rewrite (proj1 (run_rel q _ _ R)).
  unfold vafter at 2 3. rewrite vrun_app. cbn [fst]. fold (vafter p). subst q. cbn [vrun vstep map all_some build].
  set (v1 := Vst (vvars (vafter p) ++ [Some (Value false (Some 0) (enum_type (enum_new nm sz)))]) (vdatas (vafter p))).
  assert (V1 : vvar v1 i = Some (Value false (Some (es_next (enum_new nm sz))) (enum_type (enum_new nm sz)))).
  { unfold v1. rewrite vvar_snoc, Len, Nat.eqb_refl. reflexivity. }
  destruct (vrun_enumerate i l v1 (enum_new nm sz) false V1) as [E1 W1].
  rewrite vrun_app. cbn [fst snd]. set (v2 := fst (vrun v1 (additions i l))) in *.
  cbn [vrun vstep]. unfold vobj. cbn [fst snd part]. rewrite W1. cbn [type_of]. unfold vnext. cbn [fst snd]. rewrite W1. cbn [next]. fold e.
  assert (Len2 : List.length (vvars v2) = S i).
  { assert (K : forall l v, List.length (vvars (fst (vrun v (additions i l)))) = List.length (vvars v)).
    { clear. induction l as [|a l IH]; intros v; [reflexivity|]. cbn [additions map vrun]. fold (additions i l).
      assert (S1 : List.length (vvars (fst (vstep v (Alter i (AEnum (fst a) (snd a)))))) = List.length (vvars v)).
      { cbn [vstep]. destruct (vvar v i) as [w|] eqn:W; [|reflexivity]. destruct (altered _ _ _) as [[t nx] r]. cbn [fst vvars].
        unfold set_nth. rewrite app_length. destruct (skipn i (vvars v)) eqn:Sk.
        - rewrite firstn_length. pose proof (skipn_length i (vvars v)) as Q. rewrite Sk in Q. cbn in *. lia.
        - rewrite firstn_length. pose proof (skipn_length i (vvars v)) as Q. rewrite Sk in Q. cbn in *. lia. }
      destruct (vstep v _) as [v1 x]. cbn [fst] in S1. rewrite <- S1, <- (IH v1). now destruct (vrun v1 (additions i l)). }
    unfold v2. rewrite K. unfold v1. cbn [vvars]. rewrite app_length, Len. cbn. lia. }
  set (v3 := Vst (vvars v2 ++ [Some (Value false (Some (es_next e)) (enum_type e))]) (vdatas v2)).
  assert (V3 : vvar v3 (S i) = Some (Value false (Some (es_next e)) (enum_type e))).
  { unfold v3. rewrite vvar_snoc, Len2, Nat.eqb_refl. reflexivity. }
  assert (V3i : vvar v3 i = Some (Value false (Some (es_next e)) (enum_type e))).
  { unfold v3. rewrite vvar_snoc, Len2. destruct (Nat.eqb_spec i (S i)); [lia|]. exact W1. }
  destruct (vrun_enumerate (S i) l' v3 e false V3) as [E3 W3].
  assert (Keep : forall l v w, vvar v i = Some w -> vvar (fst (vrun v (additions (S i) l))) i = Some w).
  { clear. induction l as [|a l IH]; intros v w W; [exact W|]. cbn [additions map vrun]. fold (additions (S i) l).
    pose proof (vstep_keeps v (Alter (S i) (AEnum (fst a) (snd a))) i w W ltac:(cbn; intros E; inversion E; lia)) as S1.
    destruct (vstep v _) as [v1 x]. cbn [fst] in S1. specialize (IH v1 w S1). now destruct (vrun v1 (additions (S i) l)). }
  specialize (Keep l' v3 _ V3i).
  destruct (vrun v3 (additions (S i) l')) as [v4 ys]. cbn [fst snd] in *. unfold vvar_type.
  split; [now rewrite E1, E3|]. now rewrite Keep, W3.
Qed.

(** Not so an enumeration that a DynamicType::Ptr or a module holds: there is no EnumerationType
    object, and adding an enumerator reads and writes past the end of the object. *)
Theorem C77_pointer_refuted : forall p o nm sz vals, obj_type (after p) o = Some (TEnum nm sz vals) ->
  forall x v, let i := List.length (vars (after p)) in
  outcome p (Point o) = Ok tt /\ outcome (p ++ [Point o]) (Alter i (AEnum x v)) = Fail UB.
Proof.
  intros p o nm sz vals O x v i. pose proof (after_rel p) as R. pose proof (C75_copy p o _ O) as (_ & P & _ & _).
  split; [exact P|]. unfold outcome. rewrite (proj1 (step_rel _ _ (Alter i (AEnum x v)) (after_rel _))), vafter_snoc.
  rewrite (rel_obj _ _ o R) in O. cbn [vstep]. rewrite O. cbn [fst].
  assert (Len : i = List.length (vvars (vafter p))) by exact (Forall2_length (r_vars _ _ R)).
  rewrite vvar_snoc, Len, Nat.eqb_refl. reflexivity.
Qed.
Definition demo_enum : list op := [New (MEnum "E" 4) []; Alter 0 (AEnum "A" None); Alter 0 (AEnum "B" (Some 5%N))]%nat%string.
Example C77_nontrivial :
  var_type (after demo_enum) 0 = Some (TEnum "E" 4 [("A", 0); ("B", 5)])%string /\
  outcome demo_enum (Alter 0 (AEnum "C" None)) = Ok tt /\
  obj_type (after demo_enum) (0, [])%nat = Some (TEnum "E" 4 [("A", 0); ("B", 5)])%string.
Proof. vm_compute. now split. Qed.

Print Assumptions C75_values.
Print Assumptions C75_independent.
Print Assumptions C75_copy.
Print Assumptions C75_alive.
Print Assumptions C75_data.
Print Assumptions C76_follows.
Print Assumptions C76_shared_refuted.
Print Assumptions C77_declared.
Print Assumptions C77_pointer_refuted.
