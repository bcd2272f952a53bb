(** Theorems about DynamicData: C06-C11, C41. *)
From Verif Require Import Base Types TypeBuild TypeSpec Compat Mem MemSpec TyInd Layout MemFacts ConstructFacts CopyFacts CompareFacts CompatFacts CompatFacts2
  EnumFacts UnionFacts Ops OpsSpec Hash HashSpec MapOps MapSpec PathFacts Realize Prog ProgSpec ProgFacts ValueSpec ValueFacts DataSpec NumFacts DataFacts PropTypes.

(** ** Samples *)
Definition exd_u0 : ty := TUnion "U" 4 [(UNION_DISCRIMINATOR, 0, TPrim PI32)] [] 2147483647 2147483646 2147483646.
Definition exd_union : ty :=
  fst (add_case_member (fst (add_case_member exd_u0 [3%Z; 1%Z] "x" (TStr SK8 4) false)) [] "y" (TSeq (TPrim PI16) 0) true).
Definition exd_type : ty :=
  fst (add_member (fst (add_member (fst (add_member (fst (add_member (TStruct "D" 0 [])
    "n" (TPrim PU32))) "q" (TSeq (TStr SK8 4) 3))) "a" (mk_array (TPrim PI16) 2))) "u" exd_union).
Definition fc0 : prim -> prim -> list N -> list N := fun _ _ x => x.
Definition sh0 : skind -> list N -> N := fun _ s => le_decode s.
Example exd_union_built : union_built exd_union.
Proof.
  unfold exd_union. eapply ub_add; [|apply (at_seq (TPrim PI16) 0); [apply at_prim|reflexivity]|apply surjective_pairing].
  eapply ub_add; [|apply (at_str SK8 4); reflexivity|apply surjective_pairing].
  apply (ub_new "U"%string (TPrim PI32)); [apply at_prim|reflexivity].
Qed.
Lemma built_add t nm mt : struct_built t -> api_type mt -> snd (add_member t nm mt) = Ok tt -> struct_built (fst (add_member t nm mt)).
Proof. intros H1 H2 H3. eapply sb_add; [exact H1|exact H2|]. rewrite <- H3. apply surjective_pairing. Qed.
Example exd_built : struct_built exd_type.
Proof.
  unfold exd_type. apply built_add; [|apply at_union, exd_union_built|vm_compute; reflexivity].
  apply built_add; [|apply at_arr; [apply at_prim|reflexivity]|vm_compute; reflexivity].
  apply built_add; [|apply at_seq; [apply at_str|]; reflexivity|vm_compute; reflexivity].
  apply built_add; [apply sb_new|apply at_prim|reflexivity].
Qed.
Example exd_ok : ok_ty exd_type.
Proof. vm_compute. repeat split; congruence. Qed.
Example exd_holds : exists d, new_data exd_type = Ok d /\ holds d (default_value exd_type).
Proof. destruct (new_holds exd_type (at_struct _ exd_built) exd_ok) as (d & E & _ & H & _). eauto. Qed.

(** ** C06 *)
(** Construction succeeds and every element of the instance is alive and zero or empty.  Missing for the full
    property: types outside [ok_ty]. *)
Theorem C06_default_construction_partial : forall t, api_type t -> ok_ty t ->
  exists d v, new_data t = Ok d /\ d_type d = rget t /\ holds d v /\ blank t v.
Proof.
  intros t Ha Ho. destruct (new_holds t Ha Ho) as (d & E & Ht & H & _). exists d, (default_value t).
  split; [exact E|]. split; [exact Ht|]. split; [exact H|]. apply default_blank. split; [apply api_type_wf, Ha|exact Ho].
Qed.
(** The label of a discriminator is written as 4 bytes when its type is an enumeration (UnionType.hpp:526-745), also
    when the enumeration has 1 byte: construction writes outside the instance. *)
Theorem C06_default_construction_refuted : exists t, api_type t /\ new_data t = Fail UB.
Proof.
  exists (fst (add_case_member (TUnion "U" 1 [(UNION_DISCRIMINATOR, 0, enum_type (enum_new "E" 1))] [] 127 126 126) [] "x" (TPrim PU8) true)).
  split; [|vm_compute; reflexivity]. apply at_union. eapply ub_add; [|apply (at_prim PU8)|apply surjective_pairing].
  apply (ub_new "U"%string (enum_type (enum_new "E" 1))); [|reflexivity]. eapply at_enum with (nm := "E"%string) (sz := 1); [tauto|apply eb_nil].
Qed.
Example C06_nontrivial : api_type exd_type /\ ok_ty exd_type /\
  default_value exd_type = VNode [VBytes [0; 0; 0; 0]; VNode []; VNode [VBytes [0; 0]; VBytes [0; 0]];
                                  VUnion (VBytes [255; 255; 255; 127]) (Some (VNode []))].
Proof. split; [apply at_struct, exd_built|]. split; [exact exd_ok|vm_compute; reflexivity]. Qed.

(** ** C07 *)
(** The copy holds the same value; it compares equal when there is no floating point component.  Missing for the
    full property: [copy_ok], unions without an active member. *)
Theorem C07_copy_same_value_partial : forall fc d v, holds d v -> copy_ok (d_type d) -> vselected (d_type d) v ->
  exists d', copy_data fc d = Ok d' /\ d_type d' = d_type d /\ holds d' v /\
    (nofloat (d_type d) -> data_eq d d' = Ok true).
Proof.
  intros fc d v H Hc Hs. destruct (copy_holds fc d v H Hc Hs) as (d' & E & Ht & H'). exists d'.
  repeat (split; [assumption|]). intros Hn. destruct (eq_holds d d' v v H H' (eq_sym Ht)) as (r & Er & Hr). rewrite Er. f_equal. apply Hr; auto.
Qed.
(** Whatever statements are executed, with whatever outcome of the checks, a variable they do not name and that
    shares its memory with no other variable still has the same bytes. *)
Theorem C07_independent : forall fc strhash prog st l st' y t v,
  run fc strhash st prog = Ok (l, st') -> (forall s, In s prog -> ~ In y (mentions s)) ->
  unshared st -> var_holds st y t v -> var_holds st' y t v.
Proof.
  intros fc strhash prog st l st' y t v Hr Hm Hd (u & b & Hu & Ht & Hi & Hb & Hh).
  destruct (run_untouched fc strhash prog st l st' y u Hr Hm Hu) as [Hu' Hb'].
  - intros x w Hn Hw He. apply Hn. eapply Hd; eassumption.
  - eapply nth_error_lt, Hb.
  - exists u, b. rewrite Hb'. auto.
Qed.
(** Every program whose statements have a meaning on values (ProgSpec) runs without undefined behaviour and without
    failing checks, yields the results the meaning prescribes and leaves every variable with the prescribed value; no
    two variables share memory. *)
Theorem C07_programs : forall fc strhash prog l vs, execs fc strhash [] prog l vs ->
  exists st, run fc strhash no_vars prog = Ok (l, st) /\ unshared st /\
    forall x t v, nth_error vs x = Some (VLive t v) -> var_holds st x t v.
Proof.
  intros fc strhash prog l vs H. destruct (prog_sim fc strhash _ _ _ _ H no_vars rep_empty) as (st & E & Hr).
  exists st. split; [exact E|]. split; [destruct Hr as (_ & _ & H3); exact H3|]. intros x t v Hx. eapply rep_holds; eassumption.
Qed.
(** Copying a fresh union without default member fails; a sequence of 1-byte enumerations is copied by reading four
    bytes per element; a DynamicData constructed from a reference shares the memory of the referenced one, and
    deleting both deletes it twice. *)
Definition exd_nodef : ty := fst (add_case_member exd_u0 [1%Z] "x" (TPrim PU8) false).
Theorem C07_copy_refuted : forall fc strhash,
  (exists t d, union_built t /\ ok_ty t /\ new_data t = Ok d /\ copy_data fc d = Fail Assert) /\
  (exists t, api_type t /\ ok_ty t /\ run fc strhash no_vars [New t; Do 0 [] (OpResize 1); Copy 0] = Fail UB) /\
  (exists t, api_type t /\ ok_ty t /\
     (exists l st, run fc strhash no_vars [New t; FromRef 0; Do 1 [] (OpSet (ScPrim PU8 [7])); Do 0 [] (OpGet (StPrim PU8))] = Ok (l, st) /\
        nth_error l 3 = Some (OVal (ScPrim PU8 [7]))) /\
     run fc strhash no_vars [New t; FromRef 0; Destroy 1; Destroy 0] = Fail UB).
Proof.
  intros fc strhash. split; [|split].
  - exists exd_nodef. eexists. split; [eapply ub_add; [|apply (at_prim PU8)|apply surjective_pairing]; apply (ub_new "U"%string (TPrim PI32)); [apply at_prim|reflexivity]|].
    split; [vm_compute; repeat split; congruence|]. split; [vm_compute; reflexivity|]. vm_compute. reflexivity.
  - exists (TSeq (enum_type (enum_new "E" 1)) 0). split; [apply at_seq; [eapply at_enum with (sz := 1); [tauto|apply eb_nil]|reflexivity]|].
    split; [vm_compute; repeat split; congruence|]. vm_compute. reflexivity.
  - exists (TPrim PU8). split; [apply at_prim|]. split; [exact I|]. split; [|vm_compute; reflexivity].
    eexists. eexists. split; vm_compute; reflexivity.
Qed.

(** ** C08 *)
(** Destroying a live instance is defined (every object whose destructor runs is alive, none is destroyed twice) and
    after it no object is left alive in the instance: for every freshly constructed instance, and for every
    instance of a type without unions whatever its history. *)
Theorem C08_destroy : forall d v, holds d v -> exists b, destroy_data d = Ok b /\
  (union_free (d_type d) -> clean b 0 (msize (d_type d))).
Proof.
  intros d v H. destruct (destroy_holds d v H) as (b & E & Hc). exists b. split; [exact E|]. intros Hu. apply Hc.
  pose proof (holds_good _ _ H) as Hg. destruct H as (_ & _ & _ & L & _). apply union_free_tight; assumption.
Qed.
Theorem C08_destroy_fresh : forall t d, api_type t -> ok_ty t -> new_data t = Ok d ->
  exists b, destroy_data d = Ok b /\ clean b 0 (msize t).
Proof.
  intros t d Ha Ho E. destruct (new_holds t Ha Ho) as (d' & E' & Ht & H & T). rewrite E in E'. injection E' as <-.
  destruct (destroy_holds d _ H) as (b & Eb & Hc). exists b. split; [exact Eb|]. rewrite Ht, msize_rget in Hc. apply Hc, T.
Qed.
(** Missing for the full property: after a move the source is never destroyed. *)
Theorem C08_destroy_refuted : forall fc strhash, exists t l st b, api_type t /\
  run fc strhash no_vars [New t; Move 0; Destroy 1] = Ok (l, st) /\
  nth_error (heap st) 0 = Some (Some b) /\ is_object (at_ b 0) = true /\
  exists l' st', run fc strhash no_vars [New t; Move 0; Destroy 1; Destroy 0] = Ok (l', st') /\ nth_error (vars st') 0 = Some None.
Proof.
  intros fc strhash. exists (TSeq (TPrim PU8) 0). eexists. eexists. eexists. split; [apply at_seq; [apply at_prim|reflexivity]|].
  split; [vm_compute; reflexivity|]. split; [vm_compute; reflexivity|]. split; [vm_compute; reflexivity|].
  eexists. eexists. split; vm_compute; reflexivity.
Qed.

(** ** C09 *)
(** Writing a scalar element reached through struct members, array and sequence elements and pair halves: the
    element holds what was written, every element that does not contain it or lie inside it is unchanged. *)
Theorem C09_write_confined : forall fc strhash d v fs ns T w x,
  holds d v -> position (map fstep_vstep fs) (d_type d) = Some ns -> path_ty (map fstep_vstep fs) (d_type d) = Some T ->
  elem ns v = Some w -> scalar_ok T x ->
  exists d' v', run_on fc strhash d (map fstep_step fs) (writing (set_value fc x)) = Ok (ONone, d') /\ holds d' v' /\
    elem ns v' = Some (scalar_value T x) /\ forall ms, disjoint_pos ns ms -> elem ms v' = elem ms v.
Proof.
  intros fc strhash d v fs ns T w x Hh Hp HT He Hx. destruct (set_elem fc strhash d v fs ns T w x Hh Hp HT He Hx) as (d' & v' & E & _ & H). eauto.
Qed.
(** The same observed through the API: value<T>() at the same place returns what was written (up to the bound of a
    bounded string), value<T>() at every disjoint place returns what it returned before. *)
Theorem C09_write_then_read : forall fc strhash d v fs ns T w x gs ms U u y o,
  holds d v -> position (map fstep_vstep fs) (d_type d) = Some ns -> path_ty (map fstep_vstep fs) (d_type d) = Some T ->
  elem ns v = Some w -> scalar_ok T x ->
  position (map fstep_vstep gs) (d_type d) = Some ms -> path_ty (map fstep_vstep gs) (d_type d) = Some U ->
  elem ms v = Some u -> disjoint_pos ns ms -> read_value U y u = Some o ->
  exists d' d1 d2 d3, run_on fc strhash d (map fstep_step fs) (writing (set_value fc x)) = Ok (ONone, d') /\
    run_on fc strhash d (map fstep_step gs) (reading (get_scalar y)) = Ok (o, d1) /\
    run_on fc strhash d' (map fstep_step gs) (reading (get_scalar y)) = Ok (o, d2) /\
    (forall s k b, T = TStr k b -> x = ScStr k s -> (b = 0 \/ N.of_nat (List.length s) <= b) ->
       run_on fc strhash d' (map fstep_step fs) (reading (get_scalar (StStr k))) = Ok (OVal x, d3)) /\
    (forall p bs, x = ScPrim p bs -> run_on fc strhash d' (map fstep_step fs) (reading (get_scalar (StPrim p))) = Ok (OVal x, d3)).
Proof.
  intros fc strhash d v fs ns T w x gs ms U u y o Hh Hp HT He Hx Hp' HT' He' Hd Hr.
  destruct (set_elem fc strhash d v fs ns T w x Hh Hp HT He Hx) as (d' & v' & E & Ht & Hh' & Hw & Hdis).
  destruct (get_elem fc strhash d v gs ms U u y o Hh Hp' HT' He' Hr) as (d1 & E1 & _).
  pose proof Hp as Hp2. pose proof HT as HT2. rewrite <- Ht in Hp', HT', Hp2, HT2.
  destruct (get_elem fc strhash d' v' gs ms U u y o Hh' Hp' HT') as (d2 & E2 & _); [rewrite Hdis; assumption|exact Hr|].
  assert (Hback : forall sx, read_value T sx (scalar_value T x) = Some (OVal x) -> exists d3, run_on fc strhash d' (map fstep_step fs) (reading (get_scalar sx)) = Ok (OVal x, d3)).
  { intros sx Hsx. destruct (get_elem fc strhash d' v' fs ns T _ sx (OVal x) Hh' Hp2 HT2 Hw Hsx) as (d3 & E3 & _). eauto. }
  destruct x as [p bs|k s].
  - destruct (Hback (StPrim p)) as (d3 & E3).
    { destruct T as [q|enm esz evals| | | | | | | |]; cbn [scalar_ok] in Hx; try contradiction Hx; cbn [scalar_value read_value].
      - destruct Hx as (-> & _). rewrite (proj2 (prim_eqb_eq p p) eq_refl). reflexivity.
      - destruct Hx as (-> & _). rewrite N.eqb_refl. reflexivity. }
    exists d', d1, d2, d3. repeat (split; [assumption|]). split; [discriminate|]. intros p' bs' [= <- <-]. exact E3.
  - destruct T as [| |k' bd| | | | | | |]; cbn [scalar_ok] in Hx; try contradiction Hx. subst k'.
    destruct (N.eq_dec bd 0) as [Hb|Hb].
    + destruct (Hback (StStr k)) as (d3 & E3); [subst bd; cbn; rewrite skind_eqb_refl; reflexivity|].
      exists d', d1, d2, d3. repeat (split; [assumption|]). split; [|discriminate]. intros s' k' b' [= <- <-] [= <-] _. exact E3.
    + destruct (N.le_gt_cases (N.of_nat (List.length s)) bd) as [Hl|Hl].
      * destruct (Hback (StStr k)) as (d3 & E3).
        { cbn [scalar_value read_value]. rewrite skind_eqb_refl. apply N.eqb_neq in Hb. rewrite Hb, firstn_all2 by lia. reflexivity. }
        exists d', d1, d2, d3. repeat (split; [assumption|]). split; [|discriminate]. intros s' k' b' [= <- <-] [= <-] _. exact E3.
      * exists d', d1, d2, d1. repeat (split; [assumption|]). split; [|discriminate]. intros s' k' b' [= <- <-] [= <-] Hor. lia.
Qed.
(** Any operation, through unions and map entries as well: everything outside the element reached by the plain
    prefix of the path is unchanged. *)
Theorem C09_any_operation_confined : forall fc strhash vs x fs p o a vs' t v ns,
  exec fc strhash vs (Do x (map PF fs ++ p) o) a vs' -> nth_error vs x = Some (VLive t v) -> position (map fstep_vstep fs) t = Some ns ->
  exists v', nth_error vs' x = Some (VLive t v') /\ forall ms, disjoint_pos ns ms -> elem ms v' = elem ms v.
Proof. exact exec_confined. Qed.

(** ** C10 *)
(** operator== on data of the same type is equality of values, hence an equivalence.  Missing for the full property:
    types with floating point components. *)
Theorem C10_equality_partial : forall x y v w, holds x v -> holds y w -> d_type x = d_type y -> nofloat (d_type x) ->
  exists r, data_eq x y = Ok r /\ (r = true <-> v = w).
Proof. intros x y v w Hx Hy Ht Hn. destruct (eq_holds x y v w Hx Hy Ht) as (r & E & H). eauto. Qed.
Theorem C10_equality_defined : forall x y v w, holds x v -> holds y w -> d_type x = d_type y -> exists r, data_eq x y = Ok r.
Proof. intros x y v w Hx Hy Ht. destruct (eq_holds x y v w Hx Hy Ht) as (r & E & _). eauto. Qed.
(** With floating point: a NaN member makes a value different from itself, a NaN array is equal to itself; zero
    and minus zero are equal as members and different as array elements (ArrayType.hpp:211-228 compares bytes). *)
Definition exd_f : ty := fst (add_member (TStruct "F" 0 []) "f" (TPrim PF32)).
Definition exd_fa : ty := mk_array (TPrim PF32) 1.
Definition after (fc : prim -> prim -> list N -> list N) (t : ty) (p : list step) (x : scalar) : res data :=
  do d <- new_data t; do r <- run_on fc sh0 d p (writing (set_value fc x)); Ok (snd r).
Theorem C10_equality_refuted : forall fc,
  (do d <- after fc exd_f [SName "f"] (ScPrim PF32 [0; 0; 192; 127]); data_eq d d) = Ok false /\
  (do d <- after fc exd_fa [SIdx 0] (ScPrim PF32 [0; 0; 192; 127]); data_eq d d) = Ok true /\
  (do d <- new_data exd_f; do e <- after fc exd_f [SName "f"] (ScPrim PF32 [0; 0; 0; 128]); data_eq d e) = Ok true /\
  (do d <- new_data exd_fa; do e <- after fc exd_fa [SIdx 0] (ScPrim PF32 [0; 0; 0; 128]); data_eq d e) = Ok false.
Proof. intros fc. repeat split; vm_compute; reflexivity. Qed.

(** ** C11 *)
(** a = b with distinct operands of the same type: [a] holds the value of [b], and compares equal to it when there
    is no floating point component.  Self-assignment keeps the value when the type has no strings, sequences, maps
    or unions.  Missing for the full property: [copy_ok], unions without active member, operands of different
    types with verdict EQUALS, self-assignment with objects. *)
Theorem C11_assign_partial : forall fc x y v w, holds x v -> holds y w -> d_type x = d_type y ->
  copy_ok (d_type x) -> vselected (d_type x) w ->
  exists x', assign_data fc x y = Ok x' /\ d_type x' = d_type x /\ holds x' w /\ (nofloat (d_type x) -> data_eq x' y = Ok true).
Proof.
  intros fc x y v w Hx Hy Ht Hc Hs. destruct (assign_holds fc x y v w Hx Hy Ht Hc Hs) as (x' & E & Ht' & H'). exists x'.
  repeat (split; [assumption|]). intros Hn. destruct (eq_holds x' y w w H' Hy) as (r & Er & Hr); [congruence|]. rewrite Er. f_equal. apply Hr; [congruence|reflexivity].
Qed.
Theorem C11_self_assign_scalars_partial : forall fc d v, holds d v -> scalar_only (d_type d) ->
  exists d', assign_self fc d = Ok d' /\ d_type d' = d_type d /\ holds d' v.
Proof. exact self_assign_scalar. Qed.
(** a = a on a string destroys the string before copying it (DynamicData.hpp:1384-1393); assigning operands that
    are EQUALS but not the same type copies the bytes: a float receives the bits of an integer. *)
Theorem C11_self_assign_refuted : forall fc strhash,
  run fc strhash no_vars [New (TStr SK8 0); Assign 0 0] = Fail UB /\
  run fc strhash no_vars [New (TSeq (TPrim PU8) 0); Assign 0 0] = Fail UB /\
  (exists st, run fc strhash no_vars [New (TPrim PF32); New (TPrim PI32); Do 1 [] (OpSet (ScPrim PI32 [1; 0; 0; 0])); Assign 0 1; Do 0 [] (OpGet (StPrim PF32))] =
     Ok ([ONone; ONone; ONone; ONone; OVal (ScPrim PF32 [1; 0; 0; 0])], st)).
Proof. intros fc strhash. split; [vm_compute; reflexivity|]. split; [vm_compute; reflexivity|]. eexists. vm_compute. reflexivity. Qed.

(** ** C41 *)
(** [x] is the C++ type of the elements of type [t]. *)
Definition is_kind (t : ty) (x : scalar_ty) : Prop :=
  match t, x with TPrim p, StPrim q => p = q | TStr k _, StStr k' => k = k' | _, _ => False end.
Definition is_enum_ty (t : ty) : bool := match t with TEnum _ _ _ => true | _ => false end.
(** value<T>() on a live element succeeds exactly when T is the kind of the element, otherwise the check fails: it
    never reads anything else.  Missing for the full property: enumerations. *)
Theorem C41_get_checked_partial : forall x t b off, live t b off -> rget t = t -> is_enum_ty t = false ->
  (is_kind t x -> exists s, get_value x t b off = Ok s /\ scalar_type s = x) /\
  (~ is_kind t x -> get_value x t b off = Fail Assert).
Proof.
  intros x t b off L Hr He. unfold get_value. rewrite Hr.
  destruct t as [p|enm esz evals|k bd| | | | | | |]; destruct x as [q|k']; cbn [is_kind type_check is_enum_ty] in *; try discriminate He;
    try (split; [tauto|reflexivity]).
  - destruct (prim_eqb p q) eqn:E.
    + apply prim_eqb_eq in E. subst q. split; [|tauto]. intros _. cbn [live] in L. destruct (bytes_at_read _ _ _ L) as (bs & -> & _). eexists. split; reflexivity.
    + split; [|reflexivity]. intros ->. rewrite (proj2 (prim_eqb_eq q q) eq_refl) in E. discriminate E.
  - destruct (skind_eqb k k') eqn:E.
    + apply skind_eqb_eq in E. subst k'. split; [|tauto]. intros _. cbn [live] in L. destruct L as (s & [Ha Hi] & _). rewrite Ha, Hi, skind_eqb_refl. eexists. split; reflexivity.
    + split; [|reflexivity]. intros ->. rewrite skind_eqb_refl in E. discriminate E.
Qed.
Theorem C41_set_checked_partial : forall fc x t b off, live t b off -> good t -> rget t = t -> is_enum_ty t = false ->
  (is_kind t (scalar_type x) -> scalar_ok t x -> exists b', set_value fc x t b off = Ok b' /\ live t b' off /\ read t b' off = Ok (scalar_value t x)) /\
  (~ is_kind t (scalar_type x) -> set_value fc x t b off = Fail Assert).
Proof.
  intros fc x t b off L Hg Hr He. split.
  - intros _ Hok. destruct (live_read _ Hg _ _ L) as (v & R). destruct (set_realizes fc t x Hr Hg Hok b off v _ L R eq_refl) as (b' & E & _ & L' & R'). eauto.
  - intros Hn. unfold set_value. rewrite Hr. destruct t as [p|enm esz evals|k bd| | | | | | |]; destruct x as [q bs|k' s]; cbn [is_kind type_check is_enum_ty scalar_type] in *;
      try discriminate He; try reflexivity.
    + destruct (prim_eqb p q) eqn:E; [apply prim_eqb_eq in E; contradiction|reflexivity].
    + destruct (skind_eqb k k') eqn:E; [apply skind_eqb_eq in E; contradiction|reflexivity].
Qed.
(** A 4-byte enumeration is read as float; push of a reference and map keys are not checked at all: a sequence of
    strings accepts the bytes of an integer, and a map with string keys accepts an integer as key. *)
Theorem C41_checked_refuted : forall fc strhash,
  (exists l st, run fc strhash no_vars [New ex_enum; Do 0 [] (OpGet (StPrim PF32))] = Ok (l, st)) /\
  run fc strhash no_vars [New (TSeq (TStr SK8 0) 0); New (TPrim PU8); Do 0 [] (OpPush (1%nat, []))] = Fail UB /\
  run fc strhash no_vars [New (TMap (TStr SK8 0) (TPrim PU8) 0); New (TPrim PU8); Do 0 [PKey (1%nat, [])] (OpGet (StPrim PU8))] = Fail UB.
Proof. intros fc strhash. split; [eexists; eexists; vm_compute; reflexivity|]. split; vm_compute; reflexivity. Qed.

(** ** C43 *)
(** value(v) on an enumeration element: accepted exactly when [v] has the size of the enumeration and is the value of one
    of its enumerators; then the element has that value.  Everything else fails the check. *)
Theorem C43_set_enum : forall fc nm sz vals p bs b off, live (TEnum nm sz vals) b off -> good (TEnum nm sz vals) ->
  N.of_nat (List.length bs) = prim_size p -> Forall (fun y => y < 256) bs ->
  (prim_size p = sz /\ In (le_decode bs) (map snd vals) ->
     exists b', set_value fc (ScPrim p bs) (TEnum nm sz vals) b off = Ok b' /\ live (TEnum nm sz vals) b' off /\ read (TEnum nm sz vals) b' off = Ok (VBytes bs)) /\
  (~ (prim_size p = sz /\ In (le_decode bs) (map snd vals)) -> set_value fc (ScPrim p bs) (TEnum nm sz vals) b off = Fail Assert).
Proof.
  intros fc nm sz vals p bs b off L Hg Hlen HF. split.
  - intros [Hp Hin]. destruct (live_read _ Hg _ _ L) as (v & R).
    destruct (set_realizes fc (TEnum nm sz vals) (ScPrim p bs) eq_refl Hg) with (b := b) (off := off) (v := v) (v' := VBytes bs) as (b' & E & _ & L' & R'); try assumption; [|reflexivity|eauto].
    cbn [scalar_ok]. split; [exact Hp|]. split; [congruence|]. split; [exact HF|]. apply Exists_exists. apply in_map_iff in Hin as (e & He & Hi). eauto.
  - intros Hn. unfold set_value. cbn [rget type_check scalar_type sizeof]. destruct (sz =? prim_size p) eqn:Es; [|reflexivity]. apply N.eqb_eq in Es.
    destruct (is_allowed_value vals (le_decode bs)) eqn:Ea; [|reflexivity]. apply is_allowed_value_spec in Ea. destruct Hn. auto.
Qed.
(** An enumeration element can nevertheless hold a value that is no enumerator: a new one is 0. *)
Theorem C43_declared_refuted : forall fc strhash, exists e, api_type e /\
  enum_value match e with TEnum _ _ vals => vals | _ => [] end "A" = Ok 5 /\
  (exists st, run fc strhash no_vars [New e; Do 0 [] (OpGet (StPrim PU32))] = Ok ([ONone; OVal (ScPrim PU32 [0; 0; 0; 0])], st)) /\
  run fc strhash no_vars [New e; Do 0 [] (OpSet (ScPrim PU32 [0; 0; 0; 0]))] = Fail Assert.
Proof.
  intros fc strhash. exists (enum_type (fst (add_enumerator (enum_new "E" 4) "A" 5))).
  split; [eapply at_enum with (nm := "E"%string) (sz := 4); [tauto|eapply eb_add; [apply eb_nil| |reflexivity]; vm_compute; reflexivity]|].
  split; [vm_compute; reflexivity|]. split; [eexists; vm_compute; reflexivity|vm_compute; reflexivity].
Qed.
Example C43_nontrivial : exists b, live ex_enum b 0 /\ good ex_enum /\ ex_enum = TEnum "E" 4 [("A"%string, 0)] /\ In (le_decode [0; 0; 0; 0]) (map snd [("A"%string, 0)]) /\
  ~ In (le_decode [1; 0; 0; 0]) (map snd [("A"%string, 0)]).
Proof.
  destruct (new_holds ex_enum ex_enum_api) as (d & _ & Td & Hh & _); [vm_compute; repeat split; congruence|].
  exists (d_mem d). pose proof (holds_good _ _ Hh) as Hg. destruct Hh as (_ & _ & _ & L & _). rewrite Td in *. split; [exact L|]. split; [exact Hg|].
  split; [reflexivity|]. split; [left; reflexivity|]. vm_compute. intuition discriminate.
Qed.

(** ** The hypotheses are met *)
(** A program over [exd_type]: fill the sequence, select and fill the union, copy, change the copy, compare, assign. *)
Definition exd_prog : list stmt :=
  [New exd_type;
   Do 0 [PF (FName "q")] (OpPushVal (ScStr SK8 [104; 105]));
   Do 0 [PF (FName "u"); PF (FName "x")] (OpSet (ScStr SK8 [97; 98; 99; 100; 101]));
   Copy 0;
   Do 1 [PF (FName "a"); PF (FIdx 1)] (OpSet (ScPrim PI16 [5; 1]));
   Do 1 [PF (FName "a")] (OpEq (0%nat, [PF (FName "a")]));
   Assign 0 1;
   Do 0 [PF (FName "q"); PF (FIdx 0)] (OpGet (StStr SK8));
   Destroy 1].
Definition exd_final : value :=
  VNode [VBytes [0; 0; 0; 0]; VNode [VStr [104; 105]]; VNode [VBytes [0; 0]; VBytes [5; 1]];
         VUnion (VBytes [1; 0; 0; 0]) (Some (VStr [97; 98; 99; 100]))].
Ltac go_exec :=
  match goal with
  | |- execs _ _ _ [] _ _ => apply execs_nil
  | |- execs _ _ _ (_ :: _) _ _ => eapply execs_cons
  | |- exec _ _ _ (New _) _ _ => apply exec_new
  | |- exec _ _ _ (Copy _) _ _ => eapply exec_copy
  | |- exec _ _ _ (Assign _ _) _ _ => eapply exec_assign
  | |- exec _ _ _ (Destroy _) _ _ => eapply exec_destroy
  | |- exec _ _ _ (Move _) _ _ => eapply exec_move
  | |- exec _ _ _ (Do _ _ _) _ _ => eapply exec_do
  | |- vresolve _ _ [] _ _ => apply vresolve_nil
  | |- vresolve _ _ (PF _ :: _) _ _ => apply vresolve_f
  | |- vresolve _ _ (PKey _ :: _) _ _ => eapply vresolve_key
  | |- vresolve _ _ (PAt _ :: _) _ _ => eapply vresolve_at
  | |- vop _ _ _ _ _ => econstructor
  | |- vsource _ _ _ _ _ _ => eapply vsource_intro
  | |- vfetch _ _ _ _ _ _ => eapply vfetch_intro
  | |- vfetch_path _ _ _ _ _ _ _ => eapply vfetch_intro
  end.
Ltac vc := vm_compute; reflexivity.
Example exd_runs : exists vs l, execs fc0 sh0 [] exd_prog l vs /\ nth_error vs 0 = Some (VLive exd_type exd_final) /\
  nth_error l 5 = Some (OBool false) /\ nth_error l 7 = Some (OVal (ScStr SK8 [104; 105])).
Proof.
  eexists. eexists. split; [unfold exd_prog; repeat go_exec|].
  all: try vc.
  - apply at_struct, exd_built.
  - exact exd_ok.
  - vm_compute. tauto.
  - vm_compute. repeat split; repeat constructor. exists 1%Z, "x"%string. auto.
  - vm_compute. repeat constructor.
  - vm_compute. tauto.
  - congruence.
  - vm_compute. tauto.
  - vm_compute. repeat split; repeat constructor. exists 1%Z, "x"%string. auto.
  - repeat split; vc.
Qed.
Example C07_nontrivial : exists l st, run fc0 sh0 no_vars exd_prog = Ok (l, st) /\ var_holds st 0 exd_type exd_final /\
  copy_ok exd_type /\ vselected exd_type exd_final.
Proof.
  destruct exd_runs as (vs & l & H & H0 & _). destruct (C07_programs fc0 sh0 _ _ _ H) as (st & E & _ & Hx).
  exists l, st. split; [exact E|]. split; [apply Hx, H0|]. split; [vm_compute; tauto|].
  vm_compute. repeat split; repeat constructor. exists 1%Z, "x"%string. auto.
Qed.
(** A live instance of [exd_type] with that value: the hypotheses of C08, C10, C11. *)
Example C08_nontrivial : exists d, holds d exd_final /\ d_type d = exd_type.
Proof. destruct C07_nontrivial as (l & st & _ & (u & b & _ & _ & _ & _ & H) & _). exists (mkData exd_type b). split; [exact H|reflexivity].
Qed.
(** Element [q][0] is written, [a][1] is not affected. *)
Example C09_nontrivial : exists d, holds d exd_final /\
  position (map fstep_vstep [FName "q"; FIdx 0]) (d_type d) = Some [1%nat; 0%nat] /\
  path_ty (map fstep_vstep [FName "q"; FIdx 0]) (d_type d) = Some (TStr SK8 4) /\
  elem [1%nat; 0%nat] exd_final = Some (VStr [104; 105]) /\ scalar_ok (TStr SK8 4) (ScStr SK8 [1; 2]) /\
  position (map fstep_vstep [FName "a"; FIdx 1]) (d_type d) = Some [2%nat; 1%nat] /\
  elem [2%nat; 1%nat] exd_final = Some (VBytes [5; 1]) /\ disjoint_pos [1%nat; 0%nat] [2%nat; 1%nat] /\
  read_value (TPrim PI16) (StPrim PI16) (VBytes [5; 1]) = Some (OVal (ScPrim PI16 [5; 1])).
Proof.
  destruct C08_nontrivial as (d & H & Ht). exists d. rewrite Ht. split; [exact H|]. repeat split; try vc. left. discriminate.
Qed.
Example C10_nontrivial : exists d e, holds d exd_final /\ holds e (default_value exd_type) /\ d_type d = exd_type /\ d_type e = exd_type /\
  nofloat exd_type.
Proof.
  destruct C08_nontrivial as (d & H & Ht). destruct (new_holds exd_type (at_struct _ exd_built) exd_ok) as (e & _ & Te & He & _).
  exists d, e. split; [exact H|]. split; [exact He|]. split; [exact Ht|]. split; [rewrite Te; vc|vm_compute; tauto].
Qed.
Example C11_nontrivial : copy_ok exd_type /\ vselected exd_type exd_final /\ scalar_only (TPair (mk_array (TPrim PI16) 2) (TPrim PF64)).
Proof. split; [vm_compute; tauto|]. split; [|vm_compute; tauto]. vm_compute. repeat split; repeat constructor. exists 1%Z, "x"%string. auto. Qed.
Example C41_nontrivial : exists d, new_data (TStr SK8 4) = Ok d /\ holds d (VStr []).
Proof. destruct (new_holds (TStr SK8 4)) as (d & E & _ & H & _); [apply at_str; reflexivity|exact I|]. exists d. split; assumption. Qed.

Print Assumptions C06_default_construction_partial.
Print Assumptions C06_default_construction_refuted.
Print Assumptions C07_copy_same_value_partial.
Print Assumptions C07_independent.
Print Assumptions C07_programs.
Print Assumptions C07_copy_refuted.
Print Assumptions C08_destroy.
Print Assumptions C08_destroy_fresh.
Print Assumptions C08_destroy_refuted.
Print Assumptions C09_write_confined.
Print Assumptions C09_write_then_read.
Print Assumptions C09_any_operation_confined.
Print Assumptions C10_equality_partial.
Print Assumptions C10_equality_defined.
Print Assumptions C10_equality_refuted.
Print Assumptions C11_assign_partial.
Print Assumptions C11_self_assign_scalars_partial.
Print Assumptions C11_self_assign_refuted.
Print Assumptions C41_get_checked_partial.
Print Assumptions C41_set_checked_partial.
Print Assumptions C41_checked_refuted.
Print Assumptions C43_set_enum.
Print Assumptions C43_declared_refuted.
