(** C25: constructing a DynamicData of one type from data of another, compatible type (DynamicData.hpp:1343-1352). *)
From Verif Require Import Base Types TypeBuild TypeSpec Compat TyInd CompatFacts CompatFacts2 Mem MemSpec Layout MemFacts ConstructFacts MemEqns CopyFacts Ops OpsSpec Realize Prog ProgFacts
  PathFacts ValueSpec ValueFacts DataSpec DataFacts ConvSpec ConvFacts ConvTotal PropTypes PropData.

(** ** The conversion succeeds, the new instance is wholly alive and holds the converted value.  Missing for the full
    property: the pairs of compatible types for which no conversion is prescribed by ConvSpec ([convertible]); what
    happens with those is listed in the _refuted theorems. *)
Theorem C25_convert_partial : forall fc x v t v' c, holds x v -> api_type t -> ok_ty t ->
  is_compatible (rget t) (d_type x) = Ok c -> c <> NONE -> converts fc (rget t) (d_type x) v v' ->
  exists d, convert_data fc x t = Ok d /\ d_type d = rget t /\ holds d v'.
Proof.
  intros fc x v t v' c Hh Ha Ho Ec Hc Hv. pose proof (holds_good _ _ Hh) as Hgo. destruct Hh as (_ & _ & _ & L & R).
  assert (Hg : good (rget t)) by (apply good_rget; split; [apply api_type_wf, Ha|exact Ho]).
  destruct (converts_spec fc (rget t) Hg (d_type x) (d_mem x) 0 v v' (fresh (msize t)) 0 Hgo L R Hv) as (b & E & A & L' & R').
  { rewrite msize_rget. apply fresh_alloc. }
  exists (mkData (rget t) b). unfold convert_data. rewrite Ec. cbn [bind]. apply N.eqb_neq in Hc. rewrite Hc, E. cbn [bind].
  split; [reflexivity|]. split; [reflexivity|]. destruct Hg as [G1 G2]. unfold holds. cbn [d_type d_mem]. repeat (split; [assumption|]). split; [apply rget_idem|]. split; [exact L'|exact R'].
Qed.
(** For types that meet the conditions, every source value is converted. *)
Theorem C25_total_partial : forall fc x v t c, holds x v -> api_type t -> ok_ty t ->
  is_compatible (rget t) (d_type x) = Ok c -> c <> NONE -> convertible (rget t) (d_type x) ->
  exists v' d, converts fc (rget t) (d_type x) v v' /\ convert_data fc x t = Ok d /\ d_type d = rget t /\ holds d v'.
Proof.
  intros fc x v t c Hh Ha Ho Ec Hc Hv. pose proof (holds_good _ _ Hh) as Hgo.
  destruct (converts_total fc (rget t) (d_type x) v Hv) as (v' & Hcv). { destruct Hh as (_ & _ & _ & L & R). eapply live_wf_value; eassumption. }
  destruct (C25_convert_partial fc x v t v' c Hh Ha Ho Ec Hc Hcv) as (d & H). exists v', d. auto.
Qed.
(** Incompatible types are refused. *)
Theorem C25_incompatible_rejected : forall fc x t, is_compatible (rget t) (d_type x) = Ok NONE -> convert_data fc x t = Fail Assert.
Proof. intros fc x t E. unfold convert_data. rewrite E. reflexivity. Qed.

(** ** Members: the i-th member is converted from the i-th one of the source, whatever the names. *)
Theorem C25_members : forall fc nm s ms on os oms l l' i m om w w',
  converts fc (TStruct nm s ms) (TStruct on os oms) (VNode l) (VNode l') ->
  nth_error ms i = Some m -> nth_error oms i = Some om -> nth_error l i = Some w -> nth_error l' i = Some w' ->
  converts fc (m_type m) (m_type om) w w'.
Proof.
  intros fc nm s ms on os oms l l' i m om w w' H. cbn [converts rget] in H. apply members_convert_eq in H.
  revert oms l l' i H. induction ms as [|m0 r IH]; intros [|om0 oms] [|w0 l] [|w0' l'] [|i] H E1 E2 E3 E4; cbn in E1, E2, E3, E4; try discriminate; try (destruct r; contradiction H).
  - injection E1 as <-. injection E2 as <-. injection E3 as <-. injection E4 as <-. destruct r; apply H.
  - apply (IH oms l l' i); try assumption. destruct r; apply H.
Qed.
(** A member the source does not have takes the default value (zero or empty, C06). *)
Theorem C25_missing_default_partial : forall fc nm s ms on os oms l l' i m w',
  converts fc (TStruct nm s ms) (TStruct on os oms) (VNode l) (VNode l') -> good (m_type m) ->
  nth_error ms i = Some m -> nth_error oms i = None -> nth_error l' i = Some w' -> blank (m_type m) w'.
Proof.
  intros fc nm s ms on os oms l l' i m w' H Hg. cbn [converts rget] in H. apply members_convert_eq in H.
  revert oms l l' i H. induction ms as [|m0 r IH]; intros [|om0 oms] [|w0 l] [|w0' l'] [|i] H E1 E2 E4; cbn in E1, E2, E4; try discriminate; try (destruct r; contradiction H).
  - destruct r; [|contradiction H]. destruct l'; [|contradiction H]. cbn [members_convert] in H. subst. injection E1 as ->. injection E4 as <-. apply default_blank, Hg.
  - destruct r; [destruct i; discriminate E1|contradiction H].
  - apply (IH oms l l' i); try assumption. destruct r; apply H.
Qed.

(** ** Where it fails *)
Definition exc_struct (l : list (string * ty)) : ty := fold_left (fun t m => fst (add_member t (fst m) (snd m))) l (TStruct "S" 0 []).
Lemma exc_struct_built l : (forall m, In m l -> api_type (snd m)) ->
  forall t, struct_built t -> (forall k, (k < List.length l)%nat -> snd (let t' := fold_left (fun t m => fst (add_member t (fst m) (snd m))) (firstn k l) t in
    match nth_error l k with Some m => add_member t' (fst m) (snd m) | None => (t', Ok tt) end) = Ok tt) ->
  struct_built (fold_left (fun t m => fst (add_member t (fst m) (snd m))) l t).
Proof.
  induction l as [|m l IH]; intros Hl t Ht Hk; [exact Ht|]. cbn [fold_left]. apply IH; [intros x Hx; apply Hl; right; exact Hx| |].
  - apply built_add; [exact Ht|apply Hl; left; reflexivity|]. exact (Hk 0%nat ltac:(cbn; lia)).
  - intros k Hlt. exact (Hk (S k) ltac:(cbn; lia)).
Qed.
Ltac exc_built := apply at_struct, exc_struct_built;
  [cbn [In]; intros m Hm; repeat (destruct Hm as [<-|Hm]; [cbn [snd]|]); [..|contradiction Hm]|apply sb_new
  |cbn [List.length]; intros k Hk; do 6 (destruct k as [|k]; [try (vm_compute; reflexivity); exfalso; lia|]); exfalso; lia].

Definition u8 : ty := TPrim PU8.
Definition results (r : res (list out * state)) : res (list out) := match r with Ok (l, _) => Ok l | Fail e => Fail e end.
Definition compatible (t o : ty) : Prop := exists c, is_compatible (rget t) (rget o) = Ok c /\ c <> NONE.
(** Two members missing in the source: the member iterator runs past the end (StructType.hpp:113-152). *)
Theorem C25_missing_refuted : forall fc strhash, exists t o, api_type t /\ api_type o /\ ok_ty t /\ ok_ty o /\ compatible t o /\
  run fc strhash no_vars [New o; Convert 0 t] = Fail UB.
Proof.
  intros fc strhash. exists (exc_struct [("a", u8); ("b", u8); ("c", u8); ("d", u8)]%string), (exc_struct [("a", u8); ("b", u8)]%string).
  split; [exc_built; apply at_prim|]. split; [exc_built; apply at_prim|]. split; [vm_compute; repeat split; congruence|]. split; [vm_compute; repeat split; congruence|].
  split; [eexists; split; [vm_compute; reflexivity|discriminate]|vm_compute; reflexivity].
Qed.
(** A longer array: the conversion succeeds, the additional elements are never constructed; destroying the result is undefined. *)
Theorem C25_array_tail_refuted : forall fc strhash, exists t o, api_type t /\ api_type o /\ ok_ty t /\ ok_ty o /\ compatible t o /\
  results (run fc strhash no_vars [New o; Convert 0 t]) = Ok [ONone; ONone] /\ run fc strhash no_vars [New o; Convert 0 t; Destroy 1] = Fail UB.
Proof.
  intros fc strhash. exists (mk_array (TStr SK8 0) 2), (mk_array (TStr SK8 0) 1).
  split; [apply at_arr; [apply at_str|]; reflexivity|]. split; [apply at_arr; [apply at_str|]; reflexivity|]. split; [vm_compute; repeat split; congruence|]. split; [vm_compute; repeat split; congruence|].
  split; [eexists; split; [vm_compute; reflexivity|discriminate]|]. split; vm_compute; reflexivity.
Qed.
(** A struct with an aliased union member, converted to its own type: the alias is cast to a union (UnionType.hpp:302). *)
Theorem C25_alias_union_refuted : forall fc strhash, exists t, api_type t /\ ok_ty t /\ compatible t t /\ run fc strhash no_vars [New t; Convert 0 t] = Fail UB.
Proof.
  intros fc strhash. exists (exc_struct [("a", TAlias "A" exd_union); ("b", u8)]%string).
  split; [exc_built; [apply at_alias, at_union, exd_union_built|apply at_prim]|]. split; [vm_compute; repeat split; congruence|].
  split; [eexists; split; [vm_compute; reflexivity|discriminate]|vm_compute; reflexivity].
Qed.
(** An enumeration of 1 byte is read as 4 bytes (PrimitiveType.hpp:135-210), also when converted to its own type. *)
Theorem C25_small_enum_refuted : forall fc strhash, exists t, api_type t /\ ok_ty t /\ compatible t t /\ run fc strhash no_vars [New t; Convert 0 t] = Fail UB.
Proof.
  intros fc strhash. exists (enum_type (enum_new "E" 1)).
  split; [eapply at_enum with (nm := "E"%string) (sz := 1); [tauto|apply eb_nil]|]. split; [vm_compute; repeat split; congruence|].
  split; [eexists; split; [vm_compute; reflexivity|discriminate]|vm_compute; reflexivity].
Qed.
(** The second half of a pair is read from the source at the offset it has in the target. *)
Theorem C25_pair_refuted : forall fc strhash, exists t o, api_type t /\ api_type o /\ ok_ty t /\ ok_ty o /\ compatible t o /\
  results (run fc strhash no_vars [New o; Do 0 [PF (FIdx 1)] (OpSet (ScPrim PU8 [7])); Convert 0 t; Do 1 [PF (FIdx 1)] (OpGet (StPrim PU8))])
    = Ok [ONone; ONone; ONone; OVal (ScPrim PU8 [0])] /\
  run fc strhash no_vars [New t; Convert 0 o] = Fail UB.
Proof.
  intros fc strhash. exists (TPair u8 u8), (TPair (TPrim PU32) u8).
  split; [apply at_pair; try apply at_prim; reflexivity|]. split; [apply at_pair; try apply at_prim; reflexivity|]. split; [vm_compute; repeat split; congruence|]. split; [vm_compute; repeat split; congruence|].
  split; [eexists; split; [vm_compute; reflexivity|discriminate]|]. split; vm_compute; reflexivity.
Qed.
(** An int32 converted to a float32 is converted; in an array its bytes are reinterpreted. *)
Theorem C25_array_float_refuted : forall fc strhash, exists t o, api_type t /\ api_type o /\ ok_ty t /\ ok_ty o /\ compatible t o /\
  results (run fc strhash no_vars [New o; Do 0 [PF (FIdx 0)] (OpSet (ScPrim PI32 [1; 0; 0; 0])); Convert 0 t; Do 1 [PF (FIdx 0)] (OpGet (StPrim PF32))])
    = Ok [ONone; ONone; ONone; OVal (ScPrim PF32 [1; 0; 0; 0])].
Proof.
  intros fc strhash. exists (mk_array (TPrim PF32) 1), (mk_array (TPrim PI32) 1).
  split; [apply at_arr; [apply at_prim|]; reflexivity|]. split; [apply at_arr; [apply at_prim|]; reflexivity|]. split; [vm_compute; repeat split; congruence|]. split; [vm_compute; repeat split; congruence|].
  split; [eexists; split; [vm_compute; reflexivity|discriminate]|]. vm_compute. reflexivity.
Qed.
(** The member of a union is read from the source with the type it has in the target. *)
Definition exc_union (m : ty) : ty := fst (add_case_member exd_u0 [1%Z] "x" m true).
Lemma exc_union_built m : api_type m -> union_built (exc_union m).
Proof. intros H. unfold exc_union. eapply ub_add; [|exact H|apply surjective_pairing]. apply (ub_new "U"%string (TPrim PI32)); [apply at_prim|reflexivity]. Qed.
Theorem C25_union_refuted : forall fc strhash, exists t o, api_type t /\ api_type o /\ ok_ty t /\ ok_ty o /\ compatible t o /\
  run fc strhash no_vars [New o; Convert 0 t] = Fail UB.
Proof.
  intros fc strhash. exists (exc_union (TPrim PU64)), (exc_union u8).
  split; [apply at_union, exc_union_built, at_prim|]. split; [apply at_union, exc_union_built, at_prim|]. split; [vm_compute; repeat split; congruence|]. split; [vm_compute; repeat split; congruence|].
  split; [eexists; split; [vm_compute; reflexivity|discriminate]|]. vm_compute. reflexivity.
Qed.
(** An integer becomes an enumeration without regard to the declared values (C43). *)
Theorem C43_convert_refuted : forall fc strhash, exists t o, api_type t /\ api_type o /\ ok_ty t /\ ok_ty o /\
  (exists nm sz, t = TEnum nm sz []) /\
  results (run fc strhash no_vars [New o; Do 0 [] (OpSet (ScPrim PU32 [7; 0; 0; 0])); Convert 0 t; Do 1 [] (OpGet (StPrim PU32))])
    = Ok [ONone; ONone; ONone; OVal (ScPrim PU32 [7; 0; 0; 0])].
Proof.
  intros fc strhash. exists (enum_type (enum_new "E" 4)), (TPrim PU32).
  split; [eapply at_enum with (nm := "E"%string) (sz := 4); [tauto|apply eb_nil]|]. split; [apply at_prim|]. split; [vm_compute; repeat split; congruence|]. split; [exact I|].
  split; [eexists; eexists; vm_compute; reflexivity|]. vm_compute. reflexivity.
Qed.

(** ** A conversion that meets the hypotheses: widening, a truncated string, a sequence with a bound, one missing member. *)
Definition exc_src : ty := exc_struct [("n", TPrim PI16); ("s", TStr SK8 0); ("q", TSeq (TPrim PU8) 0)]%string.
Definition exc_dst : ty := exc_struct [("n", TPrim PI32); ("s", TStr SK8 2); ("q", TSeq (TPrim PU16) 2); ("x", TStr SK8 0)]%string.
Definition exc_v : value := VNode [VBytes [254; 255]; VStr [97; 98; 99]; VNode [VBytes [1]; VBytes [2]; VBytes [3]]].
Definition exc_w : value := VNode [VBytes [254; 255; 255; 255]; VStr [97; 98]; VNode [VBytes [1; 0]; VBytes [2; 0]]; VStr []].
Example C25_nontrivial : api_type exc_dst /\ ok_ty exc_dst /\ compatible exc_dst exc_src /\ convertible exc_dst exc_src /\
  converts fc0 exc_dst exc_src exc_v exc_w /\
  exists d, new_data exc_src = Ok d /\ exists l st, run fc0 sh0 no_vars
    [New exc_src; Do 0 [PF (FName "n")] (OpSet (ScPrim PI16 [254; 255])); Do 0 [PF (FName "s")] (OpSet (ScStr SK8 [97; 98; 99]));
     Do 0 [PF (FName "q")] (OpPushVal (ScPrim PU8 [1])); Do 0 [PF (FName "q")] (OpPushVal (ScPrim PU8 [2])); Do 0 [PF (FName "q")] (OpPushVal (ScPrim PU8 [3]));
     Convert 0 exc_dst] = Ok (l, st) /\
    exists b1 b2, nth_error (heap st) 0 = Some (Some b1) /\ nth_error (heap st) 1 = Some (Some b2) /\ read exc_src b1 0 = Ok exc_v /\ read exc_dst b2 0 = Ok exc_w.
Proof.
  split; [exc_built; [apply at_prim|apply at_str; reflexivity|apply at_seq; [apply at_prim|reflexivity]|apply at_str; reflexivity]|]. split; [vm_compute; repeat split; congruence|].
  split; [eexists; split; [vm_compute; reflexivity|discriminate]|].
  let t := eval vm_compute in exc_dst in change exc_dst with t; let o := eval vm_compute in exc_src in change exc_src with o.
  split; [cbn [convertible rget strip1 elements_ok msize prim_size]; repeat split; discriminate|].
  split; [cbn [converts rget bare exc_v exc_w scalar_converts]; unfold exc_v, exc_w; unfold scalar_converts, elements_ok; cbn [bare msize prim_size];
    repeat first [discriminate|split]; try (intros ?; discriminate); repeat constructor; vm_compute; reflexivity|].
  eexists. split; [vm_compute; reflexivity|]. eexists. eexists. split; [vm_compute; reflexivity|].
  eexists. eexists. split; [reflexivity|]. split; [reflexivity|]. split; vm_compute; reflexivity.
Qed.

Print Assumptions C25_convert_partial.
Print Assumptions C25_total_partial.
Print Assumptions C25_incompatible_rejected.
Print Assumptions C25_members.
Print Assumptions C25_missing_default_partial.
Print Assumptions C25_missing_refuted.
Print Assumptions C25_array_tail_refuted.
Print Assumptions C25_alias_union_refuted.
Print Assumptions C25_small_enum_refuted.
Print Assumptions C25_pair_refuted.
Print Assumptions C25_array_float_refuted.
Print Assumptions C25_union_refuted.
Print Assumptions C43_convert_refuted.
