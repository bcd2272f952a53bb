(** Theorems about types: C01-C05, C22, C23, C42. *)
From Verif Require Import Base Types TypeBuild TypeSpec Compat CompatSpec TyInd CompatFacts CompatFacts2
  Layout EnumFacts.
From Coq Require Import Sorting.Sorted.

(* Sample types used in the examples. *)
Definition ex_struct1 : ty := fst (add_member (TStruct "P" 0 []) "a" (TPrim PU8)).
Definition ex_struct : ty := fst (add_member ex_struct1 "s" (TSeq (TStr SK8 4) 3)).
Definition ex_union0 : ty := TUnion "U" 4 [(UNION_DISCRIMINATOR, 0, TPrim PI32)] [] 2147483647 2147483646 2147483646.
Definition ex_union1 : ty := fst (add_case_member ex_union0 [1%Z; 2%Z] "x" ex_struct false).
Definition ex_union : ty := fst (add_case_member ex_union1 [] "y" (TPrim PF64) true).
Definition ex_enum : ty := enum_type (fst (add_enumerator (enum_new "E" 4) "A" 0)).
Example ex_struct_built : struct_built ex_struct.
Proof.
  apply (sb_add ex_struct1 "s" (TSeq (TStr SK8 4) 3)); [|apply at_seq; [apply at_str|]; reflexivity|reflexivity].
  apply (sb_add (TStruct "P" 0 []) "a" (TPrim PU8)); [apply sb_new|apply at_prim|reflexivity].
Qed.
Example ex_union0_built : union_built ex_union0.
Proof. apply (ub_new "U"%string (TPrim PI32)); [apply at_prim|reflexivity]. Qed.
Example ex_union_built : union_built ex_union.
Proof.
  unfold ex_union. eapply ub_add; [|apply (at_prim PF64)|apply surjective_pairing].
  unfold ex_union1. eapply ub_add; [apply ex_union0_built|apply at_struct, ex_struct_built|apply surjective_pairing].
Qed.
Example ex_enum_api : api_type ex_enum.
Proof.
  apply at_enum with (nm := "E"%string) (sz := 4); [tauto|].
  eapply eb_add with (nm := "A"%string) (v := 0); [apply eb_nil|reflexivity|reflexivity].
Qed.

(** ** C01 *)
(** is_compatible returns for every pair of types, and yields EQUALS on equal arguments. *)
Theorem C01_compatible_terminates : forall t o, exists v, is_compatible t o = Ok v.
Proof. exact is_compatible_total. Qed.
Theorem C01_compatible_reflexive : forall t, is_compatible t t = Ok EQUALS.
Proof. exact compat_refl. Qed.
(** The fuelled definition satisfies the recursive equations of the code. *)
Theorem C01_model_adequate : forall t o, is_compatible t o = compat_body is_compatible t o.
Proof. exact is_compatible_eq. Qed.
Example C01_nontrivial : is_compatible ex_union ex_union = Ok EQUALS /\ is_compatible ex_union ex_struct = Ok NONE.
Proof. split; vm_compute; reflexivity. Qed.

(** ** C02 *)
(** Verdicts do not see aliases, except for a primitive against an aliased enumeration. *)
Theorem C02_alias_transparent_partial : forall t o t' o',
  rget t = rget t' -> rget o = rget o' ->
  (is_prim (rget t) && is_enum (rget o) = false) ->
  is_compatible t o = is_compatible t' o'.
Proof.
  intros t o t' o' Ht Ho H. rewrite (compat_rget t o), (compat_rget t' o').
  - rewrite Ht, Ho. reflexivity.
  - left. rewrite <- Ho. destruct t'; try reflexivity. cbn in Ht. rewrite Ht in H. exact H.
  - left. destruct t; try reflexivity. exact H.
Qed.
(** The exception is real: uint32 against an enumeration is incompatible, but against an alias of
    that enumeration it is EQUALS (PrimitiveType.hpp:229-232 swaps the operands). *)
Theorem C02_alias_transparent_refuted : exists t o nm,
  api_type t /\ api_type o /\ is_compatible t (TAlias nm o) = Ok EQUALS /\ is_compatible t o = Ok NONE.
Proof.
  exists (TPrim PU32), ex_enum, "T"%string.
  split; [apply at_prim|]. split; [apply ex_enum_api|]. split; vm_compute; reflexivity.
Qed.
Example C02_nontrivial :
  rget (TAlias "a" (TAlias "b" ex_struct)) = rget ex_struct /\
  is_prim (rget (TAlias "a" ex_struct)) && is_enum (rget ex_union) = false /\
  is_compatible (TAlias "a" (TAlias "b" ex_struct)) (TAlias "c" ex_struct) = Ok EQUALS.
Proof. repeat split; vm_compute; reflexivity. Qed.

(** ** C03 *)
(** EQUALS implies the same leaves in the same order, hence the same size. *)
Theorem C03_equals_same_leaves : forall t o, is_compatible t o = Ok EQUALS -> shape t = shape o.
Proof. exact compat_equals_same_shape. Qed.
Theorem C03_equals_same_size : forall t o, api_type t -> api_type o ->
  is_compatible t o = Ok EQUALS -> msize t = msize o.
Proof. intros t o Ht Ho. apply compat_equals_same_size; apply api_type_wf; assumption. Qed.
(** But EQUALS is not type identity: int32 and float, and unions with disjoint label sets, are EQUALS. *)
Theorem C63_identity_refuted :
  is_compatible (TPrim PI32) (TPrim PF32) = Ok EQUALS /\
  (exists u1 u2, union_built u1 /\ union_built u2 /\ is_compatible u1 u2 = Ok EQUALS /\
     get_labels u1 "x" = [1%Z] /\ get_labels u2 "x" = [2%Z]).
Proof.
  split; [reflexivity|].
  exists (fst (add_case_member ex_union0 [1%Z] "x" (TPrim PF64) false)),
         (fst (add_case_member ex_union0 [2%Z] "x" (TPrim PF64) false)).
  split; [eapply ub_add; [apply ex_union0_built|apply (at_prim PF64)|apply surjective_pairing]|].
  split; [eapply ub_add; [apply ex_union0_built|apply (at_prim PF64)|apply surjective_pairing]|].
  repeat split; vm_compute; reflexivity.
Qed.
Example C03_nontrivial :
  is_compatible (mk_array (TPrim PI32) 3) (mk_array (TPrim PF32) 3) = Ok EQUALS /\
  api_type (mk_array (TPrim PI32) 3).
Proof. split; [vm_compute; reflexivity|apply at_arr; [apply at_prim|reflexivity]]. Qed.

(** ** C04 *)
Theorem C04_symmetric_partial : forall t o, plain t = true -> plain o = true ->
  is_compatible t o = is_compatible o t.
Proof. exact compat_sym_plain. Qed.
(** Symmetry fails with enumerations and with one-member structs. *)
Theorem C04_symmetric_refuted :
  (exists e, api_type e /\ is_compatible e (TPrim PU32) = Ok EQUALS /\ is_compatible (TPrim PU32) e = Ok NONE) /\
  (exists t o, struct_built t /\ api_type o /\ is_compatible t o = Ok EQUALS /\ is_compatible o t = Ok NONE).
Proof.
  split.
  - exists ex_enum. split; [apply ex_enum_api|]. split; vm_compute; reflexivity.
  - exists (fst (add_member (TStruct "S" 0 []) "p" (TPair (TPrim PU8) (TPrim PU8)))), (TPair (TPrim PU8) (TPrim PU8)).
    split; [apply (sb_add (TStruct "S" 0 []) "p" (TPair (TPrim PU8) (TPrim PU8))); [apply sb_new|apply at_pair; apply at_prim|reflexivity]|].
    split; [apply at_pair; apply at_prim|]. split; vm_compute; reflexivity.
Qed.
Example C04_nontrivial :
  plain ex_struct = true /\ plain ex_union = true /\
  is_compatible (TSeq ex_union 3) (TSeq ex_union 4) = Ok IGNORE_SEQUENCE_BOUNDS /\
  is_compatible (TSeq ex_union 4) (TSeq ex_union 3) = Ok IGNORE_SEQUENCE_BOUNDS.
Proof. repeat split; vm_compute; reflexivity. Qed.

(** ** C05 *)
Lemma laid_out_split o pre m post : laid_out o (pre ++ m :: post) -> m_off m = o + total_size pre.
Proof. intros H. apply laid_out_app in H as [_ [H _]]. exact H. Qed.

(** Members start where the previous ones end, the size is the sum of the sizes, names are distinct. *)
Theorem C05_struct_layout : forall t, struct_built t ->
  exists nm ms, t = TStruct nm (total_size ms) ms /\ NoDup (map m_name ms) /\
  forall pre m post, ms = pre ++ m :: post -> m_off m = total_size pre.
Proof.
  intros t H. destruct (struct_built_is t H) as (nm & s & ms & ->). exists nm, ms.
  apply struct_built_wf, wf_struct_iff in H as (H1 & -> & H3 & _).
  repeat split; [exact H3|]. intros pre m post ->. apply laid_out_split in H1. exact H1.
Qed.
(** Consequently byte ranges of different members are disjoint and inside the instance. *)
Theorem C05_members_disjoint : forall nm s ms pre m mid m' post, struct_built (TStruct nm s ms) ->
  ms = pre ++ m :: mid ++ m' :: post ->
  m_off m + msize (m_type m) <= m_off m' /\ m_off m' + msize (m_type m') <= s.
Proof.
  intros nm s ms pre m mid m' post H ->. apply struct_built_wf, wf_struct_iff in H as (H1 & -> & _ & _).
  pose proof (laid_out_split _ _ _ _ H1) as E1.
  pose proof H1 as H1'. rewrite (app_comm_cons mid _ m), app_assoc in H1'. apply laid_out_split in H1'.
  rewrite H1', E1, total_size_app. cbn [total_size fold_right]. fold (total_size mid).
  rewrite !total_size_app. cbn [total_size fold_right]. fold (total_size (mid ++ m' :: post)). rewrite total_size_app.
  cbn [total_size fold_right]. lia.
Qed.
(** add_member: appended at the end of the instance, or refused without change; earlier members keep
    their offsets (in particular inherited ones: [struct_new] starts from the parent's members). *)
Theorem C05_add_member : forall n s ms nm mt t' o,
  add_member (TStruct n s ms) nm mt = (t', o) ->
  (In nm (map m_name ms) /\ o = Fail Assert /\ t' = TStruct n s ms) \/
  (~ In nm (map m_name ms) /\ o = Ok tt /\ t' = TStruct n (s + msize mt) (ms ++ [(nm, s, mt)])).
Proof.
  intros n s ms nm mt t' o. cbn [add_member]. destruct (has_member nm ms) eqn:E; intros [= <- <-].
  - left. repeat split. unfold has_member in E. destruct (find_member nm ms) eqn:Ef; [|discriminate].
    apply find_member_some in Ef as [Hi <-]. apply in_map, Hi.
  - right. apply has_member_false in E. auto.
Qed.
Theorem C05_inherits_layout : forall nm p t, struct_new nm (Some p) = Ok t ->
  exists pn s ms, p = TStruct pn s ms /\ t = TStruct nm s ms.
Proof. intros nm p t. destruct p; cbn; try discriminate. intros [= <-]. eauto. Qed.
Example C05_nontrivial : ex_struct = TStruct "P" 57 [("a"%string, 0, TPrim PU8); ("s"%string, 1, TSeq (TStr SK8 4) 3)].
Proof. reflexivity. Qed.

(** ** C22 *)
(** In a union built through the API a label selects at most one member, which is a declared case. *)
Theorem C22_labels_unambiguous : forall t, union_built t ->
  exists nm s disc cases labels dv iv d,
    t = TUnion nm s (disc :: cases) labels dv iv d /\
    NoDup (map fst labels) /\
    (forall l a, In (l, a) labels -> In a (map m_name cases)) /\
    (forall l a b, In l (get_labels t a) -> In l (get_labels t b) -> a = b).
Proof.
  intros t H. destruct (union_built_is t H) as (nm & s & ms & labels & dv & iv & d & ->).
  apply union_built_wf, wf_union_iff in H as ((disc & cases & -> & _ & _ & _ & _ & _ & _ & Hl) & _).
  destruct Hl as (_ & _ & Hs & Hn & _).
  assert (Hnd : NoDup (map fst labels)).
  { clear Hn. induction labels as [|[k x] r IH]; cbn; [constructor|]. destruct Hs as [Hf Hs]. constructor; [|apply IH, Hs].
    intros Hi. apply in_map_iff in Hi as ([k' x'] & E & Hi). cbn in E. subst k'.
    rewrite Forall_forall in Hf. specialize (Hf _ Hi). cbn in Hf. lia. }
  exists nm, s, disc, cases, labels, dv, iv, d. repeat split; [exact Hnd| |].
  - intros l a Hi. rewrite Forall_forall in Hn. apply (Hn (l, a)), Hi.
  - intros l a b. cbn [get_labels]. rewrite !in_map_iff. intros ((l1 & a1) & E1 & H1) ((l2 & b1) & E2 & H2).
    cbn in E1, E2. subst l1 l2. apply filter_In in H1 as [H1 F1]. apply filter_In in H2 as [H2 F2].
    apply andb_prop in F1 as [F1 _]. apply andb_prop in F2 as [F2 _]. cbn in F1, F2.
    apply String.eqb_eq in F1, F2. subst a1 b1.
    apply (in_lookup _ _ _ Hs) in H1. apply (in_lookup _ _ _ Hs) in H2. congruence.
Qed.
(** A refused add_case_member changes nothing, unless it is refused for being a second default. *)
Theorem C64_rejected_unchanged_partial : forall t ls nm mt isd t' e,
  add_case_member t ls nm mt isd = (t', Fail e) ->
  t' = t \/ (isd = true /\ exists n s ms labels dv iv d, t = TUnion n s ms labels dv iv d /\ d <> iv).
Proof.
  intros t ls nm mt isd t' e H. apply add_case_member_cases in H as
    [[-> _]|(n & s & dn & doff & disc & cases & labels & dv & iv & d & -> & _ & _ & _ & H)]; [auto|].
  cbv zeta in H. destruct isd; [|destruct H as (_ & H & _); discriminate].
  destruct H as [(_ & H & _)|(Hd & _ & _)]; [discriminate|].
  right. split; [reflexivity|]. repeat eexists. exact Hd.
Qed.
(** The exception is real: the second default is refused but its member has been added. *)
Theorem C64_rejected_unchanged_refuted : exists t t', union_built t /\
  add_case_member t [] "z" (TPrim PU8) true = (t', Fail Assert) /\ t' <> t /\
  (match t' with TUnion _ _ ms _ _ _ _ => has_member "z" ms | _ => false end) = true.
Proof.
  exists ex_union. eexists. split; [apply ex_union_built|]. split; [vm_compute; reflexivity|].
  split; [discriminate|reflexivity].
Qed.
(** A label already taken, the discriminator's name, a duplicate name and a label-less non-default
    case are refused with the type unchanged. *)
Theorem C22_conflicts_rejected : forall n s dn doff disc cases labels dv iv d ls nm mt isd t' o,
  add_case_member (TUnion n s ((dn, doff, disc) :: cases) labels dv iv d) ls nm mt isd = (t', o) ->
  (exists x, In x ls /\ lookup_label (shrink_label x (msize disc)) labels <> None) \/
  In nm (map m_name ((dn, doff, disc) :: cases)) \/ nm = UNION_DISCRIMINATOR \/ (isd = false /\ ls = []) ->
  o <> Ok tt /\ t' = TUnion n s ((dn, doff, disc) :: cases) labels dv iv d.
Proof.
  intros n s dn doff disc cases labels dv iv d ls nm mt isd t' o H Hbad.
  apply add_case_member_cases in H as
    [[-> Ho]|(n' & s' & dn' & doff' & disc' & cases' & labels' & dv' & iv' & d' & E & H1 & H2 & H3 & H)]; [auto|exfalso].
  injection E as <- <- <- <- <- <- <- <- <- <-. cbv zeta in H.
  apply check_labels_ok in H3. rewrite Forall_forall in H3.
  destruct Hbad as [(x & Hx & Hl)|[Hi|[->|[-> ->]]]]; [apply Hl, H3, Hx|auto|auto|].
  destruct H as (H & _). auto.
Qed.
(** At most one default: the second default is refused — unless the first default carries the
    internal "invalid" label, in which case a second default is accepted. *)
Theorem C64_single_default_partial : forall n s ms labels dv iv d ls nm mt t' o,
  d <> iv -> add_case_member (TUnion n s ms labels dv iv d) ls nm mt true = (t', o) -> o <> Ok tt.
Proof.
  intros n s ms labels dv iv d ls nm mt t' o Hd H. apply add_case_member_cases in H as
    [[_ Ho]|(n' & s' & dn' & doff' & disc' & cases' & labels' & dv' & iv' & d' & E & H1 & H2 & H3 & H)]; [exact Ho|].
  injection E as <- <- -> <- <- <- <-. cbv zeta in H. destruct H as [(H & _)|(_ & -> & _)]; [contradiction|discriminate].
Qed.
Theorem C64_single_default_refuted : exists t t1 t2, union_built t /\
  add_case_member t [126%Z] "a" (TPrim PU8) true = (t1, Ok tt) /\
  add_case_member t1 [] "b" (TPrim PU8) true = (t2, Ok tt) /\ get_default t1 = Ok ""%string /\ get_default t2 = Ok "b"%string.
Proof.
  exists (TUnion "U" 1 [(UNION_DISCRIMINATOR, 0, TPrim PI8)] [] 127 126 126). do 2 eexists.
  split; [apply (ub_new "U"%string (TPrim PI8)); [apply at_prim|reflexivity]|].
  repeat split; vm_compute; reflexivity.
Qed.
Example C22_nontrivial : get_labels ex_union "x" = [1%Z; 2%Z] /\ get_default ex_union = Ok "y"%string /\
  snd (add_case_member ex_union [2%Z] "w" (TPrim PU8) false) = Fail Assert.
Proof. repeat split; vm_compute; reflexivity. Qed.

(** ** C23 *)
(** Names are distinct and value(name) is the value given when the name was accepted. *)
Theorem C23_names_distinct : forall nm sz calls e acc, run_enum (enum_new nm sz) calls = (e, acc) ->
  NoDup (map fst acc) /\ forall n v, enum_value (es_vals e) n = Ok v <-> In (n, v) acc.
Proof.
  intros nm sz calls e acc H. apply run_enum_assoc in H as (H1 & _ & H3 & _). split; [exact H1|].
  intros n v. unfold enum_value. rewrite H3. cbn. split.
  - destruct (assoc n acc) eqn:E; [|discriminate]. intros [= ->]. apply assoc_in, E.
  - intros Hi. rewrite (in_assoc _ _ _ H1 Hi). reflexivity.
Qed.
(** As long as the maximum of the value type is not used, values strictly increase in declaration
    order and enumerator() inverts value().  Missing from the full property: see the refutation. *)
Theorem C65_one_to_one_partial : forall nm sz calls e acc, run_enum (enum_new nm sz) calls = (e, acc) ->
  Forall (fun c => snd c + 1 < 2 ^ (8 * sz)) calls ->
  StronglySorted (fun a b => snd a < snd b) acc /\
  forall n v, In (n, v) acc -> enum_value (es_vals e) n = Ok v /\ enum_enumerator (es_vals e) v = n /\
    is_allowed_value (es_vals e) v = true.
Proof.
  intros nm sz calls e acc H HF. split; [apply (run_enum_increasing _ _ _ _ H HF)|].
  eapply run_enum_inverse; eassumption.
Qed.
Theorem C23_rejected_unchanged : forall e nm v e' er, add_enumerator e nm v = (e', Fail er) -> e' = e.
Proof. exact add_enumerator_rejected. Qed.
(** After the maximal value, next_value_ wraps to 0 and values can repeat. *)
Theorem C65_one_to_one_refuted : exists calls e acc,
  run_enum (enum_new "E" 1) calls = (e, acc) /\ In ("A"%string, 255) acc /\ In ("B"%string, 255) acc /\
  enum_enumerator (es_vals e) 255 = "A"%string.
Proof.
  exists [("A"%string, 255); ("B"%string, 255)]. do 2 eexists. split; [vm_compute; reflexivity|].
  repeat split; cbn; auto.
Qed.
Example C23_nontrivial : exists e, run_enum (enum_new "E" 2) [("B"%string, 3); ("A"%string, 3); ("A"%string, 7); ("A"%string, 9)]
  = (e, [("B"%string, 3); ("A"%string, 7)]).
Proof. eexists. vm_compute. reflexivity. Qed.

(** ** C42 *)
(** operator| on verdicts: a commutative idempotent monoid with neutral EQUALS and absorbing NONE;
    [verdict_ok] is the set of values is_compatible returns (C42_verdicts). *)
Theorem C42_verdicts : forall t o v, is_compatible t o = Ok v -> v = NONE \/ v < 256.
Proof. intros t o v H. apply is_compatible_verdict' in H. exact H. Qed.
Theorem C42_combination : forall a b c, (a = NONE \/ a < 256) -> (b = NONE \/ b < 256) ->
  N.lor a (N.lor b c) = N.lor (N.lor a b) c /\ N.lor a b = N.lor b a /\ N.lor a a = a /\
  N.lor EQUALS a = a /\ (N.lor a b = NONE <-> a = NONE \/ b = NONE) /\
  (N.lor a b = EQUALS <-> a = EQUALS /\ b = EQUALS).
Proof.
  intros a b c Ha Hb. split; [apply N.lor_assoc|]. split; [apply N.lor_comm|]. split; [apply N.lor_diag|].
  split; [reflexivity|]. split; [apply lor_none_iff; assumption|apply N.lor_eq_0_iff].
Qed.
(** The verdict of two structures (not of one member) is the verdict of their member lists. *)
Theorem C42_struct_verdict : forall n s ms n' s' ms', List.length ms <> 1%nat ->
  is_compatible (TStruct n s ms) (TStruct n' s' ms') = Ok (members_verdict ms ms').
Proof.
  intros n s ms n' s' ms' Hl. rewrite is_compatible_eq. cbn [compat_body].
  destruct ms as [|m [|m2 r]]; try (exfalso; apply Hl; reflexivity); apply compat_members_is.
Qed.
Theorem C42_union_verdict : forall n s ms l a b c n' s' ms' l' a' b' c',
  is_compatible (TUnion n s ms l a b c) (TUnion n' s' ms' l' a' b' c') = Ok (members_verdict ms ms').
Proof. intros. rewrite is_compatible_eq. cbn [compat_body]. apply compat_members_is. Qed.
Example C42_nontrivial :
  members_verdict [("a"%string, 0, TPrim PU8); ("b"%string, 1, TPrim PI32)]
                  [("a"%string, 0, TPrim PU16); ("c"%string, 2, TPrim PU32); ("d"%string, 2, TPrim PU32)]
  = N.lor (N.lor IGNORE_TYPE_WIDTH IGNORE_TYPE_SIGN) (N.lor IGNORE_MEMBER_NAMES IGNORE_MEMBERS).
Proof. vm_compute. reflexivity. Qed.

Print Assumptions C01_compatible_terminates.
Print Assumptions C01_compatible_reflexive.
Print Assumptions C01_model_adequate.
Print Assumptions C02_alias_transparent_partial.
Print Assumptions C02_alias_transparent_refuted.
Print Assumptions C03_equals_same_leaves.
Print Assumptions C03_equals_same_size.
Print Assumptions C63_identity_refuted.
Print Assumptions C04_symmetric_partial.
Print Assumptions C04_symmetric_refuted.
Print Assumptions C05_struct_layout.
Print Assumptions C05_members_disjoint.
Print Assumptions C05_add_member.
Print Assumptions C05_inherits_layout.
Print Assumptions C22_labels_unambiguous.
Print Assumptions C64_rejected_unchanged_partial.
Print Assumptions C64_rejected_unchanged_refuted.
Print Assumptions C22_conflicts_rejected.
Print Assumptions C64_single_default_partial.
Print Assumptions C64_single_default_refuted.
Print Assumptions C23_names_distinct.
Print Assumptions C65_one_to_one_partial.
Print Assumptions C23_rejected_unchanged.
Print Assumptions C65_one_to_one_refuted.
Print Assumptions C42_verdicts.
Print Assumptions C42_combination.
Print Assumptions C42_struct_verdict.
Print Assumptions C42_union_verdict.
