(** C54: hash() agrees with operator==. *)
From Verif Require Import Base Types TypeBuild TypeSpec Compat Mem MemSpec TyInd Layout MemFacts ConstructFacts CompareFacts
  EnumFacts UnionFacts Ops OpsSpec Hash HashSpec HashFacts HashInj DataHash MapOps Realize Prog ProgSpec ValueSpec ValueFacts DataSpec NumFacts DataFacts MapHistFacts CompatFacts2 PropTypes PropData PropMap.

(** hash() is defined and is a number of 64 bits that the value determines: two data of one type with the same value
    have the same hash, whatever they were built from.  Missing for the full property: types with unions and with bounded
    sequences ([hashable]). *)
Theorem C54_value_partial : forall strhash x y v, holds x v -> holds y v -> d_type x = d_type y -> hashable (d_type x) ->
  exists h, data_hash strhash x = Ok h /\ data_hash strhash y = Ok h.
Proof.
  intros strhash x y v Hx Hy Ht Hh. pose proof (holds_good _ _ Hx) as Gx. pose proof (holds_good _ _ Hy) as Gy. destruct Hx as (_ & _ & _ & Lx & Rx), Hy as (_ & _ & _ & Ly & Ry). unfold data_hash.
  exists (vhash strhash (d_type x) v). split; [apply hash_spec; assumption|]. rewrite <- Ht in *. apply hash_spec; assumption.
Qed.
(** Equal data have equal hashes.  Missing: floating point components (below). *)
Theorem C54_equal_partial : forall strhash x y v w, holds x v -> holds y w -> d_type x = d_type y -> hashable (d_type x) -> nofloat (d_type x) ->
  data_eq x y = Ok true -> exists h, data_hash strhash x = Ok h /\ data_hash strhash y = Ok h.
Proof.
  intros strhash x y v w Hx Hy Ht Hh Hn E. destruct (C10_equality_partial x y v w Hx Hy Ht Hn) as (r & Er & Hr). rewrite E in Er. injection Er as <-.
  rewrite <- (proj1 Hr eq_refl) in Hy. exact (C54_value_partial strhash x y v Hx Hy Ht Hh).
Qed.
(** A copy has the hash of the original, also with floating point components. *)
Theorem C54_copy_partial : forall fc strhash d v, holds d v -> copy_ok (d_type d) -> vselected (d_type d) v -> hashable (d_type d) ->
  exists d' h, copy_data fc d = Ok d' /\ data_hash strhash d = Ok h /\ data_hash strhash d' = Ok h.
Proof.
  intros fc strhash d v H Hc Hs Hh. destruct (C07_copy_same_value_partial fc d v H Hc Hs) as (d' & E & Ht & H' & _). destruct (C54_value_partial strhash d d' v H H' (eq_sym Ht) Hh) as (h & E1 & E2). eauto.
Qed.
(** Data of an integral or enumerated type of at most 8 bytes: equal exactly when the hashes are. *)
Theorem C54_distinct : forall strhash x y v w, holds x v -> holds y w -> d_type x = d_type y -> small_key (d_type x) -> nofloat (d_type x) ->
  (data_eq x y = Ok true <-> data_hash strhash x = data_hash strhash y).
Proof.
  intros strhash x y v w Hx Hy Ht Hs Hn.
  assert (Hh : hashable (d_type x)). { destruct Hx as (_ & _ & R & _). unfold small_key in Hs. rewrite R in Hs. destruct (d_type x); try (exfalso; exact Hs); exact I. }
  split.
  - intros E. destruct (C54_equal_partial strhash x y v w Hx Hy Ht Hh Hn E) as (h & -> & ->). reflexivity.
  - intros E. destruct (C10_equality_partial x y v w Hx Hy Ht Hn) as (r & -> & Hr). f_equal. apply Hr.
    pose proof (holds_good _ _ Hx) as Gx. pose proof (holds_good _ _ Hy) as Gy. pose proof Hx as (Wx & _ & _ & Lx & Rx). pose proof Hy as (Wy & _ & _ & Ly & Ry). unfold data_hash in E.
    rewrite (hash_spec strhash _ Gx Hh _ _ _ Lx Rx), (hash_spec strhash _ Gy ltac:(rewrite <- Ht; exact Hh) _ _ _ Ly Ry) in E. injection E as E. rewrite <- Ht in E.
    refine (C16_primitive_keys strhash (d_type x) v w Wx Hs _ _ E); [eapply live_wf_value; eassumption|].
    rewrite Ht. eapply live_wf_value; eassumption.
Qed.

(** Zero and minus zero are equal and have different hashes; so are structures of them. *)
Theorem C54_zero_refuted : forall fc strhash, exists x y h h', new_data exd_f = Ok x /\ after fc exd_f [SName "f"] (ScPrim PF32 [0; 0; 0; 128]) = Ok y /\
  data_eq x y = Ok true /\ data_hash strhash x = Ok h /\ data_hash strhash y = Ok h' /\ h <> h'.
Proof.
  intros fc strhash. eexists. eexists. eexists. eexists. split; [vm_compute; reflexivity|]. split; [vm_compute; reflexivity|]. split; [vm_compute; reflexivity|].
  split; [vm_compute; reflexivity|]. split; [vm_compute; reflexivity|]. vm_compute. discriminate.
Qed.
(** The hash of a bounded sequence is not a function of its elements: it reads the object itself, with its addresses. *)
Theorem C54_sequence_refuted : forall strhash c bd, 0 < bd -> forall d, d_type d = TSeq c bd -> data_hash strhash d = Fail UB.
Proof. intros strhash c bd H d E. unfold data_hash. rewrite E. cbn [hash]. destruct (N.eqb_spec bd 0); [lia|reflexivity]. Qed.
(** The hash of a union is that of its discriminator unless that happens to be one of the labels: equal unions have equal
    hashes then. *)
Lemma scalar_hash strhash disc a : check_discriminator disc = true -> wf_value disc a -> vhash strhash disc a < W64.
Proof.
  intros Hc Hw. rewrite vhash_rget. apply (proj1 (wf_value_rget disc a)) in Hw. unfold check_discriminator in Hc.
  destruct (rget disc) eqn:E; try discriminate Hc; destruct a; try contradiction Hw; cbn [vhash]; apply mix_lt.
Qed.
Theorem C54_union_partial : forall strhash x y dn o disc ms nm s labels dv iv d a u w, holds x (VUnion a u) -> holds y (VUnion a w) ->
  d_type x = TUnion nm s ((dn, o, disc) :: ms) labels dv iv d -> d_type y = d_type x -> hashable disc ->
  (forall l, lookup_label l labels <> None -> (l mod 2 ^ 64)%Z <> Z.of_N (vhash strhash disc a)) ->
  data_hash strhash x = Ok (vhash strhash disc a) /\ data_hash strhash y = Ok (vhash strhash disc a).
Proof.
  intros strhash x y dn o disc ms nm s labels dv iv d a u w Hx Hy Tx Ty Hh Hl.
  assert (Q : forall z u, holds z (VUnion a u) -> d_type z = TUnion nm s ((dn, o, disc) :: ms) labels dv iv d -> data_hash strhash z = Ok (vhash strhash disc a)).
  { clear - Hh Hl. intros z u Hz T. pose proof (holds_good _ _ Hz) as G. destruct Hz as (_ & _ & _ & L & R). rewrite T in *. unfold data_hash. rewrite T. cbn [hash].
    destruct (good_union_inv _ _ _ _ _ _ _ G) as (dn' & disc' & cs & E & Gd & Hc & _). injection E as <- -> <- <-.
    cbn [live] in L. destruct L as (_ & Ld & l & El & _). cbn [read] in R. apply bind_ok in R as (v0 & Rd & R). rewrite El in R. cbn [bind] in R.
    assert (v0 = a) as ->.
    { destruct (lookup_label l labels) as [nm'|]; [|injection R as -> _; reflexivity]. destruct (String.eqb nm' dn); [apply bind_ok in R as (q & _ & R); injection R as -> _; reflexivity|]. clear - R. induction ms as [|[[mn mo] mt] L IH]; [discriminate|].
      destruct (String.eqb nm' mn); [|exact (IH R)]. apply bind_ok in R as (q & _ & R). injection R as -> _. reflexivity. }
    rewrite (hash_spec strhash disc Gd Hh _ _ _ Ld Rd). cbn [bind]. assert (Hw : vhash strhash disc a < W64) by (apply scalar_hash; [exact Hc|eapply live_wf_value; eassumption]).
    set (h := vhash strhash disc a) in *. set (l' := if h <? 2 ^ 63 then Z.of_N h else (Z.of_N h - 2 ^ 64)%Z).
    destruct (lookup_label l' labels) eqn:El'; [|reflexivity]. exfalso. apply (Hl l'); [congruence|]. unfold l'. destruct (N.ltb_spec h (2 ^ 63)).
    - apply Z.mod_small. change (2 ^ 64)%Z with (Z.of_N W64). lia.
    - replace (Z.of_N h - 2 ^ 64)%Z with (Z.of_N h + (-1) * 2 ^ 64)%Z by lia. rewrite Z.mod_add by discriminate. apply Z.mod_small. change (2 ^ 64)%Z with (Z.of_N W64). lia. }
  split; [exact (Q x u Hx Tx)|]. apply (Q y w Hy). congruence.
Qed.
Definition labels_of (t : ty) : list (Z * string) := match t with TUnion _ _ _ l _ _ _ => l | _ => [] end.
Example C54_union_nontrivial : forall strhash, exists x a u, new_data exd_union = Ok x /\ holds x (VUnion a u) /\ labels_of (d_type x) <> [] /\
  forall l, lookup_label l (labels_of (d_type x)) <> None -> (l mod 2 ^ 64)%Z <> Z.of_N (vhash strhash (TPrim PI32) a).
Proof.
  intros strhash. assert (K : ok_ty exd_union) by (vm_compute; repeat split; congruence). destruct (new_holds exd_union (at_union _ exd_union_built) K) as (d & E & T & H & _).
  remember (default_value exd_union) as v eqn:Ev. vm_compute in Ev. subst v. exists d. eexists. eexists. split; [exact E|]. split; [exact H|]. rewrite T.
  remember (labels_of (rget exd_union)) as ls eqn:El. vm_compute in El. subst ls. split; [discriminate|]. intros l Hl.
  assert (D : l = 1%Z \/ l = 3%Z \/ l = 2147483647%Z).
  { cbn [lookup_label] in Hl. repeat match type of Hl with context [Z.eqb ?a ?b] => destruct (Z.eqb_spec a b) end; try tauto. }
  destruct D as [->|[->| ->]]; vm_compute; discriminate.
Qed.
(** Non-trivial: a structure with a string, an array and a map. *)
Definition exh_type : ty := fst (add_member (fst (add_member (fst (add_member (TStruct "H" 0 []) "s" (TStr SK8 0))) "a" (mk_array (TPrim PI16) 2))) "m" (TMap (TStr SK8 0) (TPrim PU8) 0)).
Example C54_nontrivial : forall strhash, exists x y h, new_data exh_type = Ok x /\ new_data exh_type = Ok y /\ holds x (default_value exh_type) /\ holds y (default_value exh_type) /\
  hashable (d_type x) /\ nofloat (d_type x) /\ data_eq x y = Ok true /\ data_hash strhash x = Ok h /\ data_hash strhash y = Ok h.
Proof.
  intros strhash. assert (A : api_type exh_type).
  { apply at_struct. unfold exh_type. apply built_add; [|apply at_map; [apply at_str; reflexivity|apply at_prim|reflexivity]|vm_compute; reflexivity].
    apply built_add; [|apply at_arr; [apply at_prim|reflexivity]|vm_compute; reflexivity]. apply built_add; [apply sb_new|apply at_str; reflexivity|reflexivity]. }
  assert (K : ok_ty exh_type) by (vm_compute; repeat split; congruence).
  destruct (new_holds exh_type A K) as (d & E & T & H & _). assert (Hh : hashable (d_type d)) by (rewrite T; vm_compute; tauto). assert (Hn : nofloat (d_type d)) by (rewrite T; vm_compute; tauto).
  assert (Eq : data_eq d d = Ok true). { destruct (C10_equality_partial d d _ _ H H eq_refl Hn) as (r & -> & Hr). f_equal. apply Hr. reflexivity. }
  destruct (C54_equal_partial strhash d d _ _ H H eq_refl Hh Hn Eq) as (h & Eh & _). exists d, d, h. repeat (split; [assumption|]). exact Eh.
Qed.

Print Assumptions C54_value_partial.
Print Assumptions C54_equal_partial.
Print Assumptions C54_copy_partial.
Print Assumptions C54_distinct.
Print Assumptions C54_zero_refuted.
Print Assumptions C54_sequence_refuted.
Print Assumptions C54_union_partial.
