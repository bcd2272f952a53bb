(** Theorems about maps: C15-C19. *)
From Coq Require Import Permutation.
From Verif Require Import Base Types TypeBuild TypeSpec Compat Mem MemSpec TyInd Layout MemEqns MemFacts ConstructFacts CopyFacts CompareFacts CompatFacts CompatFacts2
  EnumFacts UnionFacts SeqFacts CollectFacts Ops OpsSpec Hash HashSpec HashFacts HashInj MapOps MapSpec MapValue MapFacts PathFacts Realize Prog ProgSpec ProgFacts ValueSpec
  ValueFacts DataSpec DataFacts HistSpec HistFacts MapHistSpec MapOrder MapHistFacts PropTypes PropData PropSeq.

(** ** C15 *)
(** Any history of calls on a map that holds the finite map [a], refused calls included, returns the answers of the
    finite map and leaves a map that holds the finite map the calls leave.  Missing for the full property: key types
    outside [hashable] (see C17), types outside [copy_ok] and [movable] (C12), unbounded maps longer than what can be
    requested from the 32-bit allocator (C14), and insert (C18), which stores the default value. *)
Theorem C15_history_partial : forall fc strhash k v bd d l a os cs,
  holds d (VNode l) -> d_type d = TMap k v bd -> ordered strhash k l = true -> contains l a ->
  entry_ok k v -> Forall2 (map_means k v) os cs ->
  no_collision strhash k (map fst a ++ flat_map call_key cs) ->
  (bd = 0 -> allocatable (TPair k v) (2 * N.of_nat (List.length a + List.length cs)) = true) ->
  exists d' l', calls_map fc strhash d os = Ok (fst (f_run v bd a cs), d') /\
    holds d' (VNode l') /\ d_type d' = TMap k v bd /\ ordered strhash k l' = true /\ contains l' (snd (f_run v bd a cs)).
Proof.
  intros fc strhash k v bd d l a os cs H Ht Ho Hc Hok Hf Hn Ha.
  destruct (map_calls_sim fc strhash k v bd Hok (map fst a ++ flat_map call_key cs) os cs Hf Hn) with (d := d) (a := a) as (d' & E & l' & Hs); try assumption.
  - intros x Hx. apply in_or_app. right. exact Hx.
  - exists l. auto.
  - intros x Hx. apply in_or_app. left. exact Hx.
  - exists d', l'. split; [exact E|]. destruct Hs as (H1 & H2 & H3 & H4). auto.
Qed.
(** From the constructor on. *)
Theorem C15_new_partial : forall fc strhash k v bd os cs,
  api_type (TMap k v bd) -> ok_ty (TMap k v bd) -> entry_ok k v -> Forall2 (map_means k v) os cs ->
  no_collision strhash k (flat_map call_key cs) -> (bd = 0 -> allocatable (TPair k v) (2 * N.of_nat (List.length cs)) = true) ->
  exists d d' l', new_data (TMap k v bd) = Ok d /\ calls_map fc strhash d os = Ok (fst (f_run v bd [] cs), d') /\
    holds d' (VNode l') /\ d_type d' = TMap k v bd /\ contains l' (snd (f_run v bd [] cs)).
Proof.
  intros fc strhash k v bd os cs Hapi Hty Hok Hf Hn Ha. destruct (new_holds _ Hapi Hty) as (d & E & Ht & H & _).
  destruct (C15_history_partial fc strhash k v bd d [] [] os cs H Ht eq_refl) as (d' & l' & E' & H' & Ht' & _ & Hc'); try assumption.
  - split; [constructor|apply Permutation_refl].
  - exists d, d', l'. auto.
Qed.
(** The finite map: what is found is what was put last, other keys are not affected, each key counts once. *)
Theorem C15_finite_map : forall kv w kv' a,
  f_get kv (f_put kv w a) = Some w /\ (kv <> kv' -> f_get kv' (f_put kv w a) = f_get kv' a) /\
  List.length (f_put kv w a) = match f_get kv a with Some _ => List.length a | None => S (List.length a) end /\
  (NoDup (map fst a) -> NoDup (map fst (f_put kv w a))).
Proof.
  intros kv w kv' a. split; [|split; [|split]].
  - induction a as [|[x y] a IH]; cbn [f_put f_get]; [rewrite value_eqb_refl; reflexivity|]. destruct (value_eqb x kv) eqn:E; cbn [f_get]; rewrite E; [reflexivity|exact IH].
  - intros Hne. induction a as [|[x y] a IH]; cbn [f_put f_get].
    + destruct (value_eqb kv kv') eqn:E; [apply value_eqb_eq in E; contradiction|reflexivity].
    + destruct (value_eqb x kv) eqn:E; cbn [f_get]; destruct (value_eqb x kv') eqn:E'; try reflexivity; try exact IH.
      apply value_eqb_eq in E. apply value_eqb_eq in E'. congruence.
  - apply f_put_length.
  - apply f_put_nodup.
Qed.
(** A map value in order holds a finite map. *)
Lemma ordered_contains strhash k v bd l : ordered strhash k l = true -> wf_value (TMap k v bd) (VNode l) -> exists a, contains l a /\ map (fun p => entry (fst p) (snd p)) a = l.
Proof.
  intros Ho Hw. cbn [wf_value] in Hw. destruct Hw as [_ Hw].
  assert (Hl : exists a, entries_of a = l).
  { clear Ho. induction Hw as [|e l He _ (a & <-)]; [exists []; reflexivity|]. destruct e as [| |[|x [|y [|]]]|]; try contradiction He. exists ((x, y) :: a). reflexivity. }
  destruct Hl as (a & <-). exists a. split; [|reflexivity]. split; [|apply Permutation_refl].
  apply NoDup_nth_error. intros i j Hi E. rewrite map_length in Hi.
  destruct (nth_error a i) as [[x y]|] eqn:Ei; [|apply nth_error_None in Ei; lia]. rewrite !nth_error_map, Ei in E. destruct (nth_error a j) as [[x' y']|] eqn:Ej; [|discriminate E].
  cbn in E. injection E as ->. eapply (ordered_hash_inj strhash k _ Ho i j (entry x' y) (entry x' y')).
  - unfold entries_of. rewrite nth_error_map, Ei. reflexivity.
  - unfold entries_of. rewrite nth_error_map, Ej. reflexivity.
  - reflexivity.
Qed.
(** After any program with a meaning on values (ProgSpec), every map at any depth in any variable is ordered and holds a
    finite map with at most as many entries as its bound: the hypotheses of C15_history_partial are met by every map a
    program reaches. *)
Theorem C15_reachable : forall fc strhash prog out vs x t w k v bd l, execs fc strhash [] prog out vs -> nth_error vs x = Some (VLive t w) ->
  inside t w (TMap k v bd) (VNode l) ->
  ordered strhash k l = true /\ (exists a, contains l a) /\ (bd = 0 \/ N.of_nat (List.length l) <= bd).
Proof.
  intros fc strhash prog out vs x t w k v bd l H Hx Hi. pose proof (execs_wf fc strhash _ _ _ _ _ _ H Hx) as Hw. apply (inside_wf _ _ _ _ Hi) in Hw.
  assert (He : vs_E strhash []) by (intros y u z Hy; destruct y; discriminate Hy).
  pose proof (execs_E strhash fc _ _ _ _ H _ rep_empty He) as Hvs. destruct (Hvs _ _ _ Hx) as [_ HE]. pose proof (E_ordered _ _ _ HE _ _ _ _ Hi) as Ho.
  split; [exact Ho|]. destruct (ordered_contains _ _ _ _ _ Ho Hw) as (a & Ha & _). split; [exists a; exact Ha|]. apply Hw.
Qed.
(** The size of the finite map never exceeds the bound. *)
Theorem C15_bound : forall v bd cs a, bd <> 0 -> N.of_nat (List.length a) <= bd -> N.of_nat (List.length (snd (f_run v bd a cs))) <= bd.
Proof.
  intros v bd cs. induction cs as [|c cs IH]; intros a Hb Ha; [exact Ha|]. cbn [f_run snd]. apply IH; [exact Hb|].
  assert (Hr : forall x, room bd a = true -> N.of_nat (List.length (f_put (fst x) (snd x) a)) <= bd).
  { intros [x y] Hr. unfold room in Hr. apply N.eqb_neq in Hb. rewrite Hb in Hr. cbn in Hr. apply N.ltb_lt in Hr. rewrite f_put_length. destruct (f_get _ a); cbn; lia. }
  destruct c as [kv w|kv|kv|kv|kv y|kv w| ]; cbn [f_step snd]; try exact Ha.
  - destruct (f_get kv a) as [u|] eqn:E; [|destruct (room bd a) eqn:Er; [exact (Hr (kv, w) eq_refl)|exact Ha]]. cbn [snd]. rewrite f_put_length, E. exact Ha.
  - destruct (f_get kv a) as [u|] eqn:E; [exact Ha|]. destruct (room bd a) eqn:Er; [exact (Hr (kv, _) eq_refl)|exact Ha].
  - destruct (room bd a) eqn:Er; [|exact Ha]. destruct (f_get kv a) as [u|] eqn:E; [exact Ha|exact (Hr (kv, _) eq_refl)].
Qed.

(** ** C16 *)
Definition small_key (k : ty) : Prop := match rget k with TPrim p => prim_size p <= 8 | TEnum _ _ _ => True | _ => False end.
Lemma vhash_rget strhash k v : vhash strhash k v = vhash strhash (rget k) v.
Proof. induction k using ty_ind'; try reflexivity. exact IHk. Qed.
(** Two different keys of a primitive type of at most 8 bytes, an enumeration or an alias of these have different hashes. *)
Theorem C16_primitive_keys : forall strhash k x y, wf_ty k -> small_key k -> wf_value k x -> wf_value k y -> vhash strhash k x = vhash strhash k y -> x = y.
Proof.
  intros strhash k x y Hw Hs Hx Hy E. rewrite !(vhash_rget _ k) in E. apply (proj1 (wf_value_rget k _)) in Hx. apply (proj1 (wf_value_rget k _)) in Hy.
  assert (Hw' : wf_ty (rget k)) by (clear - Hw; induction k using ty_ind'; try exact Hw; apply IHk, Hw).
  unfold small_key in Hs. destruct (rget k) as [p|nm sz vals| | | | | | | |]; try (destruct Hs; fail); destruct x as [a| | |]; try contradiction Hx; destruct y as [b| | |]; try contradiction Hy;
    destruct Hx as [La Fa], Hy as [Lb Fb]; cbn [vhash] in E; f_equal; apply hash64_inj; try assumption.
  - lia.
  - destruct p; cbn in *; lia.
  - lia.
  - destruct Hw' as (Hsz & _). destruct Hsz as [->|[->| ->]]; lia.
Qed.
(** So a map with such keys behaves as a finite map without further hypotheses on the keys. *)
Theorem C16_history : forall fc strhash k v bd d l a os cs,
  holds d (VNode l) -> d_type d = TMap k v bd -> ordered strhash k l = true -> contains l a ->
  small_key k -> copy_ok v -> movable v -> Forall2 (map_means k v) os cs ->
  (bd = 0 -> allocatable (TPair k v) (2 * N.of_nat (List.length a + List.length cs)) = true) ->
  exists d' l', calls_map fc strhash d os = Ok (fst (f_run v bd a cs), d') /\
    holds d' (VNode l') /\ d_type d' = TMap k v bd /\ ordered strhash k l' = true /\ contains l' (snd (f_run v bd a cs)).
Proof.
  intros fc strhash k v bd d l a os cs H Ht Ho Hc Hs Cv Mv Hf Ha. pose proof (holds_good _ _ H) as Hg. rewrite Ht in Hg. destruct (good_map _ _ _ Hg) as [Gk Gv].
  assert (Hleaf : match rget k with TPrim _ | TEnum _ _ _ => True | _ => False end) by (unfold small_key in Hs; destruct (rget k); trivial).
  assert (Hok : entry_ok k v).
  { split; [|split; [exact Cv|split; [|split; [exact Mv|split]]]].
    - apply (proj2 (copy_ok_rget k)). destruct (rget k); try contradiction Hleaf; exact I.
    - clear - Hleaf. induction k using ty_ind'; try contradiction Hleaf; try exact I. apply IHk, Hleaf.
    - clear - Hleaf. induction k using ty_ind'; try contradiction Hleaf; try exact I. apply IHk, Hleaf.
    - enough (0 < msize k) by lia. destruct Gk as [Wk _]. clear - Hleaf Wk. induction k using ty_ind'; try contradiction Hleaf.
      + destruct p; cbn; lia.
      + cbn [msize]. destruct Wk as (Hsz & _). destruct Hsz as [->|[->| ->]]; lia.
      + cbn [msize]. apply IHk; assumption. }
  apply (C15_history_partial fc strhash k v bd d l a os cs); try assumption.
  assert (Hwf : forall x, In x (map fst a ++ flat_map call_key cs) -> wf_value k x).
  { intros x Hx. apply in_app_or in Hx as [Hx|Hx].
    - apply in_map_iff in Hx as ([x' y] & <- & Hin). pose proof (contains_entry _ _ _ _ Hc Hin) as He. destruct H as (_ & _ & _ & L & R). rewrite Ht in L, R.
      pose proof (live_wf_value _ Hg _ _ _ L R) as Hw. cbn [wf_value] in Hw. destruct Hw as [_ Hw]. rewrite Forall_forall in Hw. exact (proj1 (Hw _ He)).
    - apply in_flat_map in Hx as (c & Hin & Hx). apply In_nth_error in Hin as (i & Hi).
      assert (Hm : exists o, map_means k v o c).
      { clear - Hf Hi. revert i Hi. induction Hf as [|o c' os cs Hm _ IH]; intros [|i] Hi; try discriminate Hi; [injection Hi as <-; eauto|eapply IH, Hi]. }
      assert (Hkey : forall key kv, key_is k key kv -> wf_value k kv).
      { intros key kv (Hh & Htk & _). pose proof (holds_good _ _ Hh) as Hgk. destruct Hh as (_ & _ & _ & L & R). pose proof (live_wf_value _ Hgk _ _ _ L R) as Hwk. rewrite Htk in Hwk. apply (proj2 (wf_value_rget k _)), Hwk. }
      destruct Hm as (o & Hm). destruct o, c; cbn [map_means] in Hm; try contradiction Hm; cbn [call_key In] in Hx; try (destruct Hx; fail); destruct Hx as [<-|[]]; try (eapply Hkey; apply Hm).
      destruct Hm as (w & He & Hte & _). pose proof (holds_good _ _ He) as Hge. destruct He as (_ & _ & _ & L & R). pose proof (live_wf_value _ Hge _ _ _ L R) as Hwe. rewrite Hte in Hwe. apply Hwe. }
  intros x y Hx Hy E. apply (C16_primitive_keys strhash k); auto. apply Gk.
Qed.

(** ** C17 *)
(** Unbounded sequences all have hash 0: two different keys are one entry, and writing one overwrites the other. *)
Theorem C17_sequence_keys_refuted : forall fc strhash, exists out st,
  run fc strhash no_vars
    [New (TMap (TSeq (TPrim PU8) 0) (TPrim PU8) 0); New (TSeq (TPrim PU8) 0); New (TSeq (TPrim PU8) 0); Do 2 [] (OpPushVal (ScPrim PU8 [7]));
     Do 0 [PKey (1%nat, [])] (OpSet (ScPrim PU8 [1])); Do 0 [PKey (2%nat, [])] (OpSet (ScPrim PU8 [2]));
     Do 1 [] (OpEq (2%nat, [])); Do 0 [] OpSize; Do 0 [PAt (1%nat, [])] (OpGet (StPrim PU8))]
  = Ok (out ++ [OBool false; ONat 1; OVal (ScPrim PU8 [2])], st).
Proof. intros fc strhash. exists [ONone; ONone; ONone; ONone; ONone; ONone]. eexists. vm_compute. reflexivity. Qed.
(** Two different structures of two 64-bit integers, {0, 0} and {1, 15910196189579044985}, are one entry. *)
Definition exm_struct : ty := fst (add_member (fst (add_member (TStruct "S" 0 []) "x" (TPrim PU64))) "y" (TPrim PU64)).
Example exm_struct_built : api_type exm_struct.
Proof.
  apply at_struct. unfold exm_struct. eapply sb_add; [|apply at_prim|apply surjective_pairing]. eapply sb_add; [|apply at_prim|apply surjective_pairing]. apply sb_new.
Qed.
Theorem C17_struct_keys_refuted : forall fc strhash, exists out st,
  run fc strhash no_vars
    [New (TMap exm_struct (TPrim PU8) 0); New exm_struct; New exm_struct; Do 2 [PF (FName "x")] (OpSet (ScPrim PU64 [1; 0; 0; 0; 0; 0; 0; 0]));
     Do 2 [PF (FName "y")] (OpSet (ScPrim PU64 (le_encode 8 15910196189579044985)));
     Do 0 [PKey (1%nat, [])] (OpSet (ScPrim PU8 [1])); Do 0 [PKey (2%nat, [])] (OpSet (ScPrim PU8 [2]));
     Do 1 [] (OpEq (2%nat, [])); Do 0 [] OpSize; Do 0 [PAt (1%nat, [])] (OpGet (StPrim PU8))]
  = Ok (out ++ [OBool false; ONat 1; OVal (ScPrim PU8 [2])], st).
Proof. intros fc strhash. exists [ONone; ONone; ONone; ONone; ONone; ONone; ONone]. eexists. vm_compute. reflexivity. Qed.
(** Two unions with the same discriminator and different members are one entry. *)
Definition exm_union : ty := fst (add_case_member exd_u0 [1%Z] "x" (TPrim PU8) false).
Theorem C17_union_keys_refuted : forall fc strhash, exists out st,
  run fc strhash no_vars
    [New (TMap exm_union (TPrim PU8) 0); New exm_union; New exm_union; Do 1 [PF (FName "x")] (OpSet (ScPrim PU8 [3])); Do 2 [PF (FName "x")] (OpSet (ScPrim PU8 [4]));
     Do 0 [PKey (1%nat, [])] (OpSet (ScPrim PU8 [1])); Do 0 [PKey (2%nat, [])] (OpSet (ScPrim PU8 [2]));
     Do 1 [] (OpEq (2%nat, [])); Do 0 [] OpSize; Do 0 [PAt (1%nat, [])] (OpGet (StPrim PU8))]
  = Ok (out ++ [OBool false; ONat 1; OVal (ScPrim PU8 [2])], st).
Proof. intros fc strhash. exists [ONone; ONone; ONone; ONone; ONone; ONone; ONone]. eexists. vm_compute. reflexivity. Qed.

(** ** C18 *)
(** insert(pair(7, 5)): the entry of key 7 holds 0. *)
Theorem C18_value_refuted : forall fc strhash, exists out st,
  run fc strhash no_vars
    [New (TMap (TPrim PU8) (TPrim PU8) 0); New (TPair (TPrim PU8) (TPrim PU8)); Do 1 [PF (FIdx 0)] (OpSet (ScPrim PU8 [7])); Do 1 [PF (FIdx 1)] (OpSet (ScPrim PU8 [5]));
     Do 0 [] (OpInsert (1%nat, [])); New (TPrim PU8); Do 2 [] (OpSet (ScPrim PU8 [7])); Do 0 [PAt (2%nat, [])] (OpGet (StPrim PU8))]
  = Ok (out ++ [OBool true; ONone; ONone; OVal (ScPrim PU8 [0])], st).
Proof. intros fc strhash. exists [ONone; ONone; ONone; ONone]. eexists. vm_compute. reflexivity. Qed.
(** What insert does: when the bound is reached it returns false; when the key exists the call is refused; in both cases
    the map holds what it held.  Otherwise it returns true and the map holds the key with the default value of the value
    type, all other entries unchanged.  Missing for the full property: the value of the pair is not stored. *)
Theorem C18_insert_partial : forall fc strhash k v bd d l a e kv w,
  holds d (VNode l) -> d_type d = TMap k v bd -> ordered strhash k l = true -> contains l a -> entry_ok k v ->
  holds e (VNode [kv; w]) -> d_type e = TPair k v -> vselected k kv -> no_collision strhash k (kv :: map fst a) ->
  (bd = 0 -> allocatable (TPair k v) (2 * (N.of_nat (List.length a) + 1)) = true) ->
  exists d' l' a', holds d' (VNode l') /\ d_type d' = TMap k v bd /\ ordered strhash k l' = true /\ contains l' a' /\
    (forall kv', kv' <> kv -> f_get kv' a' = f_get kv' a) /\
    ((bd <> 0 /\ bd <= N.of_nat (List.length a) /\ call_map fc strhash d (CInsert e) = Ok (Done (OBool false), d') /\ f_get kv a' = f_get kv a) \/
     (f_get kv a <> None /\ call_map fc strhash d (CInsert e) = Ok (Refused, d') /\ f_get kv a' = f_get kv a) \/
     (f_get kv a = None /\ call_map fc strhash d (CInsert e) = Ok (Done (OBool true), d') /\ f_get kv a' = Some (default_value v))).
Proof.
  intros fc strhash k v bd d l a e kv w H Ht Ho Hc Hok He Hte Hsel Hn Ha.
  assert (Hs : shows strhash k v bd d a) by (exists l; auto).
  assert (Hm : map_means k v (CInsert e) (FInsert kv)) by (exists w; auto).
  destruct (map_call_sim fc strhash k v bd Hok (kv :: map fst a) d a _ _ Hs Hm Hn) as (d' & E & l' & H' & Ht' & Ho' & Hc').
  - cbn. tauto.
  - exact Ha.
  - exists d', l'. cbn [f_step] in E, Hc'. unfold room in *. destruct (bd =? 0) eqn:E0; cbn [orb] in *.
    + destruct (f_get kv a) as [u|] eqn:Eg; cbn [fst snd] in *; eexists; (split; [exact H'|split; [exact Ht'|split; [exact Ho'|split; [exact Hc'|split]]]]).
      * auto.
      * right. left. split; [discriminate|auto].
      * intros kv' Hne. apply C15_finite_map. congruence.
      * right. right. split; [reflexivity|]. split; [exact E|]. apply C15_finite_map. exact kv.
    + apply N.eqb_neq in E0. destruct (N.of_nat (List.length a) <? bd) eqn:El.
      * destruct (f_get kv a) as [u|] eqn:Eg; cbn [fst snd] in *; eexists; (split; [exact H'|split; [exact Ht'|split; [exact Ho'|split; [exact Hc'|split]]]]).
        -- auto.
        -- right. left. split; [discriminate|auto].
        -- intros kv' Hne. apply C15_finite_map. congruence.
        -- right. right. split; [reflexivity|]. split; [exact E|]. apply C15_finite_map. exact kv.
      * cbn [fst snd] in *. eexists. split; [exact H'|split; [exact Ht'|split; [exact Ho'|split; [exact Hc'|split]]]]; [auto|]. left. apply N.ltb_ge in El. auto.
Qed.

(** ** C19 *)
Lemma f_get_iff a x y : NoDup (map fst a) -> (f_get x a = Some y <-> In (x, y) a).
Proof.
  intros Hn. split; [apply f_get_in|]. induction a as [|[p q] a IH]; [intros []|]. inversion Hn as [|? ? Hp Hn']; subst. cbn [f_get]. intros [[= -> ->]|H].
  - rewrite value_eqb_refl. reflexivity.
  - destruct (value_eqb p x) eqn:E; [|apply IH; assumption]. apply value_eqb_eq in E. subst p. exfalso. apply Hp. apply in_map_iff. exists (x, y). auto.
Qed.
Lemma ordered_same strhash k l : forall l', ordered strhash k l = true -> ordered strhash k l' = true -> (forall e, In e l <-> In e l') -> l = l'.
Proof.
  induction l as [|e l IH]; intros [|e' l'] Ho Ho' H; try reflexivity.
  - exfalso. destruct (proj2 (H e')). left. reflexivity.
  - exfalso. destruct (proj1 (H e)). left. reflexivity.
  - apply ordered_cons in Ho as [Ho Hm]. apply ordered_cons in Ho' as [Ho' Hm'].
    assert (e = e').
    { destruct (proj1 (H e) (or_introl eq_refl)) as [Hx|Hx]; [congruence|]. destruct (proj2 (H e') (or_introl eq_refl)) as [Hy|Hy]; [congruence|].
      specialize (Hm _ Hy). specialize (Hm' _ Hx). lia. }
    subst e'. f_equal. apply IH; try assumption. intros x. split; intros Hx.
    + destruct (proj1 (H x) (or_intror Hx)) as [<-|Hy]; [|exact Hy]. specialize (Hm _ Hx). lia.
    + destruct (proj2 (H x) (or_intror Hx)) as [<-|Hy]; [|exact Hy]. specialize (Hm' _ Hx). lia.
Qed.
(** Two maps of the same type compare equal exactly when they hold the same key/value pairs.  By C15_history_partial and
    C15_reachable this covers the maps left by any two histories. *)
Theorem C19_equality : forall strhash k v bd d l a e l' a', nofloat (TMap k v bd) ->
  holds d (VNode l) -> d_type d = TMap k v bd -> ordered strhash k l = true -> contains l a ->
  holds e (VNode l') -> d_type e = TMap k v bd -> ordered strhash k l' = true -> contains l' a' ->
  exists r, data_eq d e = Ok r /\ (r = true <-> forall kv, f_get kv a = f_get kv a').
Proof.
  intros strhash k v bd d l a e l' a' Hnf H Ht Ho Hc H' Ht' Ho' Hc'. destruct (eq_holds d e _ _ H H') as (r & E & Hr); [congruence|]. exists r. split; [exact E|].
  rewrite Ht in Hr. rewrite (Hr Hnf). pose proof (proj1 Hc) as Hn. pose proof (proj1 Hc') as Hn'. split.
  - intros [= <-] kv.
    assert (Hin : forall x y, In (x, y) a <-> In (x, y) a').
    { intros x y. split; intros Hi.
      - apply (contains_entry _ _ _ _ Hc) in Hi. apply (contains_in _ _ _ Hc') in Hi as (x' & y' & [= -> ->] & Hi). exact Hi.
      - apply (contains_entry _ _ _ _ Hc') in Hi. apply (contains_in _ _ _ Hc) in Hi as (x' & y' & [= -> ->] & Hi). exact Hi. }
    destruct (f_get kv a) as [u|] eqn:Eg.
    + symmetry. apply f_get_iff; [exact Hn'|]. apply Hin, f_get_in, Eg.
    + destruct (f_get kv a') as [u|] eqn:Eg'; [|reflexivity]. apply f_get_in, Hin in Eg'. apply (f_get_iff a _ _ Hn) in Eg'. congruence.
  - intros Hg. f_equal. apply (ordered_same strhash k); try assumption.
    intros x. split; intros Hi.
    + apply (contains_in _ _ _ Hc) in Hi as (y & z & -> & Hi). apply (contains_entry _ _ _ _ Hc'). apply (f_get_iff a _ _ Hn) in Hi. apply (f_get_iff a' _ _ Hn'). rewrite <- Hg. exact Hi.
    + apply (contains_in _ _ _ Hc') in Hi as (y & z & -> & Hi). apply (contains_entry _ _ _ _ Hc). apply (f_get_iff a' _ _ Hn') in Hi. apply (f_get_iff a _ _ Hn). rewrite Hg. exact Hi.
Qed.
(** Two maps filled by two histories of calls from the constructor on. *)
Theorem C19_histories : forall fc strhash k v bd os cs os' cs',
  api_type (TMap k v bd) -> ok_ty (TMap k v bd) -> nofloat (TMap k v bd) -> entry_ok k v -> Forall2 (map_means k v) os cs -> Forall2 (map_means k v) os' cs' ->
  no_collision strhash k (flat_map call_key cs) -> no_collision strhash k (flat_map call_key cs') ->
  (bd = 0 -> allocatable (TPair k v) (2 * N.of_nat (List.length cs)) = true /\ allocatable (TPair k v) (2 * N.of_nat (List.length cs')) = true) ->
  (forall kv, f_get kv (snd (f_run v bd [] cs)) = f_get kv (snd (f_run v bd [] cs'))) ->
  exists d r d1 r' d2, new_data (TMap k v bd) = Ok d /\ calls_map fc strhash d os = Ok (r, d1) /\ calls_map fc strhash d os' = Ok (r', d2) /\ data_eq d1 d2 = Ok true.
Proof.
  intros fc strhash k v bd os cs os' cs' Hapi Hty Hnf Hok Hf Hf' Hn Hn' Ha Hg. destruct (new_holds _ Hapi Hty) as (d & E & Ht & H & _).
  assert (Hc0 : contains [] []) by (split; [constructor|apply Permutation_refl]).
  destruct (C15_history_partial fc strhash k v bd d [] [] os cs H Ht eq_refl Hc0 Hok Hf) as (d1 & l1 & E1 & H1 & Ht1 & Ho1 & Hc1); try assumption; [intros Hb; apply Ha, Hb|].
  destruct (C15_history_partial fc strhash k v bd d [] [] os' cs' H Ht eq_refl Hc0 Hok Hf') as (d2 & l2 & E2 & H2 & Ht2 & Ho2 & Hc2); try assumption; [intros Hb; apply Ha, Hb|].
  destruct (C19_equality strhash k v bd d1 l1 _ d2 l2 _ Hnf H1 Ht1 Ho1 Hc1 H2 Ht2 Ho2 Hc2) as (r & Er & Hr). rewrite (proj2 Hr Hg) in Er.
  exists d. do 4 eexists. eauto.
Qed.

(** ** The hypotheses are met *)
(** A bounded map from short strings to integers; the same entries put in different orders. *)
Definition exm_ty : ty := TMap (TStr SK8 4) (TPrim PU8) 3.
Definition exm_key (s : list N) : res data := do d <- new_data (TStr SK8 4); do r <- run_on fc0 sh0 d [] (writing (set_value fc0 (ScStr SK8 s))); Ok (snd r).
Lemma exm_key_is s : N.of_nat (List.length s) <= 4 -> exists key, exm_key s = Ok key /\ key_is (TStr SK8 4) key (VStr s).
Proof.
  intros Hs. destruct (new_holds (TStr SK8 4)) as (d & E & Ht & H & _); [apply at_str; reflexivity|exact I|].
  destruct (run_on_holds fc0 sh0 d (VStr []) [] [] (d_type d) (writing (set_value fc0 (ScStr SK8 s))) (fun _ => Some (ONone, VStr s)) ONone (VStr s) H I) as (d' & E' & Ht' & H').
  - rewrite Ht. reflexivity.
  - rewrite Ht. apply (realizes_does (TStr SK8 4) _ (fun _ => Some (VStr s))).
    assert (Hv : scalar_value (TStr SK8 4) (ScStr SK8 s) = VStr s).
    { unfold scalar_value. cbn [N.eqb]. rewrite firstn_all2 by lia. reflexivity. }
    rewrite <- Hv. apply set_realizes; [reflexivity|split; vm_compute; trivial|reflexivity].
  - reflexivity.
  - exists d'. unfold exm_key. rewrite E. cbn [bind]. rewrite E'. split; [reflexivity|]. split; [exact H'|]. split; [rewrite Ht', Ht; reflexivity|exact I].
Qed.
Definition exm_calls : list fmap_call :=
  [FPut (VStr [1]) (VBytes [5]); FHas (VStr [2]); FPut (VStr [2; 1]) (VBytes [6]); FPut (VStr [1]) (VBytes [7]); FTouch (VStr [3]); FPut (VStr [4]) (VBytes [9]); FGet (VStr [1]) (StPrim PU8); FSize].
Definition exm_calls' : list fmap_call :=
  [FTouch (VStr [3]); FPut (VStr [2; 1]) (VBytes [6]); FPut (VStr [1]) (VBytes [7])].
Example C15_nontrivial : api_type exm_ty /\ ok_ty exm_ty /\ nofloat exm_ty /\ entry_ok (TStr SK8 4) (TPrim PU8) /\
  (exists os, Forall2 (map_means (TStr SK8 4) (TPrim PU8)) os exm_calls) /\ (exists os, Forall2 (map_means (TStr SK8 4) (TPrim PU8)) os exm_calls') /\
  no_collision sh0 (TStr SK8 4) (flat_map call_key exm_calls) /\ no_collision sh0 (TStr SK8 4) (flat_map call_key exm_calls') /\
  fst (f_run (TPrim PU8) 3 [] exm_calls) = [Done ONone; Done (OBool false); Done ONone; Done ONone; Done ONone; Refused; Done (OVal (ScPrim PU8 [7])); Done (ONat 3)] /\
  (forall kv, f_get kv (snd (f_run (TPrim PU8) 3 [] exm_calls)) = f_get kv (snd (f_run (TPrim PU8) 3 [] exm_calls'))).
Proof.
  destruct (exm_key_is [1]) as (k1 & _ & K1); [cbn; lia|]. destruct (exm_key_is [2]) as (k2 & _ & K2); [cbn; lia|]. destruct (exm_key_is [2; 1]) as (k21 & _ & K21); [cbn; lia|].
  destruct (exm_key_is [3]) as (k3 & _ & K3); [cbn; lia|]. destruct (exm_key_is [4]) as (k4 & _ & K4); [cbn; lia|].
  assert (Hput : forall key kv x, x < 256 -> key_is (TStr SK8 4) key kv -> map_means (TStr SK8 4) (TPrim PU8) (CPutVal key (ScPrim PU8 [x])) (FPut kv (VBytes [x]))).
  { intros key kv x Hx Hk. split; [exact Hk|]. split; [|reflexivity]. cbn. auto. }
  split; [apply at_map; [apply at_str|apply at_prim|]; reflexivity|]. split; [vm_compute; repeat split; congruence|]. split; [vm_compute; tauto|].
  split; [vm_compute; tauto|]. split; [|split; [|split; [|split; [|split]]]].
  - exists [CPutVal k1 (ScPrim PU8 [5]); CHas k2; CPutVal k21 (ScPrim PU8 [6]); CPutVal k1 (ScPrim PU8 [7]); CTouch k3; CPutVal k4 (ScPrim PU8 [9]); CGet k1 (StPrim PU8); CSize].
    repeat (apply Forall2_cons); try apply Forall2_nil; try (apply Hput; [lia|assumption]); try assumption; [split; [exact K1|reflexivity]|exact I].
  - exists [CTouch k3; CPutVal k21 (ScPrim PU8 [6]); CPutVal k1 (ScPrim PU8 [7])].
    repeat (apply Forall2_cons); try apply Forall2_nil; try (apply Hput; [lia|assumption]); try assumption.
  - intros x y Hx Hy E. cbn in Hx, Hy. repeat (destruct Hx as [<-|Hx]); try contradiction Hx; repeat (destruct Hy as [<-|Hy]); try contradiction Hy; try reflexivity; vm_compute in E; discriminate E.
  - intros x y Hx Hy E. cbn in Hx, Hy. repeat (destruct Hx as [<-|Hx]); try contradiction Hx; repeat (destruct Hy as [<-|Hy]); try contradiction Hy; try reflexivity; vm_compute in E; discriminate E.
  - vm_compute. reflexivity.
  - intros kv. change (snd (f_run (TPrim PU8) 3 [] exm_calls)) with [(VStr [1], VBytes [7]); (VStr [2; 1], VBytes [6]); (VStr [3], VBytes [0])].
    change (snd (f_run (TPrim PU8) 3 [] exm_calls')) with [(VStr [3], VBytes [0]); (VStr [2; 1], VBytes [6]); (VStr [1], VBytes [7])]. cbn [f_get].
    destruct (value_eqb (VStr [1]) kv) eqn:E1, (value_eqb (VStr [2; 1]) kv) eqn:E2, (value_eqb (VStr [3]) kv) eqn:E3; try reflexivity;
      repeat match goal with E : value_eqb _ kv = true |- _ => apply value_eqb_eq in E end; congruence.
Qed.
(** A reachable map. *)
Definition exm_prog : list stmt :=
  [New exm_ty; New (TStr SK8 4); Do 1 [] (OpSet (ScStr SK8 [5])); Do 0 [PKey (1%nat, [])] (OpSet (ScPrim PU8 [1]));
   Do 1 [] (OpSet (ScStr SK8 [3])); Do 0 [PKey (1%nat, [])] (OpSet (ScPrim PU8 [2]))].
Example C15_reachable_nontrivial : exists vs l, execs fc0 sh0 [] exm_prog l vs /\
  nth_error vs 0 = Some (VLive exm_ty (VNode [VNode [VStr [3]; VBytes [2]]; VNode [VStr [5]; VBytes [1]]])).
Proof.
  eexists. eexists. split; [unfold exm_prog; repeat go_exec|].
  all: try vc.
  all: try (vm_compute; repeat split; congruence).
  all: try (vm_compute; repeat constructor).
Qed.
Example C16_nontrivial : small_key (TAlias "A" (TPrim PI64)) /\ small_key ex_enum /\ wf_value (TPrim PI64) (VBytes [1; 0; 0; 0; 0; 0; 0; 0]) /\
  exists d, new_data (TMap (TAlias "A" (TPrim PI64)) (TPrim PU8) 0) = Ok d /\ holds d (VNode []).
Proof.
  split; [vm_compute; discriminate|]. split; [exact I|]. split; [split; [reflexivity|repeat constructor]|].
  destruct (new_holds (TMap (TAlias "A" (TPrim PI64)) (TPrim PU8) 0)) as (d & E & _ & H & _); [apply at_map; [apply at_alias, at_prim|apply at_prim|reflexivity]|vm_compute; repeat split; congruence|].
  exists d. auto.
Qed.

Print Assumptions C15_history_partial.
Print Assumptions C15_new_partial.
Print Assumptions C15_finite_map.
Print Assumptions C15_reachable.
Print Assumptions C15_bound.
Print Assumptions C16_primitive_keys.
Print Assumptions C16_history.
Print Assumptions C17_sequence_keys_refuted.
Print Assumptions C17_struct_keys_refuted.
Print Assumptions C17_union_keys_refuted.
Print Assumptions C18_value_refuted.
Print Assumptions C18_insert_partial.
Print Assumptions C19_equality.
Print Assumptions C19_histories.
