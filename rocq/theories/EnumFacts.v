(** Proofs about histories of add_enumerator calls. *)
From Verif Require Import Base Types TypeBuild TypeSpec TyInd Layout.
From Coq Require Import Sorting.Sorted.

(** values_ as a std::map: keys strictly increasing. *)
Fixpoint sorted_names (l : list (string * N)) : Prop :=
  match l with
  | [] => True
  | (k, _) :: r => Forall (fun p => String.compare k (fst p) = Lt) r /\ sorted_names r
  end.

Lemma scompare_refl s : String.compare s s = Eq.
Proof. induction s as [|c s IH]; cbn; [reflexivity|].
  unfold Ascii.compare. rewrite N.compare_refl. exact IH. Qed.
Lemma scompare_eq a b : String.compare a b = Eq -> a = b.
Proof. apply String.compare_eq_iff. Qed.
Lemma scompare_trans a b c : String.compare a b = Lt -> String.compare b c = Lt -> String.compare a c = Lt.
Proof.
  revert b c. induction a as [|x a IH]; intros [|y b] [|z c]; cbn; try congruence; try reflexivity.
  unfold Ascii.compare.
  destruct (N.compare_spec (N_of_ascii x) (N_of_ascii y)) as [E|E|E];
  destruct (N.compare_spec (N_of_ascii y) (N_of_ascii z)) as [E'|E'|E']; intros H1 H2; try discriminate.
  - rewrite E, E', N.compare_refl. eapply IH; eassumption.
  - rewrite E. apply N.compare_lt_iff in E'. rewrite E'. reflexivity.
  - rewrite <- E'. apply N.compare_lt_iff in E. rewrite E. reflexivity.
  - assert (E2 : (N_of_ascii x < N_of_ascii z)) by lia. apply N.compare_lt_iff in E2. rewrite E2. reflexivity.
Qed.
Lemma scompare_gt_lt a b : String.compare a b = Gt -> String.compare b a = Lt.
Proof. intros H. rewrite String.compare_antisym, H. reflexivity. Qed.

Lemma emplace_sorted nm v l : sorted_names l -> assoc nm l = None -> sorted_names (emplace_name nm v l).
Proof.
  induction l as [|[k w] r IH]; cbn [sorted_names assoc emplace_name]; [auto|].
  intros [Hf Hs]. destruct (String.eqb nm k) eqn:E; [discriminate|]. intros Ha.
  destruct (String.compare nm k) eqn:C.
  - apply scompare_eq in C. subst. rewrite String.eqb_refl in E. discriminate.
  - cbn [sorted_names]. repeat split; [|exact Hf|exact Hs]. constructor; [exact C|].
    eapply Forall_impl; [|exact Hf]. cbn. intros p Hp. eapply scompare_trans; eassumption.
  - cbn [sorted_names]. split; [|apply IH; assumption].
    apply Forall_forall. intros p Hp. apply emplace_name_in in Hp as [->|Hp]; [apply scompare_gt_lt, C|].
    rewrite Forall_forall in Hf. apply Hf, Hp.
Qed.
Lemma assoc_emplace n nm (v : N) l : assoc nm l = None ->
  assoc n (emplace_name nm v l) = if String.eqb n nm then Some v else assoc n l.
Proof.
  induction l as [|[k w] r IH]; cbn [assoc emplace_name]; [reflexivity|].
  destruct (String.eqb nm k) eqn:E; [discriminate|]. intros Ha.
  destruct (String.compare nm k) eqn:C; cbn [assoc].
  - apply scompare_eq in C. subst. rewrite String.eqb_refl in E. discriminate.
  - reflexivity.
  - rewrite (IH Ha). destruct (String.eqb n k) eqn:E2; [|reflexivity].
    apply String.eqb_eq in E2. subst k. rewrite String.eqb_sym, E. reflexivity.
Qed.

Lemma add_enumerator_rejected e nm v e' er : add_enumerator e nm v = (e', Fail er) -> e' = e.
Proof.
  unfold add_enumerator. destruct (v <? es_next e); [congruence|].
  destruct (has_enumerator nm (es_vals e)); congruence.
Qed.
Lemma add_enumerator_ok e nm v e' : add_enumerator e nm v = (e', Ok tt) ->
  es_next e <= v /\ assoc nm (es_vals e) = None /\ es_size e' = es_size e /\
  es_vals e' = emplace_name nm v (es_vals e) /\ es_next e' = (v + 1) mod 2 ^ (8 * es_size e).
Proof.
  unfold add_enumerator, has_enumerator. destruct (v <? es_next e) eqn:E; [discriminate|].
  apply N.ltb_ge in E. destruct (assoc nm (es_vals e)) eqn:Ea; [discriminate|].
  intros [= <-]. cbn. auto.
Qed.

(** Names are distinct and value(name) returns the accepted value, without any side condition. *)
Lemma run_enum_assoc calls e e' acc : run_enum e calls = (e', acc) ->
  NoDup (map fst acc) /\ (forall n, In n (map fst acc) -> assoc n (es_vals e) = None) /\
  (forall n, assoc n (es_vals e') =
     match assoc n acc with Some v => Some v | None => assoc n (es_vals e) end) /\
  (sorted_names (es_vals e) -> sorted_names (es_vals e')).
Proof.
  revert e e' acc. induction calls as [|[nm v] r IH]; intros e e' acc; cbn [run_enum].
  - intros [= <- <-]. repeat split; [constructor|intros n []|auto].
  - destruct (add_enumerator e nm v) as [e1 [[]|er]] eqn:Ea.
    + destruct (run_enum e1 r) as [e2 acc2] eqn:Er. intros [= <- <-].
      apply IH in Er as (I1 & I2 & I3 & I4). apply add_enumerator_ok in Ea as (A1 & A2 & A3 & A4 & A5).
      rewrite A4 in *. repeat split.
      * cbn. constructor; [|exact I1]. intros Hi. apply I2 in Hi. rewrite assoc_emplace, String.eqb_refl in Hi by exact A2. discriminate.
      * cbn. intros n [<-|Hi]; [exact A2|]. apply I2 in Hi. rewrite assoc_emplace in Hi by exact A2.
        destruct (String.eqb n nm); [discriminate|exact Hi].
      * intros n. rewrite I3. cbn [assoc]. rewrite assoc_emplace by exact A2.
        destruct (String.eqb n nm) eqn:E; [|reflexivity]. apply String.eqb_eq in E. subst n.
        destruct (assoc nm acc2) eqn:E2; [|reflexivity]. exfalso.
        assert (Hi : In nm (map fst acc2)).
        { clear -E2. induction acc2 as [|[k w] q IHq]; cbn in *; [discriminate|].
          destruct (String.eqb nm k) eqn:E; [left; symmetry; apply String.eqb_eq, E|right; apply IHq, E2]. }
        apply I2 in Hi. rewrite assoc_emplace, String.eqb_refl in Hi by exact A2. discriminate.
      * intros Hs. apply I4, emplace_sorted; assumption.
    + apply add_enumerator_rejected in Ea. subst e1. apply IH.
Qed.

(** Without reaching the maximum of T, accepted values are strictly increasing. *)
Lemma run_enum_increasing calls e e' acc : run_enum e calls = (e', acc) ->
  Forall (fun c => snd c + 1 < 2 ^ (8 * es_size e)) calls ->
  Forall (fun c => es_next e <= snd c) acc /\ StronglySorted (fun a b => snd a < snd b) acc.
Proof.
  revert e e' acc. induction calls as [|[nm v] r IH]; intros e e' acc; cbn [run_enum].
  - intros [= <- <-] _. split; constructor.
  - destruct (add_enumerator e nm v) as [e1 [[]|er]] eqn:Ea.
    + destruct (run_enum e1 r) as [e2 acc2] eqn:Er. intros [= <- <-] HF.
      apply Forall_cons_iff in HF as [Hv HF]. cbn in Hv.
      apply add_enumerator_ok in Ea as (A1 & A2 & A3 & A4 & A5).
      rewrite N.mod_small in A5 by exact Hv.
      apply IH in Er as [I1 I2]; [|rewrite A3; exact HF]. rewrite A5 in I1. split.
      * constructor; [exact A1|]. eapply Forall_impl; [|exact I1]. cbn. intros; lia.
      * constructor; [exact I2|]. eapply Forall_impl; [|exact I1]. cbn. intros; lia.
    + apply add_enumerator_rejected in Ea. subst e1. intros Hr HF. apply Forall_cons_iff in HF as [_ HF].
      eapply IH; eassumption.
Qed.

Lemma assoc_in {A} n (v : A) l : assoc n l = Some v -> In (n, v) l.
Proof.
  induction l as [|[k w] r IH]; cbn; [discriminate|].
  destruct (String.eqb n k) eqn:E; [apply String.eqb_eq in E; intros [= ->]; subst; auto|auto].
Qed.
Lemma in_assoc {A} n (v : A) l : NoDup (map fst l) -> In (n, v) l -> assoc n l = Some v.
Proof.
  induction l as [|[k w] r IH]; cbn; [tauto|]. intros Hnd [H|H].
  - injection H as -> ->. rewrite String.eqb_refl. reflexivity.
  - inversion Hnd; subst. destruct (String.eqb n k) eqn:E; [|apply IH; assumption].
    apply String.eqb_eq in E. subst. exfalso. apply H2. apply (in_map fst) in H. exact H.
Qed.
Lemma sorted_names_nodup l : sorted_names l -> NoDup (map fst l).
Proof.
  induction l as [|[k w] r IH]; cbn; [constructor|]. intros [Hf Hs]. constructor; [|apply IH, Hs].
  intros Hi. apply in_map_iff in Hi as ([k' w'] & E & Hi). cbn in E. subst.
  rewrite Forall_forall in Hf. specialize (Hf _ Hi). cbn in Hf. rewrite scompare_refl in Hf. discriminate.
Qed.
Lemma enum_enumerator_spec vals v : 
  match find (fun p => snd p =? v) vals with
  | Some p => enum_enumerator vals v = fst p
  | None => enum_enumerator vals v = ""%string
  end.
Proof. induction vals as [|[n w] r IH]; cbn; [reflexivity|]. destruct (w =? v); [reflexivity|exact IH]. Qed.
Lemma is_allowed_value_spec vals v : is_allowed_value vals v = true <-> In v (map snd vals).
Proof.
  induction vals as [|[n w] r IH]; cbn; [intuition discriminate|].
  destruct (w =? v) eqn:E; [apply N.eqb_eq in E; intuition auto|].
  apply N.eqb_neq in E. rewrite IH. intuition congruence.
Qed.

Lemma strongly_sorted_inj (acc : list (string * N)) n m v :
  StronglySorted (fun a b => snd a < snd b) acc -> In (n, v) acc -> In (m, v) acc -> n = m.
Proof.
  induction acc as [|p r IH]; cbn; [tauto|]. intros Hs. inversion Hs as [|? ? Hs' Hf]; subst.
  rewrite Forall_forall in Hf. intros [H1|H1] [H2|H2].
  - congruence.
  - subst p. specialize (Hf _ H2). cbn in Hf. lia.
  - subst p. specialize (Hf _ H1). cbn in Hf. lia.
  - apply IH; assumption.
Qed.

Lemma run_enum_inverse calls nm sz e' acc :
  run_enum (enum_new nm sz) calls = (e', acc) ->
  Forall (fun c => snd c + 1 < 2 ^ (8 * sz)) calls ->
  forall n v, In (n, v) acc ->
    enum_value (es_vals e') n = Ok v /\ enum_enumerator (es_vals e') v = n /\
    is_allowed_value (es_vals e') v = true.
Proof.
  intros Hr HF n v Hi. pose proof (run_enum_increasing _ _ _ _ Hr HF) as [_ Hs].
  pose proof (run_enum_assoc _ _ _ _ Hr) as (Hnd & _ & Has & Hso).
  specialize (Hso I). cbn [es_vals enum_new] in Has.
  assert (Hin : forall a b, In (a, b) (es_vals e') <-> In (a, b) acc).
  { intros a b. split; intros H.
    - apply in_assoc in H; [|apply sorted_names_nodup, Hso]. rewrite Has in H. cbn in H.
      destruct (assoc a acc) eqn:E; [|discriminate]. injection H as ->. apply assoc_in, E.
    - apply assoc_in. rewrite Has. rewrite (in_assoc _ _ _ Hnd H). reflexivity. }
  repeat split.
  - unfold enum_value. rewrite Has, (in_assoc _ _ _ Hnd Hi). reflexivity.
  - pose proof (enum_enumerator_spec (es_vals e') v) as Hspec.
    destruct (find _ _) as [[m w]|] eqn:Ef.
    + rewrite Hspec. apply find_some in Ef as [Hm Hw]. cbn in Hw. apply N.eqb_eq in Hw. subst w. cbn.
      apply Hin in Hm. eapply strongly_sorted_inj; eassumption.
    + exfalso. apply Hin in Hi. apply (find_none _ _ Ef) in Hi. cbn in Hi. rewrite N.eqb_refl in Hi. discriminate.
  - apply is_allowed_value_spec. apply Hin in Hi. apply (in_map snd) in Hi. exact Hi.
Qed.
