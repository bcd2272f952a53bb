(** Basic facts about blocks: writes, reads, locality of [live] and [read], the slot-loop lemma. *)
From Verif Require Import Base Types TypeBuild TypeSpec TyInd CompatFacts2 Layout Mem MemSpec MemEqns.

Definition same (b : block) (off : N) (b' : block) (off' n : N) : Prop :=
  forall i, i < n -> at_ b' (off' + i) = at_ b (off + i).

Lemma same_refl b off n : same b off b off n.
Proof. intros i _. reflexivity. Qed.
Lemma same_sym b off b' off' n : same b off b' off' n -> same b' off' b off n.
Proof. intros H i Hi. symmetry. apply H, Hi. Qed.
Lemma same_sub b off b' off' n o k :
  same b off b' off' n -> o + k <= n -> same b (off + o) b' (off' + o) k.
Proof.
  intros H Hle i Hi. specialize (H (o + i)). rewrite !N.add_assoc in H. apply H. lia.
Qed.
Lemma agree_out_same b b' lo n off k :
  agree_out b b' lo n -> off + k <= lo \/ lo + n <= off -> same b off b' off k.
Proof. intros H Hd i Hi. apply H. lia. Qed.
Lemma agree_out_refl b lo n : agree_out b b lo n.
Proof. intros j _. reflexivity. Qed.
Lemma agree_out_trans b b1 b2 lo n lo1 n1 lo2 n2 :
  agree_out b b1 lo1 n1 -> agree_out b1 b2 lo2 n2 ->
  lo <= lo1 -> lo1 + n1 <= lo + n -> lo <= lo2 -> lo2 + n2 <= lo + n -> agree_out b b2 lo n.
Proof. intros H1 H2 ? ? ? ? j Hj. rewrite H2, H1; [reflexivity| |]; lia. Qed.
Lemma agree_out_weaken b b' lo n lo' n' :
  agree_out b b' lo' n' -> lo <= lo' -> lo' + n' <= lo + n -> agree_out b b' lo n.
Proof. intros H1 ? ? j Hj. rewrite H1; [reflexivity|]. lia. Qed.
Lemma alloc_same b off b' off' n : same b off b' off' n -> alloc b off n -> alloc b' off' n.
Proof. intros H Ha i Hi. rewrite H by exact Hi. apply Ha, Hi. Qed.
Lemma alloc_sub b off n o k : alloc b off n -> o + k <= n -> alloc b (off + o) k.
Proof. intros H Hle i Hi. rewrite <- N.add_assoc. apply H. lia. Qed.
Lemma bytes_at_alloc b off n : bytes_at b off n -> alloc b off n.
Proof. intros H i Hi. destruct (H i Hi) as (x & -> & _). discriminate. Qed.
Lemma bytes_at_same b off b' off' n : same b off b' off' n -> bytes_at b off n -> bytes_at b' off' n.
Proof. intros H Ha i Hi. rewrite H by exact Hi. apply Ha, Hi. Qed.

Lemma allr_true n lo p : allr n lo p = true <-> (forall i, i < N.of_nat n -> p (lo + i) = true).
Proof.
  revert lo. induction n as [|n IH]; intros lo; cbn [allr].
  - split; [lia|reflexivity].
  - rewrite andb_true_iff, IH. split.
    + intros [H1 H2] i Hi. destruct (N.eq_dec i 0) as [->|Hn]; [rewrite N.add_0_r; exact H1|].
      specialize (H2 (i - 1)). replace (lo + 1 + (i - 1)) with (lo + i) in H2 by lia. apply H2. lia.
    + intros H. split.
      * specialize (H 0). rewrite N.add_0_r in H. apply H. lia.
      * intros i Hi. replace (lo + 1 + i) with (lo + (1 + i)) by lia. apply H. lia.
Qed.
Lemma intact_spec b off sz : intact b off sz = true <-> (forall i, 1 <= i -> i < sz -> at_ b (off + i) = CTail).
Proof.
  unfold intact. rewrite allr_true. rewrite N2Nat.id. split.
  - intros H i H1 H2. specialize (H (i - 1)). replace (off + 1 + (i - 1)) with (off + i) in H by lia.
    destruct (at_ b (off + i)); cbn in H; try reflexivity; specialize (H ltac:(lia)); discriminate.
  - intros H i Hi. replace (off + 1 + i) with (off + (1 + i)) by lia. rewrite H by lia. reflexivity.
Qed.
Lemma intact_same b off b' off' sz : same b off b' off' sz -> intact b' off' sz = intact b off sz.
Proof.
  intros H. destruct (intact b off sz) eqn:E.
  - rewrite intact_spec in *. intros i H1 H2. rewrite H by exact H2. apply E; assumption.
  - destruct (intact b' off' sz) eqn:E'; [|reflexivity].
    rewrite intact_spec in E'. assert (intact b off sz = true); [|congruence].
    apply intact_spec. intros i H1 H2. rewrite <- H by exact H2. apply E'; assumption.
Qed.
Lemma obj_at_alloc b off sz c : obj_at b off sz c -> c <> CNone -> alloc b off sz.
Proof.
  intros [H1 H2] Hc i Hi. destruct (N.eq_dec i 0) as [->|Hn].
  - rewrite N.add_0_r, H1. exact Hc.
  - rewrite intact_spec in H2. rewrite H2 by lia. discriminate.
Qed.
Lemma obj_at_same b off b' off' sz c :
  0 < sz -> same b off b' off' sz -> obj_at b off sz c -> obj_at b' off' sz c.
Proof.
  intros Hz H [H1 H2]. split.
  - specialize (H 0). rewrite !N.add_0_r in H. rewrite H by exact Hz. exact H1.
  - rewrite (intact_same _ _ _ _ _ H). exact H2.
Qed.

Lemma at_upd_in b lo n g j : lo <= j -> j < lo + n -> at_ (upd b lo n g) j = g (j - lo).
Proof.
  intros H1 H2. cbn. apply N.leb_le in H1. apply N.ltb_lt in H2. rewrite H1, H2. reflexivity.
Qed.
Lemma at_upd_out b lo n g : agree_out b (upd b lo n g) lo n.
Proof.
  intros j Hj. cbn. destruct (lo <=? j) eqn:E1; cbn; [|reflexivity].
  destruct (j <? lo + n) eqn:E2; [|reflexivity].
  apply N.leb_le in E1. apply N.ltb_lt in E2. lia.
Qed.
Lemma write_cells_ok b lo n g : alloc b lo n -> write_cells b lo n g = Ok (upd b lo n g).
Proof.
  intros H. unfold write_cells.
  replace (allr _ _ _) with true; [reflexivity|].
  symmetry. apply allr_true. rewrite N2Nat.id. intros i Hi. specialize (H i Hi).
  destruct (at_ b (lo + i)); try reflexivity. congruence.
Qed.
Lemma write_cells_inv b lo n g b' : write_cells b lo n g = Ok b' -> alloc b lo n /\ b' = upd b lo n g.
Proof.
  unfold write_cells. destruct (allr _ _ _) eqn:E; [|discriminate].
  intros [= <-]. split; [|reflexivity]. rewrite allr_true, N2Nat.id in E.
  intros i Hi Hc. specialize (E i Hi). rewrite Hc in E. discriminate.
Qed.
Lemma write_cells_spec b lo n g : alloc b lo n ->
  exists b', write_cells b lo n g = Ok b' /\ agree_out b b' lo n /\ (forall i, i < n -> at_ b' (lo + i) = g i).
Proof.
  intros H. exists (upd b lo n g). split; [apply write_cells_ok, H|]. split; [apply at_upd_out|].
  intros i Hi. rewrite at_upd_in by lia. f_equal. lia.
Qed.
Lemma write_bytes_spec b off bs : alloc b off (N.of_nat (List.length bs)) ->
  exists b', write_bytes b off bs = Ok b' /\ agree_out b b' off (N.of_nat (List.length bs)) /\
    (forall i, i < N.of_nat (List.length bs) -> at_ b' (off + i) = CByte (nth (N.to_nat i) bs 0)).
Proof. intros H. apply write_cells_spec, H. Qed.
Lemma put_obj_spec b off sz c : 0 < sz -> alloc b off sz ->
  exists b', put_obj b off sz c = Ok b' /\ agree_out b b' off sz /\ obj_at b' off sz c.
Proof.
  intros Hz H. destruct (write_cells_spec b off sz (fun i => if i =? 0 then c else CTail) H) as (b' & H1 & H2 & H3).
  exists b'. split; [exact H1|]. split; [exact H2|]. split.
  - specialize (H3 0 Hz). rewrite N.add_0_r in H3. exact H3.
  - apply intact_spec. intros i Hi1 Hi2. rewrite H3 by exact Hi2.
    replace (i =? 0) with false; [reflexivity|]. symmetry. apply N.eqb_neq. lia.
Qed.

Lemma read_bytes_n_spec n b off bs : read_bytes_n b off n = Ok bs <->
  List.length bs = n /\ forall i, i < N.of_nat n -> at_ b (off + i) = CByte (nth (N.to_nat i) bs 0).
Proof.
  revert off bs. induction n as [|n IH]; intros off bs; cbn [read_bytes_n].
  - split; [intros [= <-]; split; [reflexivity|lia]|]. intros [H _]. destruct bs; [reflexivity|discriminate].
  - split.
    + destruct (at_ b off) eqn:E; try discriminate. intros H.
      apply bind_ok in H as (r & H1 & H2). apply IH in H1 as [H3 H4]. inversion H2; subst bs.
      split; [cbn; congruence|]. intros i Hi. destruct (N.eq_dec i 0) as [->|Hn].
      * rewrite N.add_0_r. exact E.
      * specialize (H4 (i - 1)). replace (off + 1 + (i - 1)) with (off + i) in H4 by lia.
        rewrite H4 by lia. replace (N.to_nat i) with (S (N.to_nat (i - 1))) by lia. reflexivity.
    + intros [H1 H2]. destruct bs as [|x r]; [discriminate|]. injection H1 as H1.
      pose proof (H2 0 ltac:(lia)) as H0. rewrite N.add_0_r in H0. cbn in H0. rewrite H0.
      replace (read_bytes_n b (off + 1) n) with (Ok r); [reflexivity|].
      symmetry. apply IH. split; [exact H1|]. intros i Hi.
      replace (off + 1 + i) with (off + (1 + i)) by lia. rewrite H2 by lia.
      replace (N.to_nat (1 + i)) with (S (N.to_nat i)) by lia. reflexivity.
Qed.
Lemma read_bytes_spec b off n bs : read_bytes b off n = Ok bs <->
  N.of_nat (List.length bs) = n /\ forall i, i < n -> at_ b (off + i) = CByte (nth (N.to_nat i) bs 0).
Proof.
  unfold read_bytes. rewrite read_bytes_n_spec, N2Nat.id. split; intros [H1 H2]; (split; [lia|exact H2]).
Qed.
Lemma read_bytes_same b off b' off' n : same b off b' off' n -> read_bytes b' off' n = read_bytes b off n.
Proof.
  intros H. unfold read_bytes. revert H.
  assert (G : forall k off off', (forall i, i < N.of_nat k -> at_ b' (off' + i) = at_ b (off + i)) ->
            read_bytes_n b' off' k = read_bytes_n b off k).
  { clear. induction k as [|k IH]; intros off off' H; [reflexivity|]. cbn [read_bytes_n].
    pose proof (H 0 ltac:(lia)) as H0. rewrite !N.add_0_r in H0. rewrite H0.
    destruct (at_ b off); try reflexivity. rewrite (IH (off + 1) (off' + 1)); [reflexivity|].
    intros i Hi. rewrite <- !N.add_assoc. apply H. lia. }
  intros H. apply G. rewrite N2Nat.id. exact H.
Qed.
Lemma bytes_at_read b off n : bytes_at b off n ->
  exists bs, read_bytes b off n = Ok bs /\ N.of_nat (List.length bs) = n /\ Forall (fun x => x < 256) bs.
Proof.
  unfold read_bytes. intros H.
  assert (G : forall k off, (forall i, i < N.of_nat k -> exists x, at_ b (off + i) = CByte x /\ x < 256) ->
     exists bs, read_bytes_n b off k = Ok bs /\ List.length bs = k /\ Forall (fun x => x < 256) bs).
  { clear. induction k as [|k IH]; intros off H.
    - exists []. cbn. auto.
    - cbn [read_bytes_n]. destruct (H 0 ltac:(lia)) as (x & Hx & Hlt). rewrite N.add_0_r in Hx. rewrite Hx.
      destruct (IH (off + 1)) as (bs & H1 & H2 & H3).
      { intros i Hi. replace (off + 1 + i) with (off + (1 + i)) by lia. apply H. lia. }
      exists (x :: bs). rewrite H1. cbn. auto. }
  destruct (G (N.to_nat n) off) as (bs & H1 & H2 & H3).
  { rewrite N2Nat.id. exact H. }
  exists bs. split; [exact H1|]. split; [lia|exact H3].
Qed.
Lemma written_bytes_at b off bs n : N.of_nat (List.length bs) = n ->
  (forall i, i < n -> at_ b (off + i) = CByte (nth (N.to_nat i) bs 0)) -> Forall (fun x => x < 256) bs ->
  bytes_at b off n.
Proof.
  intros Hl H HF i Hi. exists (nth (N.to_nat i) bs 0). split; [apply H, Hi|].
  rewrite Forall_forall in HF. apply HF, nth_In. lia.
Qed.
Lemma memcpy_spec d doff b off n : bytes_at b off n -> alloc d doff n ->
  exists d', memcpy d doff b off n = Ok d' /\ agree_out d d' doff n /\ same b off d' doff n.
Proof.
  intros H Ha. destruct (bytes_at_read _ _ _ H) as (bs & H1 & H2 & H3).
  unfold memcpy. rewrite H1. cbn [bind].
  destruct (write_bytes_spec d doff bs) as (d' & W1 & W2 & W3); [rewrite H2; exact Ha|].
  rewrite H2 in *. exists d'. split; [exact W1|]. split; [exact W2|].
  intros i Hi. rewrite W3 by exact Hi. apply read_bytes_spec in H1 as [_ H1]. symmetry. apply H1, Hi.
Qed.
Lemma bytes_eqb_eq x y : bytes_eqb x y = true <-> x = y.
Proof.
  revert y. induction x as [|a r IH]; intros [|c s]; cbn; try (split; congruence).
  rewrite andb_true_iff, N.eqb_eq, IH. split; [intros [-> ->]; reflexivity|intros [= -> ->]; auto].
Qed.

(** ** Members and slots *)
Lemma laid_out_in o ms m : laid_out o ms -> In m ms ->
  o <= m_off m /\ m_off m + msize (m_type m) <= o + total_size ms.
Proof.
  revert o. induction ms as [|x r IH]; intros o; cbn; [tauto|].
  unfold total_size in *. cbn. intros [H1 H2] [->|Hin].
  - subst o. lia.
  - specialize (IH _ H2 Hin). lia.
Qed.
(** pairwise disjoint slots *)
Definition disj {X} (lo sz : X -> N) (x y : X) : Prop := lo x + sz x <= lo y \/ lo y + sz y <= lo x.
Fixpoint slots {X} (lo sz : X -> N) (l : list X) : Prop :=
  match l with [] => True | x :: r => Forall (disj lo sz x) r /\ slots lo sz r end.
Lemma laid_out_slots o ms off : laid_out o ms ->
  slots (fun m => off + m_off m) (fun m => msize (m_type m)) ms.
Proof.
  revert o. induction ms as [|x r IH]; intros o; cbn; [tauto|].
  intros [H1 H2]. split; [|eapply IH; eassumption].
  apply Forall_forall. intros y Hy. pose proof (laid_out_in _ _ _ H2 Hy) as [H3 _].
  left. lia.
Qed.

(** Folding a body that works slot by slot; cells outside all slots are unchanged. *)
Definition agree_slots {X} (lo sz : X -> N) (l : list X) (d d' : block) : Prop :=
  forall j, (forall x, In x l -> ~ (lo x <= j < lo x + sz x)) -> at_ d' j = at_ d j.

Lemma fold_slots' {X} (lo sz : X -> N) (body : X -> block -> res block) (Pre Post : X -> block -> Prop)
      (l : list X) (d : block) :
  slots lo sz l ->
  (forall x d, In x l -> Pre x d -> exists d', body x d = Ok d' /\ agree_out d d' (lo x) (sz x) /\ Post x d') ->
  (forall x d d', In x l -> same d (lo x) d' (lo x) (sz x) -> Pre x d -> Pre x d') ->
  (forall x d d', In x l -> same d (lo x) d' (lo x) (sz x) -> Post x d -> Post x d') ->
  (forall x, In x l -> Pre x d) ->
  exists d', mfold body l d = Ok d' /\ agree_slots lo sz l d d' /\ (forall x, In x l -> Post x d').
Proof.
  revert d. induction l as [|x r IH]; intros d Hs Hb Hpre Hpost Hp.
  - exists d. split; [reflexivity|]. split; [intros j _; reflexivity|]. intros y [].
  - cbn [mfold]. destruct Hs as [Hs1 Hs2]. rewrite Forall_forall in Hs1.
    destruct (Hb x d (or_introl eq_refl) (Hp x (or_introl eq_refl))) as (d1 & E1 & A1 & P1).
    rewrite E1. cbn [bind].
    destruct (IH d1 Hs2) as (d2 & E2 & A2 & P2).
    + intros y d0 Hy. apply Hb. right. exact Hy.
    + intros y d0 d' Hy. apply Hpre. right. exact Hy.
    + intros y d0 d' Hy. apply Hpost. right. exact Hy.
    + intros y Hy. apply (Hpre y d d1); [right; exact Hy| |apply Hp; right; exact Hy].
      eapply agree_out_same; [exact A1|]. specialize (Hs1 y Hy). unfold disj in Hs1. lia.
    + exists d2. split; [exact E2|]. split.
      * intros j Hj. rewrite A2; [|intros y Hy; apply Hj; right; exact Hy].
        apply A1. apply Hj. left. reflexivity.
      * intros y [<-|Hy]; [|apply P2, Hy].
        apply (Hpost x d1 d2); [left; reflexivity| |exact P1].
        intros i Hi. apply A2. intros y Hy. specialize (Hs1 y Hy). unfold disj in Hs1. lia.
Qed.
Lemma agree_slots_out {X} (lo sz : X -> N) l d d' lo0 n0 :
  agree_slots lo sz l d d' -> (forall x, In x l -> lo0 <= lo x /\ lo x + sz x <= lo0 + n0) ->
  agree_out d d' lo0 n0.
Proof. intros H Hr j Hj. apply H. intros x Hx. specialize (Hr x Hx). lia. Qed.

(** counted loops as folds *)
Fixpoint nums (n : nat) (i : N) : list N := match n with O => [] | S k => i :: nums k (i + 1) end.
Lemma nums_in n i x : In x (nums n i) <-> i <= x < i + N.of_nat n.
Proof.
  revert i. induction n as [|n IH]; intros i; cbn [nums In]; [lia|]. rewrite IH. lia.
Qed.
Lemma for_from_mfold {A} n i (body : N -> A -> res A) a : for_from n i body a = mfold body (nums n i) a.
Proof.
  revert i a. induction n as [|n IH]; intros i a; [reflexivity|].
  cbn. destruct (body i a); cbn; [apply IH|reflexivity].
Qed.
Lemma nums_slots n i base k : slots (fun j => base + j * k) (fun _ => k) (nums n i).
Proof.
  revert i. induction n as [|n IH]; intros i; cbn; [exact I|].
  split; [|apply IH]. apply Forall_forall. intros y Hy. apply nums_in in Hy. left. nia.
Qed.
Lemma for_up_slots (base k : N) (body : N -> block -> res block) (Pre Post : N -> block -> Prop) n d :
  (forall i d, i < n -> Pre i d -> exists d', body i d = Ok d' /\ agree_out d d' (base + i * k) k /\ Post i d') ->
  (forall i d d', i < n -> same d (base + i * k) d' (base + i * k) k -> Pre i d -> Pre i d') ->
  (forall i d d', i < n -> same d (base + i * k) d' (base + i * k) k -> Post i d -> Post i d') ->
  (forall i, i < n -> Pre i d) ->
  exists d', for_up n body d = Ok d' /\ agree_out d d' base (n * k) /\ (forall i, i < n -> Post i d').
Proof.
  intros Hb Hpre Hpost Hp. unfold for_up. rewrite for_from_mfold.
  assert (HI : forall x, In x (nums (N.to_nat n) 0) <-> x < n) by (intros x; rewrite nums_in; lia).
  destruct (fold_slots' (fun j => base + j * k) (fun _ => k) body Pre Post (nums (N.to_nat n) 0) d) as (d' & H1 & H2 & H3).
  - apply nums_slots.
  - intros x d0 Hx. apply Hb, HI, Hx.
  - intros x d0 d' Hx. apply Hpre, HI, Hx.
  - intros x d0 d' Hx. apply Hpost, HI, Hx.
  - intros x Hx. apply Hp, HI, Hx.
  - exists d'. split; [exact H1|]. split.
    + eapply agree_slots_out; [exact H2|]. intros x Hx. cbn. apply HI in Hx. nia.
    + intros i Hi. apply H3, HI, Hi.
Qed.
(** A loop of which the prefix [n] touches slots only up to [n]: slots beyond are unchanged. *)

Lemma find_member_in nm ms m : find_member nm ms = Some m -> In m ms /\ m_name m = nm.
Proof.
  induction ms as [|x r IH]; cbn; [discriminate|].
  destruct (String.eqb nm (m_name x)) eqn:E.
  - intros [= <-]. apply String.eqb_eq in E. auto.
  - intros H. apply IH in H as [H1 H2]. auto.
Qed.
Lemma find_member_exists nm ms : In nm (map m_name ms) -> exists m, find_member nm ms = Some m.
Proof.
  induction ms as [|x r IH]; cbn; [tauto|]. intros H.
  destruct (String.eqb nm (m_name x)) eqn:E; [eauto|].
  destruct H as [H|H]; [rewrite H, String.eqb_refl in E; discriminate|]. apply IH, H.
Qed.

Lemma max_size_in m ms : In m ms -> msize (m_type m) <= max_size ms.
Proof.
  induction ms as [|x r IH]; cbn; [tauto|]. unfold max_size in *. cbn. intros [->|H]; [lia|].
  specialize (IH H). lia.
Qed.

(** Every member of a well-formed union lies inside it. *)
Lemma union_member_range nm s ms labels dv iv d m :
  wf_ty (TUnion nm s ms labels dv iv d) -> In m ms -> m_off m + msize (m_type m) <= s.
Proof.
  rewrite wf_union_iff. intros ((disc & cs & -> & H1 & H2 & H3 & H4 & H5 & H6 & H7) & Hw) Hin.
  destruct Hin as [<-|Hin]; [lia|]. rewrite Forall_forall in H4. specialize (H4 _ Hin).
  pose proof (max_size_in _ _ Hin). lia.
Qed.

Definition good (t : ty) : Prop := wf_ty t /\ ok_ty t.
Lemma good_arr nm c n : good (TArr nm c n) -> good c.
Proof. intros [[H1 _] [H2 _]]. split; assumption. Qed.
Lemma good_seq c b : good (TSeq c b) -> good c.
Proof. intros [[H1 _] [H2 _]]. split; assumption. Qed.
Lemma good_map k v b : good (TMap k v b) -> good k /\ good v.
Proof. intros [[H1 [H2 _]] [H3 [H4 _]]]. split; split; assumption. Qed.
Lemma good_pair a b : good (TPair a b) -> good a /\ good b.
Proof. intros [[H1 H2] [H3 H4]]. split; split; assumption. Qed.
Lemma good_pair_iff a b : good (TPair a b) <-> good a /\ good b.
Proof. split; [apply good_pair|]. intros [[H1 H2] [H3 H4]]. repeat split; assumption. Qed.
Lemma good_alias nm a : good (TAlias nm a) -> good a.
Proof. intros [H1 H2]. split; assumption. Qed.
Lemma good_struct nm s ms m : good (TStruct nm s ms) -> In m ms -> good (m_type m).
Proof.
  intros [H1 H2] Hin. apply wf_struct_iff in H1 as (_ & _ & _ & H1). apply ok_struct in H2.
  unfold wf_members, all_members in *. rewrite Forall_forall in *. split; [apply H1|apply H2]; exact Hin.
Qed.
Lemma good_union nm s ms labels dv iv d m : good (TUnion nm s ms labels dv iv d) -> In m ms -> good (m_type m).
Proof.
  intros [H1 H2] Hin. apply wf_union_iff in H1 as (_ & H1). apply ok_union in H2 as [_ H2].
  unfold wf_members, all_members in *. rewrite Forall_forall in *. split; [apply H1|apply H2]; exact Hin.
Qed.
(** everything one needs to know about a good union *)
Lemma good_union_inv nm s ms labels dv iv d : good (TUnion nm s ms labels dv iv d) ->
  exists dn disc cs, ms = (dn, 0, disc) :: cs /\ good disc /\ check_discriminator disc = true /\
    label_width disc = msize disc /\ lookup_label iv labels = None /\
    Forall (fun m => m_off m = msize disc) cs /\ s = msize disc + max_size cs /\
    dn = UNION_DISCRIMINATOR /\ NoDup (map m_name ms) /\
    wf_union_labels disc cs labels dv iv d.
Proof.
  intros Hg. pose proof Hg as [H1 H2]. apply wf_union_iff in H1 as ((disc & cs & -> & Hn & Ho & Hc & Hoff & Hs & Hnd & Hl) & Hw).
  destruct disc as [[dn do_] disc]. cbn [m_name m_off m_type fst snd] in *. subst do_.
  apply ok_union in H2 as [[H2 H3] _].
  exists dn, disc, cs. split; [reflexivity|].
  split; [exact (good_union _ _ _ _ _ _ _ _ Hg (or_introl eq_refl))|].
  repeat (split; [first [reflexivity|assumption]|]). exact Hl.
Qed.
(** A labelled member is found among the cases, at the common offset. *)
Lemma union_case nm s ms labels dv iv d l x : good (TUnion nm s ms labels dv iv d) ->
  lookup_label l labels = Some x ->
  exists dn disc cs m, ms = (dn, 0, disc) :: cs /\ find_member x ms = Some m /\ In m cs /\
    m_off m = msize disc /\ m_off m + msize (m_type m) <= s.
Proof.
  intros Hg Hl. pose proof Hg as [Hw _].
  destruct (good_union_inv _ _ _ _ _ _ _ Hg) as (dn & disc & cs & -> & Hd & Hc & Hlw & Hiv & Hoff & Hs & Hdn & Hnd & Hlab).
  destruct Hlab as (_ & _ & Hsort & HF & _).
  assert (Hx : In x (map m_name cs)).
  { rewrite Forall_forall in HF. apply (HF (l, x)). apply lookup_in, Hl. }
  destruct (find_member_exists x cs Hx) as (m & Hm).
  exists dn, disc, cs, m. split; [reflexivity|].
  assert (Hneq : String.eqb x dn = false).
  { apply String.eqb_neq. intros ->. cbn in Hnd. inversion Hnd; subst. contradiction. }
  split; [cbn [find_member m_name fst]; rewrite Hneq; exact Hm|].
  apply find_member_in in Hm as [Hin _]. split; [exact Hin|].
  split; [rewrite Forall_forall in Hoff; apply Hoff, Hin|].
  apply (union_member_range _ _ _ _ _ _ _ m Hw). right. exact Hin.
Qed.

(** ** Discriminators *)
Lemma check_disc_cases t : check_discriminator t = true ->
  (exists p, rget t = TPrim p /\ is_float p = false) \/ (exists nm sz vals, rget t = TEnum nm sz vals).
Proof.
  unfold check_discriminator. destruct (rget t) as [p| | | | | | | | |]; try discriminate.
  - intros H. left. exists p. split; [reflexivity|]. destruct p; (reflexivity || discriminate).
  - intros _. right. eauto.
Qed.
Lemma live_rget t b off : live t b off <-> live (rget t) b off.
Proof. induction t using ty_ind'; try reflexivity. cbn [live rget]. exact IHt. Qed.
Lemma read_rget t b off : read t b off = read (rget t) b off.
Proof. induction t using ty_ind'; try reflexivity. cbn [read rget]. exact IHt. Qed.
Lemma construct_rget t b off : construct t b off = construct (rget t) b off.
Proof. induction t using ty_ind'; try reflexivity. cbn [construct rget]. exact IHt. Qed.
Lemma live_disc t b off : check_discriminator t = true -> (live t b off <-> bytes_at b off (msize t)).
Proof.
  intros H. rewrite live_rget, <- msize_rget.
  destruct (check_disc_cases _ H) as [(p & -> & _)|(nm & sz & vals & ->)]; reflexivity.
Qed.
Lemma read_disc t b off : check_discriminator t = true ->
  read t b off = do bs <- read_bytes b off (msize t); Ok (VBytes bs).
Proof.
  intros H. rewrite read_rget, <- msize_rget.
  destruct (check_disc_cases _ H) as [(p & -> & _)|(nm & sz & vals & ->)]; reflexivity.
Qed.
Lemma get_label_same disc b off b' off' : same b off b' off' (label_width disc) ->
  get_label disc b' off' = get_label disc b off.
Proof. intros H. unfold get_label. rewrite (read_bytes_same _ _ _ _ _ H). reflexivity. Qed.
Lemma get_label_live disc b off : check_discriminator disc = true -> label_width disc = msize disc ->
  live disc b off -> exists l, get_label disc b off = Ok l.
Proof.
  intros Hc Hl H. apply live_disc in H; [|exact Hc].
  destruct (bytes_at_read _ _ _ H) as (bs & H1 & _). unfold get_label. rewrite Hl, H1. cbn. eauto.
Qed.

(** ** Locality *)
Lemma collect_ext n i f g : (forall j, i <= j -> j < i + N.of_nat n -> f j = g j) -> collect n i f = collect n i g.
Proof.
  revert i. induction n as [|n IH]; intros i H; [reflexivity|]. cbn [collect].
  rewrite (H i) by lia. rewrite (IH (i + 1)); [reflexivity|]. intros j Hj Hj2. apply H; lia.
Qed.
Lemma mmap_ext {X A} (f g : X -> res A) l : (forall x, In x l -> f x = g x) -> mmap f l = mmap g l.
Proof.
  induction l as [|x r IH]; intros H; [reflexivity|]. cbn [mmap].
  rewrite (H x) by (left; reflexivity). rewrite IH; [reflexivity|]. intros y Hy. apply H. right. exact Hy.
Qed.

Lemma live_read_local t : good t -> forall b off b' off', same b off b' off' (msize t) ->
  (live t b off -> live t b' off') /\ read t b' off' = read t b off.
Proof.
  induction t as [p|nm sz vals|k bd|nm c n IHc|c bd IHc|k v bd IHk IHv|x y IHx IHy|nm s ms IHms|nm s ms labels dv iv d IHms|nm a IHa]
    using ty_ind'; intros Hg b off b' off' H.
  - split; cbn [live read msize] in *.
    + apply bytes_at_same, H.
    + rewrite (read_bytes_same _ _ _ _ _ H). reflexivity.
  - split; cbn [live read msize] in *.
    + apply bytes_at_same, H.
    + rewrite (read_bytes_same _ _ _ _ _ H). reflexivity.
  - assert (Hz : 0 < SZ_STRING) by reflexivity.
    split.
    + cbn [live msize] in *. intros (s & Ho & Hb). exists s. split; [|exact Hb].
      eapply obj_at_same; eassumption.
    + cbn [read msize] in *. rewrite (intact_same _ _ _ _ _ H).
      specialize (H 0 Hz). rewrite !N.add_0_r in H. rewrite H. reflexivity.
  - assert (G : forall i, i < n -> (live c b (off + i * msize c) -> live c b' (off' + i * msize c)) /\
                 read c b' (off' + i * msize c) = read c b (off + i * msize c)).
    { intros i Hi. apply IHc; [eapply good_arr, Hg|]. eapply same_sub; [exact H|]. cbn [msize]. nia. }
    split; cbn [live read].
    + intros Hl i Hi. apply G; [exact Hi|]. apply Hl, Hi.
    + f_equal. apply collect_ext. intros j _ Hj. apply G. lia.
  - assert (Hz : 0 < SZ_SEQ) by reflexivity.
    split.
    + cbn [live msize] in *. intros (cap & size & m & Ho & Hb). exists cap, size, m. split; [|exact Hb].
      eapply obj_at_same; eassumption.
    + cbn [read msize] in *. rewrite (intact_same _ _ _ _ _ H).
      specialize (H 0 Hz). rewrite !N.add_0_r in H. rewrite H. reflexivity.
  - assert (Hz : 0 < SZ_MAP) by reflexivity.
    split.
    + cbn [live msize] in *. intros (cap & size & m & Ho & Hb). exists cap, size, m. split; [|exact Hb].
      eapply obj_at_same; eassumption.
    + cbn [read msize] in *. rewrite (intact_same _ _ _ _ _ H).
      specialize (H 0 Hz). rewrite !N.add_0_r in H. rewrite H. reflexivity.
  - apply good_pair in Hg as [Hgx Hgy]. cbn [msize] in H.
    assert (Hx : same b off b' off' (msize x)).
    { pose proof (same_sub _ _ _ _ _ 0 (msize x) H ltac:(lia)) as G. rewrite !N.add_0_r in G. exact G. }
    assert (Hy : same b (off + msize x) b' (off' + msize x) (msize y)).
    { apply (same_sub _ _ _ _ _ _ _ H). lia. }
    destruct (IHx Hgx _ _ _ _ Hx) as [L1 R1]. destruct (IHy Hgy _ _ _ _ Hy) as [L2 R2].
    split; cbn [live read].
    + tauto.
    + rewrite R1, R2. reflexivity.
  - rewrite Forall_forall in IHms.
    assert (G : forall m, In m ms -> (live (m_type m) b (off + m_off m) -> live (m_type m) b' (off' + m_off m)) /\
                 read (m_type m) b' (off' + m_off m) = read (m_type m) b (off + m_off m)).
    { intros m Hm. apply IHms; [exact Hm|eapply good_struct; eassumption|].
      eapply same_sub; [exact H|]. destruct Hg as [Hw _]. apply wf_struct_iff in Hw as (Hlo & -> & _ & _).
      cbn [msize]. pose proof (laid_out_in _ _ _ Hlo Hm). lia. }
    split.
    + rewrite !live_struct, !Forall_forall. intros Hl m Hm. apply G; [exact Hm|]. apply Hl, Hm.
    + rewrite !read_struct. f_equal. apply mmap_ext. intros m Hm. apply G, Hm.
  - rewrite Forall_forall in IHms. cbn [msize] in H.
    assert (G : forall m, In m ms -> (live (m_type m) b (off + m_off m) -> live (m_type m) b' (off' + m_off m)) /\
                 read (m_type m) b' (off' + m_off m) = read (m_type m) b (off + m_off m)).
    { intros m Hm. apply IHms; [exact Hm|eapply good_union; eassumption|].
      eapply same_sub; [exact H|]. destruct Hg as [Hw _]. eapply union_member_range; eassumption. }
    destruct (good_union_inv _ _ _ _ _ _ _ Hg) as (dn & disc & cs & -> & Hgd & Hc & Hlw & _ & _ & Hs & _).
    destruct (G _ (or_introl eq_refl)) as [Gl Gr]. cbn [m_type m_off fst snd] in Gl, Gr.
    rewrite !N.add_0_r in Gl, Gr.
    assert (Hlab : get_label disc b' off' = get_label disc b off).
    { apply get_label_same. rewrite Hlw. pose proof (same_sub _ _ _ _ _ 0 (msize disc) H ltac:(lia)) as G0.
      rewrite !N.add_0_r in G0. exact G0. }
    split.
    + rewrite !live_union. intros (Ha & dn' & do' & disc' & cs' & E & Hd & l & Hl & Hm). inversion E; subst dn' do' disc' cs'.
      split; [eapply alloc_same; [|exact Ha]; exact H|]. exists dn, 0, disc, cs.
      split; [reflexivity|]. split; [apply Gl, Hd|]. exists l. split; [congruence|].
      destruct (lookup_label l labels) as [x|]; [|exact I]. unfold with_member in *.
      destruct (find_member x ((dn, 0, disc) :: cs)) as [m|] eqn:Ef; [|exact Hm].
      apply find_member_in in Ef as [Hin _]. apply G; [exact Hin|exact Hm].
    + rewrite !read_union. rewrite Gr, Hlab. destruct (read disc b off) as [x|]; [|reflexivity]. cbn [bind].
      destruct (get_label disc b off) as [l|]; [|reflexivity]. cbn [bind].
      destruct (lookup_label l labels) as [y|]; [|reflexivity]. unfold with_member.
      destruct (find_member y ((dn, 0, disc) :: cs)) as [m|] eqn:Ef; [|reflexivity].
      apply find_member_in in Ef as [Hin _]. destruct (G m Hin) as [_ ->]. reflexivity.
  - cbn [live read msize] in *. apply IHa; [eapply good_alias, Hg|exact H].
Qed.
Lemma live_local t b off b' off' : good t -> same b off b' off' (msize t) -> live t b off -> live t b' off'.
Proof. intros Hg H. apply (live_read_local t Hg), H. Qed.
Lemma read_local t b off b' off' : good t -> same b off b' off' (msize t) -> read t b' off' = read t b off.
Proof. intros Hg H. apply (live_read_local t Hg), H. Qed.

(** ** live memory is allocated *)
Lemma laid_out_cover o ms i : laid_out o ms -> o <= i -> i < o + total_size ms ->
  exists m, In m ms /\ m_off m <= i /\ i < m_off m + msize (m_type m).
Proof.
  revert o. induction ms as [|x r IH]; intros o; cbn; [unfold total_size; cbn; lia|].
  unfold total_size in *. cbn. intros [H1 H2] Hi1 Hi2.
  destruct (i <? o + msize (m_type x)) eqn:E; [apply N.ltb_lt in E|apply N.ltb_ge in E].
  - exists x. split; [left; reflexivity|]. lia.
  - destruct (IH _ H2) as (m & Hm & H3); [lia|lia|]. exists m. split; [right; exact Hm|exact H3].
Qed.
Lemma live_alloc t : wf_ty t -> forall b off, live t b off -> alloc b off (msize t).
Proof.
  induction t as [p|nm sz vals|k bd|nm c n IHc|c bd IHc|k v bd IHk IHv|x y IHx IHy|nm s ms IHms|nm s ms labels dv iv d IHms|nm a IHa]
    using ty_ind'; intros Hw b off H.
  - apply bytes_at_alloc, H.
  - apply bytes_at_alloc, H.
  - cbn [live] in H. destruct H as (s & Ho & _). eapply obj_at_alloc; [exact Ho|discriminate].
  - cbn [live msize] in *. intros i Hi.
    assert (Hm : 0 < msize c) by nia.
    pose proof (N.div_mod i (msize c) ltac:(lia)) as E.
    pose proof (N.mod_lt i (msize c) ltac:(lia)) as E2.
    assert (Hq : i / msize c < n) by (apply N.div_lt_upper_bound; lia).
    specialize (IHc (proj1 Hw) b (off + (i / msize c) * msize c) (H _ Hq) (i mod msize c) E2).
    replace (off + i) with (off + i / msize c * msize c + i mod msize c) by lia. exact IHc.
  - cbn [live] in H. destruct H as (cap & size & m & Ho & _). eapply obj_at_alloc; [exact Ho|discriminate].
  - cbn [live] in H. destruct H as (cap & size & m & Ho & _). eapply obj_at_alloc; [exact Ho|discriminate].
  - cbn [live msize wf_ty] in *. destruct H as [H1 H2]. destruct Hw as [W1 W2].
    intros i Hi. destruct (i <? msize x) eqn:E; [apply N.ltb_lt in E|apply N.ltb_ge in E].
    + apply IHx; assumption.
    + replace (off + i) with (off + msize x + (i - msize x)) by lia. apply IHy; [assumption..|lia].
  - apply wf_struct_iff in Hw as (Hlo & -> & _ & Hw). rewrite live_struct in H. cbn [msize].
    intros i Hi. destruct (laid_out_cover _ _ i Hlo ltac:(lia) ltac:(lia)) as (m & Hm & H1 & H2).
    unfold wf_members in Hw. rewrite Forall_forall in *.
    specialize (IHms m Hm (Hw m Hm) b _ (H m Hm) (i - m_off m) ltac:(lia)).
    replace (off + i) with (off + m_off m + (i - m_off m)) by lia. exact IHms.
  - rewrite live_union in H. apply H.
  - cbn in *. apply IHa; assumption.
Qed.
