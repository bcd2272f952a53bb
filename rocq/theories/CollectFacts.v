(** Lists of results; the header of containers. *)
From Verif Require Import Base Types TypeBuild TypeSpec Mem MemSpec TyInd Layout CompatFacts2 MemEqns MemFacts
  ConstructFacts CopyFacts DestroyFacts CompareFacts MoveFacts Ops OpsSpec UnionFacts SeqFacts.

(** ** Lists of results *)
Lemma collect_nth n : forall i f l, collect n i f = Ok l ->
  List.length l = n /\ forall k, (k < n)%nat -> exists v, nth_error l k = Some v /\ f (i + N.of_nat k) = Ok v.
Proof.
  induction n as [|n IH]; intros i f l; cbn [collect].
  - intros [= <-]. split; [reflexivity|]. intros k Hk. lia.
  - intros E. apply bind_ok in E as (v & Ev & E). apply bind_ok in E as (r & Er & E). injection E as <-.
    destruct (IH _ _ _ Er) as [H1 H2]. split; [cbn; congruence|]. intros [|k] Hk.
    + exists v. rewrite N.add_0_r. auto.
    + destruct (H2 k ltac:(lia)) as (w & Hw & Hf). exists w. split; [exact Hw|].
      replace (i + N.of_nat (S k)) with (i + 1 + N.of_nat k) by lia. exact Hf.
Qed.
Lemma collect_replace n : forall i f f' l k y, collect n i f = Ok l -> (k < n)%nat ->
  (forall j, i <= j -> j < i + N.of_nat n -> j <> i + N.of_nat k -> f' j = f j) -> f' (i + N.of_nat k) = Ok y ->
  collect n i f' = Ok (replace_nth k y l).
Proof.
  induction n as [|n IH]; intros i f f' l k y E Hk Hf Hy; [lia|]. cbn [collect] in *.
  apply bind_ok in E as (v & Ev & E). apply bind_ok in E as (r & Er & E). injection E as <-.
  destruct k as [|k].
  - rewrite N.add_0_r in Hy. rewrite Hy. cbn [bind].
    rewrite (collect_ext n (i + 1) f' f); [rewrite Er; reflexivity|]. intros j H1 H2. apply Hf; lia.
  - rewrite (Hf i) by lia. rewrite Ev. cbn [bind].
    rewrite (IH (i + 1) f f' r k y Er); [reflexivity|lia| |].
    + intros j H1 H2 H3. apply Hf; lia.
    + replace (i + 1 + N.of_nat k) with (i + N.of_nat (S k)) by lia. exact Hy.
Qed.
Lemma collect_app n m i f : collect (n + m) i f =
  do a <- collect n i f; do b <- collect m (i + N.of_nat n) f; Ok (a ++ b).
Proof.
  revert i. induction n as [|n IH]; intros i; cbn [collect Nat.add].
  - rewrite N.add_0_r. cbn [bind]. destruct (collect m i f); reflexivity.
  - destruct (f i); cbn [bind]; [|reflexivity]. rewrite IH. replace (i + 1 + N.of_nat n) with (i + N.of_nat (S n)) by lia.
    destruct (collect n (i + 1) f); cbn [bind]; [|reflexivity]. destruct (collect m _ f); reflexivity.
Qed.
Lemma collect_const n i f v : (forall j, i <= j -> j < i + N.of_nat n -> f j = Ok v) -> collect n i f = Ok (repeat v n).
Proof.
  revert i. induction n as [|n IH]; intros i H; [reflexivity|]. cbn [collect repeat]. rewrite H by lia. cbn [bind].
  rewrite IH; [reflexivity|]. intros j H1 H2. apply H; lia.
Qed.
Lemma mmap_nth {X A} (f : X -> res A) ms : forall l, mmap f ms = Ok l ->
  List.length l = List.length ms /\
  forall k m, nth_error ms k = Some m -> exists v, nth_error l k = Some v /\ f m = Ok v.
Proof.
  induction ms as [|m r IH]; intros l; cbn [mmap].
  - intros [= <-]. split; [reflexivity|]. intros [|k] m H; discriminate H.
  - intros E. apply bind_ok in E as (v & Ev & E). apply bind_ok in E as (r' & Er & E). injection E as <-.
    destruct (IH _ Er) as [H1 H2]. split; [cbn; congruence|]. intros [|k] x H; cbn in *; [injection H as <-; eauto|apply H2, H].
Qed.
Lemma mmap_replace {X A} (f f' : X -> res A) ms : forall l k m y, mmap f ms = Ok l -> nth_error ms k = Some m ->
  (forall j x, nth_error ms j = Some x -> j <> k -> f' x = f x) -> f' m = Ok y ->
  mmap f' ms = Ok (replace_nth k y l).
Proof.
  induction ms as [|x r IH]; intros l k m y E Hm Hf Hy; [destruct k; discriminate Hm|]. cbn [mmap] in *.
  apply bind_ok in E as (v & Ev & E). apply bind_ok in E as (r' & Er & E). injection E as <-.
  destruct k as [|k]; cbn in Hm.
  - injection Hm as ->. rewrite Hy. cbn [bind].
    rewrite (mmap_ext f' f r); [rewrite Er; reflexivity|]. intros z Hz. apply In_nth_error in Hz as [j Hj].
    apply (Hf (S j) z Hj). lia.
  - rewrite (Hf 0%nat x eq_refl) by lia. rewrite Ev. cbn [bind].
    rewrite (IH r' k m y Er Hm); [reflexivity| |exact Hy]. intros j z Hz Hn. apply (Hf (S j) z Hz). lia.
Qed.
Lemma member_index_nth nm ms i m : member_index nm ms = Some i -> find_member nm ms = Some m -> nth_error ms i = Some m.
Proof.
  revert i. induction ms as [|x r IH]; intros i; cbn [member_index find_member]; [discriminate|].
  destruct (String.eqb nm (m_name x)); [intros [= <-] [= <-]; reflexivity|].
  destruct (member_index nm r) as [k|]; [|discriminate]. intros [= <-] H. cbn. apply IH; [reflexivity|exact H].
Qed.
Lemma slots_nth {X} (lo sz : X -> N) (l : list X) : slots lo sz l -> forall i j x y, nth_error l i = Some x -> nth_error l j = Some y ->
  i <> j -> disj lo sz x y.
Proof.
  induction l as [|z r IH]; intros Hs i j x y Hx Hy Hn; [destruct i; discriminate Hx|].
  destruct Hs as [H1 H2]. rewrite Forall_forall in H1. destruct i as [|i], j as [|j]; cbn in *.
  - congruence.
  - injection Hx as ->. apply H1. eapply nth_error_In, Hy.
  - injection Hy as ->. specialize (H1 x (nth_error_In _ _ Hx)). unfold disj in *. tauto.
  - eapply IH; eauto.
Qed.

(** ** Changing the header of a container *)
Lemma set_cell_spec b off sz c c' : 0 < sz -> obj_at b off sz c -> agree_out b (set_cell b off c') off sz /\ obj_at (set_cell b off c') off sz c'.
Proof.
  intros Hsz [H1 H2]. unfold set_cell. split.
  - intros j Hj. apply at_upd_out. lia.
  - split; [rewrite at_upd_in by lia; reflexivity|]. apply intact_spec. intros i Hi1 Hi2.
    rewrite at_upd_out by lia. apply intact_spec with (sz := sz); assumption.
Qed.

(** A value with active members everywhere comes from an instance with active members everywhere. *)
Lemma selected_value t : good t -> forall b off v, live t b off -> read t b off = Ok v -> vselected t v -> selected t b off.
Proof.
  induction t as [p|nm sz vals|k bd|nm c n IHc|c bd IHc|k v bd IHk IHv|x y IHx IHy|nm s ms IHms|nm s ms labels dv iv d IHms|nm a IHa]
    using ty_ind'; intros Hg b off w Hl Hr Hs; try exact I.
  - cbn [live read vselected selected] in *. apply bind_ok in Hr as (l & El & Hr). injection Hr as <-.
    destruct (collect_nth _ _ _ _ El) as [Hlen Hn]. intros i Hi. destruct (Hn (N.to_nat i) ltac:(lia)) as (x & Hx & Rx).
    rewrite N2Nat.id in Rx. rewrite Forall_forall in Hs. eapply IHc; [eapply good_arr, Hg|apply Hl, Hi|exact Rx|].
    apply Hs. eapply nth_error_In, Hx.
  - cbn [live read vselected selected] in *. apply bind_ok in Hr as (a & Ra & Hr). apply bind_ok in Hr as (c & Rc & Hr). injection Hr as <-.
    pose proof (good_pair _ _ Hg) as [Hgx Hgy]. destruct Hl, Hs. split; [eapply IHx|eapply IHy]; eassumption.
  - rewrite read_struct in Hr. apply bind_ok in Hr as (l & El & Hr). injection Hr as <-.
    rewrite live_struct, Forall_forall in Hl. rewrite selected_struct, Forall_forall. rewrite Forall_forall in IHms. cbn [vselected] in Hs.
    assert (Hgm : forall m, In m ms -> good (m_type m)) by (intros m Hm; eapply good_struct; eassumption).
    clear Hg nm s. revert l El Hs IHms Hl Hgm. induction ms as [|[[mn mo] mt] r IH]; intros l El Hs IHms Hl Hgm m Hm; [destruct Hm|].
    cbn [mmap] in El. apply bind_ok in El as (x & Ex & El). apply bind_ok in El as (l' & El & E). injection E as <-.
    destruct Hs as [Hs1 Hs2]. destruct Hm as [<-|Hm].
    + eapply (IHms (mn, mo, mt)); [left; reflexivity|apply Hgm; left; reflexivity|apply Hl; left; reflexivity|exact Ex|exact Hs1].
    + eapply (IH l' El Hs2); try exact Hm; intros z Hz; first [apply IHms|apply Hl|apply Hgm]; right; exact Hz.
  - destruct ms as [|[[dn o] disc] cs]; [contradiction Hs|].
    destruct (good_union_inv _ _ _ _ _ _ _ Hg) as (dn' & disc' & cs' & Em & _). inversion Em; subst dn' disc' cs' o.
    destruct (union_state _ _ _ _ _ _ _ _ _ Hg _ _ Hl) as (_ & _ & bs & l & Rd & Gl & Lo & H).
    cbn [vselected] in Hs. destruct w as [| | |dv' mv]; try contradiction Hs. destruct mv as [w|]; [|contradiction Hs].
    destruct Hs as (l' & x & Hl' & Hx & Hs).
    assert (dv' = VBytes bs) as ->.
    { destruct (lookup_label l labels); [destruct H as (m & w' & _ & _ & _ & H)|]; congruence. }
    rewrite Lo in Hl'. injection Hl' as <-. rewrite Hx in H. destruct H as (m & w' & Hf & Lm & Rm & Ru).
    rewrite Hr in Ru. injection Ru as <-.
    destruct (u_member _ _ _ _ _ _ _ _ _ Hg _ _ Hf) as (Hf' & Hin & Hn & _ & _ & Hgm).
    rewrite selected_union. exists l, x. split; [exact Gl|]. split; [exact Hx|].
    unfold with_member. rewrite Hf'. rewrite Forall_forall in IHms.
    assert (Q : forall l0, find_member x l0 = Some m -> (fix go (z : list (string * N * ty)) : Prop :=
               match z with
               | [] => False
               | (mn, _, mt) :: r => if String.eqb x mn then vselected mt w else go r
               end) l0 -> vselected (m_type m) w).
    { intros l0. induction l0 as [|[[mn mo] mt] r IH]; cbn [find_member m_name fst]; [discriminate|].
      destruct (String.eqb x mn); [intros [= <-] H; exact H|exact IH]. }
    exact (IHms m (or_intror Hin) Hgm b (off + m_off m) w Lm Rm (Q _ Hf' Hs)).
  - cbn [live read vselected selected] in *. eapply IHa; eassumption.
Qed.

