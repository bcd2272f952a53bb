(** Destruction: every object of a live instance is destroyed exactly once, nothing else is touched,
    and nothing of a tight instance survives. *)
From Verif Require Import Base Types TypeBuild TypeSpec TyInd CompatFacts2 Layout Mem MemSpec MemEqns MemFacts ConstructFacts CopyFacts.

(** a destruction list for the region [off, off + n) *)
Definition dl_ok (b : block) (off n : N) (l : list (N * N)) : Prop :=
  (forall o sz, In (o, sz) l -> off <= o /\ o + sz <= off + n /\ 0 < sz /\
                                is_object (at_ b o) = true /\ intact b o sz = true) /\
  slots fst snd l.

Lemma slots_app {X} (lo sz : X -> N) l1 l2 : slots lo sz l1 -> slots lo sz l2 ->
  (forall x y, In x l1 -> In y l2 -> disj lo sz x y) -> slots lo sz (l1 ++ l2).
Proof.
  intros H1 H2 H. induction l1 as [|x r IH]; [exact H2|]. cbn. destruct H1 as [Ha Hb]. split.
  - apply Forall_app. split; [exact Ha|]. apply Forall_forall. intros y Hy. apply H; [left; reflexivity|exact Hy].
  - apply IH; [exact Hb|]. intros x0 y Hx Hy. apply H; [right; exact Hx|exact Hy].
Qed.
Lemma dl_ok_nil b off n : dl_ok b off n [].
Proof. split; [intros ? ? []|exact I]. Qed.
Lemma dl_ok_weaken b off n l off' n' : dl_ok b off n l -> off' <= off -> off + n <= off' + n' -> dl_ok b off' n' l.
Proof. intros [H1 H2] Ha Hb. split; [|exact H2]. intros o sz Hin. specialize (H1 o sz Hin). intuition lia. Qed.
Lemma dl_ok_app b off n l1 l2 o1 n1 o2 n2 :
  dl_ok b o1 n1 l1 -> dl_ok b o2 n2 l2 -> o1 + n1 <= o2 \/ o2 + n2 <= o1 ->
  off <= o1 -> o1 + n1 <= off + n -> off <= o2 -> o2 + n2 <= off + n -> dl_ok b off n (l1 ++ l2).
Proof.
  intros [H1 H2] [H3 H4] Hd Ha Hb Hc He. split.
  - intros o sz H. apply in_app_iff in H as [H|H]; [specialize (H1 o sz H)|specialize (H3 o sz H)]; intuition lia.
  - apply slots_app; [exact H2|exact H4|]. intros [x1 x2] [y1 y2] Hx Hy.
    specialize (H1 _ _ Hx). specialize (H3 _ _ Hy). unfold disj. cbn. lia.
Qed.

Lemma kill_all_mfold l b : kill_all l b =
  mfold (fun x b => if is_object (at_ b (fst x)) && intact b (fst x) (snd x) then kill b (fst x) (snd x) else Fail UB) l b.
Proof.
  revert b. induction l as [|[o sz] r IH]; intros b; [reflexivity|]. cbn [kill_all mfold fst snd].
  destruct (is_object (at_ b o) && intact b o sz); [|reflexivity].
  destruct (kill b o sz); cbn [bind]; [apply IH|reflexivity].
Qed.
Lemma kill_all_spec b off n l : dl_ok b off n l ->
  exists b', kill_all l b = Ok b' /\ agree_slots fst snd l b b' /\
    (forall o sz, In (o, sz) l -> forall i, i < sz -> at_ b' (o + i) = CRaw).
Proof.
  intros [H1 H2]. rewrite kill_all_mfold.
  destruct (fold_slots' fst snd
     (fun x b => if is_object (at_ b (fst x)) && intact b (fst x) (snd x) then kill b (fst x) (snd x) else Fail UB)
     (fun x d => 0 < snd x /\ is_object (at_ d (fst x)) = true /\ intact d (fst x) (snd x) = true)
     (fun x d => forall i, i < snd x -> at_ d (fst x + i) = CRaw) l b) as (b' & E & A & P).
  - exact H2.
  - intros [o sz] d Hx (Hz & Ho & Hi). cbn [fst snd] in *. rewrite Ho, Hi. cbn [andb].
    destruct (write_cells_spec d o sz (fun _ => CRaw)) as (d' & W1 & W2 & W3).
    { eapply (obj_at_alloc d o sz (at_ d o)); [split; [reflexivity|exact Hi]|].
      intros Hn. rewrite Hn in Ho. discriminate. }
    exists d'. auto.
  - intros [o sz] d d' Hx S (Hz & Ho & Hi). cbn [fst snd] in *. split; [exact Hz|].
    rewrite (intact_same _ _ _ _ _ S). split; [|exact Hi].
    specialize (S 0 Hz). rewrite !N.add_0_r in S. rewrite S. exact Ho.
  - intros [o sz] d d' Hx S Hp i Hi. cbn [fst snd] in *. rewrite S by exact Hi. apply Hp, Hi.
  - intros [o sz] Hx. specialize (H1 o sz Hx). cbn. tauto.
  - exists b'. split; [exact E|]. split; [exact A|]. intros o sz Hx. apply (P (o, sz) Hx).
Qed.

(** every object of the region is in the list *)
Definition dl_all (b : block) (off n : N) (l : list (N * N)) : Prop :=
  forall j, off <= j -> j < off + n -> is_object (at_ b j) = true -> exists sz, In (j, sz) l.
Lemma dl_all_clean b off n : clean b off n -> dl_all b off n [].
Proof. intros H j H1 H2 H3. specialize (H (j - off) ltac:(lia)). replace (off + (j - off)) with j in H by lia. congruence. Qed.
Lemma bytes_clean b off n : bytes_at b off n -> clean b off n.
Proof. intros H i Hi. destruct (H i Hi) as (x & -> & _). reflexivity. Qed.
Lemma obj_dl b off sz c : obj_at b off sz c -> is_object c = true -> 0 < sz ->
  dl_ok b off sz [(off, sz)] /\ dl_all b off sz [(off, sz)].
Proof.
  intros [H1 H2] Hc Hz. split.
  - split; [|split; [constructor|exact I]]. intros o s [H|[]]. inversion H; subst. repeat split; try lia; congruence.
  - intros j Hj1 Hj2 Hj3. destruct (N.eq_dec j off) as [->|Hn]; [exists sz; left; reflexivity|].
    rewrite intact_spec in H2. specialize (H2 (j - off) ltac:(lia) ltac:(lia)).
    replace (off + (j - off)) with j in H2 by lia. rewrite H2 in Hj3. discriminate.
Qed.

Lemma concat_down_spec b base k n (f : N -> res (list (N * N))) :
  (forall i, i < N.of_nat n -> exists l, f i = Ok l /\ dl_ok b (base + i * k) k l) ->
  exists l, concat_down n f = Ok l /\ dl_ok b base (N.of_nat n * k) l /\
    (forall i li x, i < N.of_nat n -> f i = Ok li -> In x li -> In x l).
Proof.
  induction n as [|n IH]; intros H.
  - exists []. split; [reflexivity|]. split; [apply dl_ok_nil|]. intros i li x Hi. lia.
  - cbn [concat_down]. destruct (H (N.of_nat n)) as (l1 & E1 & O1); [lia|]. rewrite E1. cbn [bind].
    destruct IH as (l2 & E2 & O2 & C2); [intros i Hi; apply H; lia|]. rewrite E2. cbn [bind].
    exists (l1 ++ l2). split; [reflexivity|]. split.
    + eapply dl_ok_app; [exact O1|exact O2|right; lia|lia|nia|lia|nia].
    + intros i li x Hi Ei Hx. apply in_app_iff. destruct (N.eq_dec i (N.of_nat n)) as [->|Hn].
      * left. congruence.
      * right. eapply C2; [|exact Ei|exact Hx]. lia.
Qed.
Lemma int32_iterations_id n : n <= 2147483648 -> int32_iterations n = n.
Proof.
  intros H. unfold int32_iterations. destruct (n =? 0) eqn:E; [apply N.eqb_eq in E; lia|].
  apply N.eqb_neq in E. destruct (n - 1 <? 2147483648) eqn:E2; [reflexivity|]. apply N.ltb_ge in E2. lia.
Qed.

(** the specification of [dlist] on one instance *)
Definition dspec (t : ty) : Prop := forall b off, live t b off ->
  exists l, dlist b t off = Ok l /\ dl_ok b off (msize t) l /\ (tight t b off -> dl_all b off (msize t) l).

(** the buffer of a container *)
Lemma buffer_dlist T cap m : good T -> dspec T -> cap <= 2147483648 -> msize T < 4294967296 ->
  cap * msize T < 4294967296 -> (forall i, i < cap -> live T m (i * msize T)) ->
  exists l, concat_down (N.to_nat (int32_iterations cap)) (fun i => dlist m T (wrap32 (i * wrap32 (msize T)))) = Ok l /\
    dl_ok m 0 (cap * msize T) l /\
    ((forall i, i < cap -> tight T m (i * msize T)) -> dl_all m 0 (cap * msize T) l).
Proof.
  intros Hg HT H31 H32 Hc32 Hl. rewrite (int32_iterations_id _ H31), (wrap32_small _ H32).
  destruct (concat_down_spec m 0 (msize T) (N.to_nat cap) (fun i => dlist m T (wrap32 (i * msize T)))) as (l & E & O & C).
  - rewrite N2Nat.id. intros i Hi. rewrite wrap32_small by nia.
    destruct (HT m (i * msize T) (Hl i Hi)) as (l & E & O & _). eauto.
  - rewrite N2Nat.id in *. exists l. split; [exact E|]. split; [exact O|].
    intros Ht j Hj1 Hj2 Hobj. assert (Hk : 0 < msize T) by nia.
    pose proof (N.div_mod j (msize T) ltac:(lia)) as E1. pose proof (N.mod_lt j (msize T) ltac:(lia)) as E2.
    assert (Hq : j / msize T < cap) by (apply N.div_lt_upper_bound; lia).
    set (q := j / msize T) in *. set (r := j mod msize T) in *. clearbody q r.
    destruct (HT m _ (Hl _ Hq)) as (li & Ei & _ & Ai).
    destruct (Ai (Ht _ Hq) j) as [sz Hin]; [nia|nia|exact Hobj|].
    exists sz. apply (C q li); [exact Hq| |exact Hin]. rewrite wrap32_small by nia. exact Ei.
Qed.

Lemma dspec_pair x y : good x -> good y -> dspec x -> dspec y -> dspec (TPair x y).
Proof.
  intros Hgx Hgy IHx IHy b off [L1 L2]. rewrite dlist_pair.
  destruct (IHx _ _ L1) as (l1 & E1 & O1 & A1). destruct (IHy _ _ L2) as (l2 & E2 & O2 & A2).
  rewrite E1, E2. cbn [bind]. exists (l1 ++ l2). split; [reflexivity|]. cbn [msize]. split.
  - eapply dl_ok_app; [exact O1|exact O2|left; lia|lia|lia|lia|lia].
  - intros [T1 T2] j Hj1 Hj2 Hobj. destruct (j <? off + msize x) eqn:Ej; [apply N.ltb_lt in Ej|apply N.ltb_ge in Ej].
    + destruct (A1 T1 j Hj1 Ej Hobj) as [sz Hin]. exists sz. apply in_app_iff. left. exact Hin.
    + destruct (A2 T2 j ltac:(lia) ltac:(lia) Hobj) as [sz Hin]. exists sz. apply in_app_iff. right. exact Hin.
Qed.

Lemma dl_members_spec b off o ms : laid_out o ms ->
  (forall m, In m ms -> exists l, dlist b (m_type m) (off + m_off m) = Ok l /\
      dl_ok b (off + m_off m) (msize (m_type m)) l /\
      (tight (m_type m) b (off + m_off m) -> dl_all b (off + m_off m) (msize (m_type m)) l)) ->
  exists l, dl_members (fun m => dlist b (m_type m) (off + m_off m)) ms = Ok l /\
    dl_ok b (off + o) (total_size ms) l /\
    (Forall (fun m => tight (m_type m) b (off + m_off m)) ms -> dl_all b (off + o) (total_size ms) l).
Proof.
  revert o. induction ms as [|m r IH]; intros o Hlo H.
  - exists []. split; [reflexivity|]. split; [apply dl_ok_nil|]. intros _ j Hj1 Hj2. cbn in Hj2. lia.
  - destruct Hlo as [Ho Hlo]. destruct (H m (or_introl eq_refl)) as (lm & Em & Om & Am).
    destruct (IH _ Hlo) as (lr & Er & Or & Ar); [intros x Hx; apply H; right; exact Hx|].
    cbn [dl_members]. rewrite Er, Em. cbn [bind]. exists (lr ++ lm). split; [reflexivity|].
    change (total_size (m :: r)) with (msize (m_type m) + total_size r). split.
    + eapply dl_ok_app; [exact Or|exact Om|right; lia|lia|lia|lia|lia].
    + intros Ht. apply Forall_cons_iff in Ht as [Tm Tr].
      intros j Hj1 Hj2 Hobj.
      destruct (j <? off + o + msize (m_type m)) eqn:Ej; [apply N.ltb_lt in Ej|apply N.ltb_ge in Ej].
      * destruct (Am Tm j ltac:(lia) ltac:(lia) Hobj) as [sz Hin]. exists sz. apply in_app_iff. right. exact Hin.
      * destruct (Ar Tr j ltac:(lia) ltac:(lia) Hobj) as [sz Hin]. exists sz. apply in_app_iff. left. exact Hin.
Qed.

Lemma dlist_disc t b off : check_discriminator t = true -> dlist b t off = Ok [].
Proof.
  intros Hc. assert (forall t, dlist b t off = dlist b (rget t) off) as ->.
  { clear. induction t using ty_ind'; try reflexivity. rewrite dlist_alias. exact IHt. }
  destruct (check_disc_cases _ Hc) as [(p & -> & _)|(? & ? & ? & ->)]; [apply dlist_prim|apply dlist_enum].
Qed.

Lemma dlist_spec t : good t -> dspec t.
Proof.
  induction t as [p|nm sz vals|k bd|nm c n IHc|c bd IHc|k v bd IHk IHv|x y IHx IHy|nm s ms IHms|nm s ms labels dv iv df IHms|nm a IHa]
    using ty_ind'; intros Hg; [| | | | | | | | |].
  - intros b off Hl. exists []. split; [apply dlist_prim|]. split; [apply dl_ok_nil|].
    intros _. apply dl_all_clean, bytes_clean, Hl.
  - intros b off Hl. exists []. split; [apply dlist_enum|]. split; [apply dl_ok_nil|].
    intros _. apply dl_all_clean, bytes_clean, Hl.
  - intros b off Hl. cbn [live] in Hl. destruct Hl as (s & Ho & _). pose proof Ho as [H1 H2].
    exists [(off, SZ_STRING)]. rewrite dlist_str, H1, skind_eqb_refl. split; [reflexivity|].
    destruct (obj_dl _ _ _ _ Ho eq_refl ltac:(reflexivity)) as [O A]. split; [exact O|intros _; exact A].
  - intros b off Hl. rewrite dlist_arr. pose proof (good_arr _ _ _ Hg) as Hgc. cbn [live] in Hl.
    destruct Hg as [_ [_ H31]].
    destruct (is_constructed_type c) eqn:Ec.
    + rewrite (int32_iterations_id _ H31).
      destruct (concat_down_spec b off (msize c) (N.to_nat n) (fun i => dlist b c (off + i * msize c))) as (l & E & O & C).
      * rewrite N2Nat.id. intros i Hi. destruct (IHc Hgc b _ (Hl i Hi)) as (l & E & O & _). eauto.
      * rewrite N2Nat.id in *. exists l. split; [exact E|]. split; [exact O|].
        cbn [tight msize]. intros Ht j Hj1 Hj2 Hobj. assert (Hk : 0 < msize c) by nia.
        pose proof (N.div_mod (j - off) (msize c) ltac:(lia)) as E1. pose proof (N.mod_lt (j - off) (msize c) ltac:(lia)) as E2.
        assert (Hq : (j - off) / msize c < n) by (apply N.div_lt_upper_bound; lia).
        set (q := (j - off) / msize c) in *. set (r := (j - off) mod msize c) in *. clearbody q r.
        destruct (IHc Hgc b _ (Hl _ Hq)) as (li & Ei & _ & Ai).
        destruct (Ai (Ht _ Hq) j) as [sz Hin]; [nia|nia|exact Hobj|].
        exists sz. apply (C _ li _ Hq Ei Hin).
    + exists []. split; [reflexivity|]. split; [apply dl_ok_nil|]. intros _.
      destruct (constructed_prim _ Ec) as [p ->]. apply dl_all_clean, bytes_clean. cbn [msize]. apply slots_bytes, Hl.
  - intros b off Hl. cbn [live] in Hl. destruct Hl as (cap & size & m & Ho & Hsz & Hb & H32 & H31 & Hm).
    pose proof Ho as [H1 H2]. rewrite dlist_seq, H1. pose proof (good_seq _ _ Hg) as Hgc.
    destruct Hg as [_ (_ & Hm32 & _)].
    destruct (obj_dl _ _ _ _ Ho eq_refl ltac:(reflexivity)) as [O A].
    exists [(off, SZ_SEQ)]. split; [|split; [exact O|intros _; exact A]].
    destruct ((cap =? 0) || negb (is_constructed_type c)); [reflexivity|].
    destruct (buffer_dlist c cap m Hgc (IHc Hgc) H31 Hm32 H32 Hm) as (l & E & Ol & _).
    rewrite E. cbn [bind]. destruct (kill_all_spec _ _ _ _ Ol) as (m' & E' & _). rewrite E'. reflexivity.
  - intros b off Hl. cbn [live] in Hl. destruct Hl as (cap & size & m & Ho & Hsz & Hb & H32 & H31 & Hm).
    pose proof Ho as [H1 H2]. rewrite dlist_map, H1. pose proof (good_map _ _ _ Hg) as [Hgk Hgv].
    destruct Hg as [_ (_ & _ & Hm32 & _)].
    destruct (obj_dl _ _ _ _ Ho eq_refl ltac:(reflexivity)) as [O A].
    exists [(off, SZ_MAP)]. split; [|split; [exact O|intros _; exact A]].
    destruct (cap =? 0); [reflexivity|].
    destruct (buffer_dlist (TPair k v) cap m) as (l & E & Ol & _); try assumption.
    { apply good_pair_iff. auto. }
    { apply dspec_pair; auto. }
    cbn [msize] in E. rewrite E. cbn [bind]. destruct (kill_all_spec _ _ _ _ Ol) as (m' & E' & _). rewrite E'. reflexivity.
  - pose proof (good_pair _ _ Hg) as [Hgx Hgy]. apply dspec_pair; auto.
  - intros b off Hl. rewrite dlist_struct. rewrite live_struct, Forall_forall in Hl.
    pose proof Hg as [Hw _]. apply wf_struct_iff in Hw as (Hlo & Hs & _ & _). rewrite Forall_forall in IHms.
    destruct (dl_members_spec b off 0 ms Hlo) as (l & E & O & A).
    { intros m Hm. apply (IHms m Hm (good_struct _ _ _ _ Hg Hm)), Hl, Hm. }
    rewrite N.add_0_r in *. exists l. split; [exact E|]. cbn [msize]. rewrite Hs.
    split; [exact O|]. rewrite tight_struct. exact A.
  - intros b off Hl. rewrite dlist_union, tight_union. rewrite Forall_forall in IHms.
    destruct (good_union_inv _ _ _ _ _ _ _ Hg) as (dn & disc & cs & Ems & Hgd & Hc & Hlw & Hiv & Hoff & Hs & _ & _ & _).
    rewrite live_union in Hl. destruct Hl as (Hba & dn' & do' & disc' & cs' & Ems' & Hld & l & Hgl & Hmem).
    rewrite Ems in Ems'. inversion Ems'; subst dn' do' disc' cs'. clear Ems'. subst ms.
    rewrite (dlist_disc _ _ _ Hc). cbn [bind]. rewrite Hgl. cbn [bind msize].
    assert (Hdc : clean b off (msize disc)).
    { apply bytes_clean. apply live_disc in Hld; [exact Hld|exact Hc]. }
    destruct (lookup_label l labels) as [x|] eqn:Ex.
    + destruct (union_case _ _ _ _ _ _ _ _ _ Hg Ex) as (dn' & disc' & cs' & m & E' & Hf & Hin & Hmo & Hmr).
      inversion E'; subst dn' disc' cs'. clear E'.
      assert (Hinm : In m ((dn, 0, disc) :: cs)) by (right; exact Hin).
      unfold with_member in *. rewrite Hf in *.
      destruct (IHms m Hinm (good_union _ _ _ _ _ _ _ _ Hg Hinm) b _ Hmem) as (lm & Em & Om & Am).
      rewrite Em. cbn [bind app]. exists lm. split; [reflexivity|].
      split; [eapply dl_ok_weaken; [exact Om|lia|lia]|].
      intros [Tm Tc] j Hj1 Hj2 Hobj.
      destruct (j <? off + msize disc) eqn:Ej; [apply N.ltb_lt in Ej|apply N.ltb_ge in Ej].
      { specialize (Hdc (j - off) ltac:(lia)). replace (off + (j - off)) with j in Hdc by lia. congruence. }
      destruct (j <? off + m_off m + msize (m_type m)) eqn:Ej2; [apply N.ltb_lt in Ej2|apply N.ltb_ge in Ej2].
      { apply (Am Tm); [lia|lia|exact Hobj]. }
      specialize (Tc (j - (off + m_off m + msize (m_type m))) ltac:(lia)).
      replace (off + m_off m + msize (m_type m) + (j - (off + m_off m + msize (m_type m)))) with j in Tc by lia. congruence.
    + exists []. split; [reflexivity|]. split; [apply dl_ok_nil|].
      intros Tc. apply dl_all_clean. intros i Hi.
      destruct (i <? msize disc) eqn:Ej; [apply N.ltb_lt in Ej; apply Hdc, Ej|apply N.ltb_ge in Ej].
      specialize (Tc (i - msize disc) ltac:(lia)). replace (off + msize disc + (i - msize disc)) with (off + i) in Tc by lia. exact Tc.
  - intros b off Hl. rewrite dlist_alias. cbn [msize live tight] in *. apply (IHa (good_alias _ _ Hg)), Hl.
Qed.

Lemma slots_raw_alloc b b' off n l : agree_slots fst snd l b b' ->
  (forall o sz, In (o, sz) l -> forall i, i < sz -> at_ b' (o + i) = CRaw) ->
  alloc b off n -> alloc b' off n.
Proof.
  intros A K Ha i Hi.
  destruct (existsb (fun x => (fst x <=? off + i) && (off + i <? fst x + snd x)) l) eqn:E.
  - apply existsb_exists in E as ([o sz] & Hin & Hc). cbn in Hc. apply andb_true_iff in Hc as [H1 H2].
    apply N.leb_le in H1. apply N.ltb_lt in H2. specialize (K o sz Hin (off + i - o) ltac:(lia)).
    replace (o + (off + i - o)) with (off + i) in K by lia. rewrite K. discriminate.
  - rewrite A; [apply Ha, Hi|]. intros [o sz] Hin [H1 H2]. cbn [fst snd] in *.
    rewrite <- not_true_iff_false in E. apply E. apply existsb_exists. exists (o, sz). split; [exact Hin|].
    cbn. apply N.leb_le in H1. apply N.ltb_lt in H2. rewrite H1, H2. reflexivity.
Qed.

Lemma destroy_spec t b off : good t -> live t b off ->
  exists b', destroy t b off = Ok b' /\ agree_out b b' off (msize t) /\ alloc b' off (msize t) /\
    (tight t b off -> clean b' off (msize t)).
Proof.
  intros Hg Hl. destruct (dlist_spec t Hg b off Hl) as (l & E & O & A).
  unfold destroy. rewrite E. cbn [bind]. destruct (kill_all_spec _ _ _ _ O) as (b' & E' & A' & K').
  exists b'. split; [exact E'|]. split.
  { eapply agree_slots_out; [exact A'|]. intros [o sz] Hx. destruct O as [O _]. specialize (O o sz Hx). cbn. lia. }
  split.
  { eapply slots_raw_alloc; [exact A'|exact K'|]. apply live_alloc; [apply Hg|exact Hl]. }
  intros Ht i Hi. destruct (is_object (at_ b' (off + i))) eqn:Eo; [|reflexivity].
  destruct (existsb (fun x => (fst x <=? off + i) && (off + i <? fst x + snd x)) l) eqn:Ex.
  - apply existsb_exists in Ex as ([o sz] & Hin & Hc). cbn in Hc. apply andb_true_iff in Hc as [H1 H2].
    apply N.leb_le in H1. apply N.ltb_lt in H2. specialize (K' o sz Hin (off + i - o) ltac:(lia)).
    replace (o + (off + i - o)) with (off + i) in K' by lia. rewrite K' in Eo. discriminate.
  - rewrite A' in Eo.
    + destruct (A Ht (off + i) ltac:(lia) ltac:(lia) Eo) as [sz Hin]. destruct O as [O _]. specialize (O _ _ Hin).
      exfalso. rewrite <- not_true_iff_false in Ex. apply Ex. apply existsb_exists. exists (off + i, sz).
      split; [exact Hin|]. cbn. apply andb_true_iff. split; [apply N.leb_le; lia|apply N.ltb_lt; lia].
    + intros [o sz] Hin [H1 H2]. cbn [fst snd] in *.
      rewrite <- not_true_iff_false in Ex. apply Ex. apply existsb_exists. exists (o, sz). split; [exact Hin|].
      cbn. apply N.leb_le in H1. apply N.ltb_lt in H2. rewrite H1, H2. reflexivity.
Qed.
