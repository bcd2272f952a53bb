(** Copies of live instances are live and hold the same value. *)
From Verif Require Import Base Types TypeBuild TypeSpec TyInd CompatFacts2 Layout Mem MemSpec MemEqns MemFacts ConstructFacts.

Definition cp (t : ty) (b : block) (off : N) (d : block) (doff : N) (r : res block) : Prop :=
  exists d', r = Ok d' /\ agree_out d d' doff (msize t) /\ live t d' doff /\ read t d' doff = read t b off.

Lemma constructed_prim t : is_constructed_type t = false -> exists p, t = TPrim p.
Proof. destruct t; try (intros H; discriminate H); [eauto|]. destruct k; intros H; discriminate H. Qed.
Lemma prim_not_constructed p : is_constructed_type (TPrim p) = false.
Proof. destruct p; reflexivity. Qed.
Lemma skind_eqb_refl k : skind_eqb k k = true.
Proof. destruct k; reflexivity. Qed.

(** contiguous scalar slots are contiguous bytes *)
Lemma slots_bytes b base k n : (forall i, i < n -> bytes_at b (base + i * k) k) -> bytes_at b base (n * k).
Proof.
  intros H i Hi. assert (Hk : 0 < k) by nia.
  pose proof (N.div_mod i k ltac:(lia)) as E. pose proof (N.mod_lt i k ltac:(lia)) as E2.
  assert (Hq : i / k < n) by (apply N.div_lt_upper_bound; lia).
  specialize (H _ Hq (i mod k) E2). replace (base + i / k * k + i mod k) with (base + i) in H by lia. exact H.
Qed.
Lemma memcpy_copy t d doff b off : good t -> (live t b off -> bytes_at b off (msize t)) ->
  live t b off -> alloc d doff (msize t) -> cp t b off d doff (memcpy d doff b off (msize t)).
Proof.
  intros Hg Hb Hl Ha. destruct (memcpy_spec d doff b off _ (Hb Hl) Ha) as (d' & H1 & H2 & H3).
  exists d'. split; [exact H1|]. split; [exact H2|].
  split; [eapply live_local; eassumption|apply read_local; assumption].
Qed.
Lemma collect_read_eq n i f g : (forall j, i <= j -> j < i + N.of_nat n -> f j = g j) -> collect n i f = collect n i g.
Proof. apply collect_ext. Qed.

(** copying the used slots of a buffer over default-constructed ones *)
Lemma copy_content_spec T cap size m (el : N -> block -> N -> res block) (deep : bool) m0 :
  good T -> msize T < 4294967296 -> cap * msize T < 4294967296 -> size <= cap ->
  (forall i, i < cap -> live T m (i * msize T)) ->
  (forall off d doff, live T m off -> alloc d doff (msize T) -> cp T m off d doff (el off d doff)) ->
  (deep = false -> forall off, live T m off -> bytes_at m off (msize T)) ->
  (forall i, i < cap -> live T m0 (i * msize T)) ->
  exists m1, (if deep then for_up size (fun i d => el (i * msize T) d (wrap32 (i * wrap32 (msize T)))) m0
              else memcpy m0 0 m 0 (wrap32 (size * wrap32 (msize T)))) = Ok m1 /\
    (forall i, i < cap -> live T m1 (i * msize T)) /\
    (forall i, i < size -> read T m1 (i * msize T) = read T m (i * msize T)).
Proof.
  intros Hg H32 Hc32 Hsz Hm Hel Hflat Hm0. rewrite (wrap32_small (msize T)) by exact H32.
  assert (Ha0 : forall i, i < cap -> alloc m0 (i * msize T) (msize T)).
  { intros i Hi. apply live_alloc; [apply Hg|]. apply Hm0, Hi. }
  assert (Hrest : forall m1 i, agree_out m0 m1 0 (size * msize T) -> size <= i -> i < cap -> live T m1 (i * msize T)).
  { intros m1 i A Hi1 Hi2. eapply live_local; [exact Hg| |apply Hm0, Hi2].
    eapply agree_out_same; [exact A|]. right. nia. }
  destruct deep.
  - destruct (for_up_slots 0 (msize T) (fun i d => el (i * msize T) d (wrap32 (i * msize T)))
       (fun i d => alloc d (i * msize T) (msize T))
       (fun i d => live T d (i * msize T) /\ read T d (i * msize T) = read T m (i * msize T)) size m0) as (m1 & H1 & H2 & H3).
    + intros i d Hi Ha. rewrite wrap32_small by nia.
      destruct (Hel (i * msize T) d (i * msize T)) as (d' & E & A & L & R); [apply Hm; lia|exact Ha|].
      exists d'. auto.
    + intros i d d' Hi S. apply alloc_same, S.
    + intros i d d' Hi S [L R]. change (0 + i * msize T) with (i * msize T) in S.
      split; [eapply live_local; [exact Hg|exact S|exact L]|].
      rewrite (read_local T _ _ _ _ Hg S). exact R.
    + intros i Hi. apply Ha0. lia.
    + exists m1. split; [exact H1|]. split; [|intros i Hi; apply H3, Hi].
      intros i Hi. destruct (i <? size) eqn:Ei; [apply N.ltb_lt in Ei; apply H3, Ei|apply N.ltb_ge in Ei].
      apply Hrest; [exact H2|exact Ei|exact Hi].
  - rewrite (wrap32_small (size * msize T)) by nia.
    destruct (memcpy_spec m0 0 m 0 (size * msize T)) as (m1 & H1 & H2 & H3).
    + apply slots_bytes. intros i Hi. apply Hflat; [reflexivity|]. apply Hm. lia.
    + intros i Hi. assert (Hk : 0 < msize T) by nia.
      pose proof (N.div_mod i (msize T) ltac:(lia)) as E. pose proof (N.mod_lt i (msize T) ltac:(lia)) as E2.
      assert (Hq : i / msize T < size) by (apply N.div_lt_upper_bound; lia).
      specialize (Ha0 (i / msize T) ltac:(lia) (i mod msize T) E2).
      replace (i / msize T * msize T + i mod msize T) with (0 + i) in Ha0 by lia. exact Ha0.
    + assert (S : forall i, i < size -> same m (i * msize T) m1 (i * msize T) (msize T)).
      { intros i Hi. apply (same_sub _ _ _ _ _ (i * msize T) (msize T) H3). nia. }
      exists m1. split; [exact H1|]. split.
      * intros i Hi. destruct (i <? size) eqn:Ei; [apply N.ltb_lt in Ei|apply N.ltb_ge in Ei].
        -- eapply live_local; [exact Hg|apply S, Ei|]. apply Hm, Hi.
        -- apply Hrest; [exact H2|exact Ei|exact Hi].
      * intros i Hi. apply read_local; [exact Hg|]. apply S, Hi.
Qed.

Lemma seq_min_size_self cap size : size <= cap -> cap <> 0 -> seq_min_size cap cap size size = size.
Proof.
  intros H Hc. unfold seq_min_size. rewrite N.min_id.
  destruct (cap =? 0) eqn:E; [apply N.eqb_eq in E; lia|]. rewrite E.
  rewrite (N.min_r cap size) by lia. destruct (size =? 0); [reflexivity|]. apply N.min_id.
Qed.
Lemma construct_live t : good t -> forall b off, alloc b off (msize t) ->
  exists b', construct t b off = Ok b' /\ agree_out b b' off (msize t) /\ live t b' off.
Proof. intros Hg b off Ha. destruct (construct_spec t Hg b off Ha) as (b' & H1 & H2 & H3 & _). eauto. Qed.
Lemma init_memory_live T n : good T -> msize T < 4294967296 -> n * msize T < 4294967296 ->
  exists m, init_memory (construct T) (wrap32 (msize T)) n = Ok m /\
    (forall i, i < n -> live T m (i * msize T)).
Proof.
  intros Hg H1 H2. rewrite (wrap32_small _ H1).
  destruct (init_memory_spec (msize T) n (fun b o => live T b o) (construct T) (msize T)) as (m & M1 & M2 & M3).
  - apply construct_live, Hg.
  - intros b off b' S. apply live_local; assumption.
  - reflexivity.
  - exact H1.
  - exact H2.
  - eauto.
Qed.

Lemma seq_copy_spec c cap size m el :
  good c -> msize c < 4294967296 -> cap * msize c < 4294967296 -> size <= cap ->
  (forall i, i < cap -> live c m (i * msize c)) ->
  (forall off d doff, live c m off -> alloc d doff (msize c) -> cp c m off d doff (el off d doff)) ->
  exists m', seq_construct_copy el c c cap size cap size m = Ok (cap, size, m') /\
    (forall i, i < cap -> live c m' (i * msize c)) /\
    (forall i, i < size -> read c m' (i * msize c) = read c m (i * msize c)).
Proof.
  intros Hg H32 Hc32 Hsz Hm Hel. unfold seq_construct_copy.
  destruct (init_memory_live c cap Hg H32 Hc32) as (m0 & E0 & L0). rewrite E0. cbn [bind].
  destruct (cap =? 0) eqn:Ec.
  - apply N.eqb_eq in Ec. subst cap. exists m0. split; [reflexivity|]. split; [exact L0|intros i Hi; lia].
  - apply N.eqb_neq in Ec. rewrite (seq_min_size_self cap size Hsz Ec).
    destruct (copy_content_spec c cap size m el (is_constructed_type c || negb (wrap32 (msize c) =? msize c)) m0) as (m1 & H1 & H2 & H3); try assumption.
    + intros Hd off Hl. apply orb_false_iff in Hd as [Hd _]. destruct (constructed_prim _ Hd) as [p ->]. exact Hl.
    + rewrite H1. cbn [bind]. exists m1. auto.
Qed.
Lemma map_copy_spec k v cap size m el :
  let T := TPair k v in
  good T -> msize T < 4294967296 -> cap * msize T < 4294967296 -> size <= cap ->
  (forall i, i < cap -> live T m (i * msize T)) ->
  (forall off d doff, live T m off -> alloc d doff (msize T) -> cp T m off d doff (el off d doff)) ->
  exists m', map_construct_copy el k v cap size cap size m = Ok (cap, size, m') /\
    (forall i, i < cap -> live T m' (i * msize T)) /\
    (forall i, i < size -> read T m' (i * msize T) = read T m (i * msize T)).
Proof.
  intros T Hg H32 Hc32 Hsz Hm Hel. unfold map_construct_copy.
  destruct (init_memory_live T cap Hg H32 Hc32) as (m0 & E0 & L0). fold T. rewrite E0. cbn [bind].
  destruct (cap =? 0) eqn:Ec.
  - apply N.eqb_eq in Ec. subst cap. exists m0. split; [reflexivity|]. split; [exact L0|intros i Hi; lia].
  - apply N.eqb_neq in Ec. rewrite (seq_min_size_self cap size Hsz Ec).
    destruct (copy_content_spec T cap size m el (is_constructed_type k || is_constructed_type v) m0) as (m1 & H1 & H2 & H3); try assumption.
    + intros Hd off Hl. apply orb_false_iff in Hd as [Hd1 Hd2].
      destruct (constructed_prim _ Hd1) as [p ->]. destruct (constructed_prim _ Hd2) as [q ->].
      destruct Hl as [L1 L2]. cbn [live msize T] in *. intros i Hi.
      destruct (i <? prim_size p) eqn:Ei; [apply N.ltb_lt in Ei; apply L1, Ei|apply N.ltb_ge in Ei].
      specialize (L2 (i - prim_size p) ltac:(lia)).
      replace (off + prim_size p + (i - prim_size p)) with (off + i) in L2 by lia. exact L2.
    + rewrite H1. cbn [bind]. exists m1. auto.
Qed.

(** the value of a map only depends on its used slots *)
Lemma read_seq_obj c bd b off cap size m : obj_at b off SZ_SEQ (CSeq c cap size m) ->
  read (TSeq c bd) b off = do l <- collect (N.to_nat size) 0 (fun i => read c m (i * msize c)); Ok (VNode l).
Proof. intros [H1 H2]. cbn [read]. rewrite H1, H2. reflexivity. Qed.
Lemma read_map_obj k v bd b off cap size m : obj_at b off SZ_MAP (CMap k v cap size m) ->
  read (TMap k v bd) b off =
  do l <- collect (N.to_nat size) 0 (fun i => read (TPair k v) m (i * msize (TPair k v))); Ok (VNode l).
Proof. intros [H1 H2]. cbn [read]. rewrite H1, H2. reflexivity. Qed.

Lemma list_trunc_id {A} bd (s : list A) : bd = 0 \/ N.of_nat (List.length s) <= bd -> list_trunc bd s = s.
Proof.
  intros H. unfold list_trunc. destruct (bd =? 0) eqn:E; [reflexivity|]. apply N.eqb_neq in E.
  apply firstn_all2. lia.
Qed.

Section Copy.
  Variable fc : prim -> prim -> list N -> list N.

  Lemma copy_str_spec k bd b off d doff : live (TStr k bd) b off -> alloc d doff SZ_STRING ->
    cp (TStr k bd) b off d doff (copy_str k bd b off d doff).
  Proof.
    cbn [live]. intros (s & [Ho Hi] & Hb) Ha. unfold copy_str. rewrite Ho, Hi, skind_eqb_refl. cbn [andb].
    rewrite (list_trunc_id _ _ Hb).
    destruct (put_obj_spec d doff SZ_STRING (CStr k s) ltac:(reflexivity) Ha) as (d' & H1 & H2 & [H3 H4]).
    exists d'. split; [exact H1|]. split; [exact H2|]. split.
    - cbn [live]. exists s. split; [split; assumption|exact Hb].
    - cbn [read]. rewrite H3, H4, Ho, Hi. reflexivity.
  Qed.

  Definition el_spec (T : ty) : Prop := forall b off d doff, live T b off -> alloc d doff (msize T) ->
    cp T b off d doff (copy_from fc b T T off d doff).

  Lemma copy_seq_spec c bd b off d doff : good (TSeq c bd) -> el_spec c ->
    live (TSeq c bd) b off -> alloc d doff SZ_SEQ -> cp (TSeq c bd) b off d doff (copy_seq fc b off d doff).
  Proof.
    intros Hg He Hl Ha. cbn [live] in Hl. destruct Hl as (cap & size & m & Ho & Hsz & Hb & H32 & H31 & Hm).
    pose proof (good_seq _ _ Hg) as Hgc. destruct Hg as [_ (_ & Hm32 & _)].
    unfold copy_seq. destruct Ho as [Ho Hi]. rewrite Ho, Hi.
    destruct (seq_copy_spec c cap size m (copy_from fc m c c)) as (m' & E & L & R); try assumption.
    { intros o d0 do_. apply He. }
    rewrite E. cbn [bind].
    destruct (put_obj_spec d doff SZ_SEQ (CSeq c cap size m') ltac:(reflexivity) Ha) as (d' & H1 & H2 & H3).
    exists d'. split; [exact H1|]. split; [exact H2|]. split.
    - cbn [live]. exists cap, size, m'. repeat (split; [assumption|]). exact L.
    - rewrite (read_seq_obj c bd d' doff cap size m' H3), (read_seq_obj c bd b off cap size m (conj Ho Hi)).
      f_equal. apply collect_ext. intros j _ Hj. apply R. lia.
  Qed.
  Lemma copy_map_spec k v bd b off d doff : good (TMap k v bd) -> el_spec (TPair k v) ->
    live (TMap k v bd) b off -> alloc d doff SZ_MAP -> cp (TMap k v bd) b off d doff (copy_map fc b off d doff).
  Proof.
    intros Hg He Hl Ha. cbn [live] in Hl. destruct Hl as (cap & size & m & Ho & Hsz & Hb & H32 & H31 & Hm).
    pose proof (good_map _ _ _ Hg) as Hgc. apply good_pair_iff in Hgc. destruct Hg as [_ (_ & _ & Hm32 & _)].
    unfold copy_map. destruct Ho as [Ho Hi]. rewrite Ho, Hi.
    destruct (map_copy_spec k v cap size m (copy_from fc m (TPair k v) (TPair k v))) as (m' & E & L & R); try assumption.
    { intros o d0 do_. apply He. }
    rewrite E. cbn [bind].
    destruct (put_obj_spec d doff SZ_MAP (CMap k v cap size m') ltac:(reflexivity) Ha) as (d' & H1 & H2 & H3).
    exists d'. split; [exact H1|]. split; [exact H2|]. split.
    - cbn [live]. exists cap, size, m'. repeat (split; [assumption|]). exact L.
    - rewrite (read_map_obj k v bd d' doff cap size m' H3), (read_map_obj k v bd b off cap size m (conj Ho Hi)).
      f_equal. apply collect_ext. intros j _ Hj. apply R. lia.
  Qed.

  (** sequential composition of two halves *)
  Lemma cp_pair x y b off d doff (f1 : block -> res block) (f2 : block -> res block) :
    good x -> good y ->
    (forall d, alloc d doff (msize x) -> cp x b off d doff (f1 d)) ->
    (forall d, alloc d (doff + msize x) (msize y) -> cp y b (off + msize x) d (doff + msize x) (f2 d)) ->
    alloc d doff (msize x + msize y) ->
    cp (TPair x y) b off d doff (do d1 <- f1 d; f2 d1).
  Proof.
    intros Hgx Hgy H1 H2 Ha.
    destruct (H1 d) as (d1 & E1 & A1 & L1 & R1); [intros i Hi; apply Ha; lia|].
    destruct (H2 d1) as (d2 & E2 & A2 & L2 & R2).
    { eapply alloc_same; [eapply agree_out_same; [exact A1|right; lia]|]. eapply alloc_sub; [exact Ha|lia]. }
    exists d2. rewrite E1. cbn [bind]. split; [exact E2|].
    split; [cbn [msize]; eapply agree_out_trans; [exact A1|exact A2|lia|lia|lia|lia]|].
    assert (S : same d1 doff d2 doff (msize x)) by (eapply agree_out_same; [exact A2|left; lia]).
    split; cbn [live read].
    - split; [eapply live_local; eassumption|exact L2].
    - rewrite (read_local x _ _ _ _ Hgx S), R1, R2. reflexivity.
  Qed.
  Lemma cp_struct nm s ms b off d doff (f : member -> block -> res block) :
    good (TStruct nm s ms) ->
    (forall m d, In m ms -> alloc d (doff + m_off m) (msize (m_type m)) ->
       cp (m_type m) b (off + m_off m) d (doff + m_off m) (f m d)) ->
    alloc d doff s -> cp (TStruct nm s ms) b off d doff (mfold f ms d).
  Proof.
    intros Hg Hf Ha. pose proof Hg as [Hw _]. apply wf_struct_iff in Hw as (Hlo & Hs & _ & _).
    assert (Hrange : forall m, In m ms -> m_off m + msize (m_type m) <= s).
    { intros m Hm. pose proof (laid_out_in _ _ _ Hlo Hm). lia. }
    destruct (fold_slots' (fun m => doff + m_off m) (fun m => msize (m_type m)) f
               (fun m d => alloc d (doff + m_off m) (msize (m_type m)))
               (fun m d => live (m_type m) d (doff + m_off m) /\
                           read (m_type m) d (doff + m_off m) = read (m_type m) b (off + m_off m))
               ms d) as (d' & H1 & H2 & H3).
    - eapply laid_out_slots, Hlo.
    - intros m d0 Hm Hal. destruct (Hf m d0 Hm Hal) as (d' & E & A & L & R). eauto.
    - intros m d0 d' Hm. apply alloc_same.
    - intros m d0 d' Hm S [L R]. pose proof (good_struct _ _ _ _ Hg Hm) as Hgm.
      split; [eapply live_local; eassumption|]. rewrite (read_local _ _ _ _ _ Hgm S). exact R.
    - intros m Hm. eapply alloc_sub; [exact Ha|apply Hrange, Hm].
    - exists d'. split; [exact H1|]. split.
      { eapply agree_slots_out; [exact H2|]. intros m Hm. specialize (Hrange m Hm). cbn [msize]. lia. }
      split.
      + rewrite live_struct, Forall_forall. intros m Hm. apply H3, Hm.
      + rewrite !read_struct. f_equal. apply mmap_ext. intros m Hm. apply H3, Hm.
  Qed.
  (** discriminator first, then the member it selects *)
  Lemma cp_union nm s dn disc cs labels dv iv df b off d doff (f1 : block -> res block) (f2 : Z -> block -> res block) :
    let ms := (dn, 0, disc) :: cs in let t := TUnion nm s ms labels dv iv df in
    good t -> live t b off -> alloc d doff s ->
    (forall d, alloc d doff (msize disc) -> cp disc b off d doff (f1 d)) ->
    (forall l d, get_label disc b off = Ok l -> get_label disc d doff = Ok l ->
       match lookup_label l labels with
       | None => f2 l d = Ok d
       | Some x => forall m, find_member x ms = Some m -> live (m_type m) b (off + m_off m) ->
                     alloc d (doff + m_off m) (msize (m_type m)) ->
                     cp (m_type m) b (off + m_off m) d (doff + m_off m) (f2 l d)
       end) ->
    cp t b off d doff (do d1 <- f1 d; do l <- get_label disc d1 doff; f2 l d1) /\
    cp t b off d doff (do d1 <- f1 d; do l <- get_label disc b off; f2 l d1).
  Proof.
    intros ms t Hg Hl Ha H1 H2.
    destruct (good_union_inv _ _ _ _ _ _ _ Hg) as (dn' & disc' & cs' & Ems & Hgd & Hc & Hlw & Hiv & Hoff & Hs & _ & _ & _).
    inversion Ems; subst dn' disc' cs'. clear Ems.
    unfold t in Hl. rewrite live_union in Hl. destruct Hl as (Hba & dn' & do' & disc' & cs' & Ems & Hld & l & Hgl & Hmem).
    inversion Ems; subst dn' do' disc' cs'. clear Ems.
    destruct (H1 d) as (d1 & E1 & A1 & L1 & R1); [intros i Hi; apply Ha; lia|].
    assert (Hgl1 : get_label disc d1 doff = Ok l).
    { rewrite (read_disc _ _ _ Hc), (read_disc _ _ _ Hc) in R1.
      unfold get_label in *. rewrite Hlw in *.
      destruct (read_bytes b off (msize disc)) as [bs|] eqn:Eb; [|discriminate Hgl].
      destruct (read_bytes d1 doff (msize disc)) as [bs'|]; [|discriminate R1].
      cbn [bind] in *. congruence. }
    assert (Ha1 : alloc d1 doff s).
    { intros i Hi. destruct (i <? msize disc) eqn:Ei; [apply N.ltb_lt in Ei|apply N.ltb_ge in Ei].
      - apply (live_alloc _ (proj1 Hgd) _ _ L1 i Ei).
      - rewrite A1 by lia. apply Ha, Hi. }
    assert (G : cp t b off d doff (f2 l d1)).
    { specialize (H2 l d1 Hgl Hgl1). destruct (lookup_label l labels) as [x|] eqn:Ex.
      - destruct (union_case _ _ _ _ _ _ _ _ _ Hg Ex) as (dn' & disc' & cs' & m & E' & Hf & Hin & Hmo & Hmr).
        inversion E'; subst dn' disc' cs'. clear E'.
        unfold with_member in Hmem. rewrite Hf in Hmem.
        assert (Hgm : good (m_type m)) by (eapply good_union; [exact Hg|right; exact Hin]).
        destruct (H2 m Hf Hmem) as (d2 & E2 & A2 & L2 & R2); [eapply alloc_sub; [exact Ha1|exact Hmr]|].
        assert (Sd : same d1 doff d2 doff (msize disc)) by (eapply agree_out_same; [exact A2|left; lia]).
        exists d2. split; [exact E2|]. cbn [msize t].
        split; [eapply agree_out_trans; [exact A1|exact A2|lia|lia|lia|lia]|].
        assert (Hgl2 : get_label disc d2 doff = Ok l).
        { rewrite (get_label_same disc d1 doff d2 doff); [exact Hgl1|rewrite Hlw; exact Sd]. }
        split.
        + unfold t. rewrite live_union. split.
          { intros i Hi. destruct (i <? msize disc) eqn:Ei; [apply N.ltb_lt in Ei|apply N.ltb_ge in Ei].
            - rewrite (Sd i Ei). apply Ha1. lia.
            - destruct (i <? msize disc + msize (m_type m)) eqn:Ej; [apply N.ltb_lt in Ej|apply N.ltb_ge in Ej].
              + pose proof (live_alloc _ (proj1 Hgm) _ _ L2 (i - m_off m) ltac:(lia)) as G.
                replace (doff + m_off m + (i - m_off m)) with (doff + i) in G by lia. exact G.
              + rewrite A2 by lia. apply Ha1, Hi. }
          exists dn, 0, disc, cs. split; [reflexivity|]. split; [eapply live_local; eassumption|].
          exists l. split; [exact Hgl2|]. rewrite Ex. unfold with_member. fold ms. rewrite Hf. exact L2.
        + unfold t, ms. rewrite !read_union. fold ms. rewrite (read_local disc _ _ _ _ Hgd Sd), R1, Hgl2, Hgl.
          destruct (read disc b off) as [vd|]; [|reflexivity]. cbn [bind]. rewrite Ex.
          unfold with_member. rewrite Hf, R2. reflexivity.
      - exists d1. split; [exact H2|]. cbn [msize t].
        split; [eapply agree_out_weaken; [exact A1|lia|lia]|]. split.
        + unfold t. rewrite live_union. split; [exact Ha1|]. exists dn, 0, disc, cs. split; [reflexivity|].
          split; [exact L1|]. exists l. split; [exact Hgl1|]. rewrite Ex. exact I.
        + unfold t, ms. rewrite !read_union. rewrite R1, Hgl1, Hgl.
          destruct (read disc b off) as [vd|]; [|reflexivity]. cbn [bind]. rewrite Ex. reflexivity. }
    rewrite E1. cbn [bind]. rewrite Hgl1, Hgl. cbn [bind]. split; exact G.
  Qed.

  Lemma prim_eqb_refl p : prim_eqb p p = true.
  Proof. destruct p; reflexivity. Qed.
  Lemma bytes_rw_spec b off d doff n : bytes_at b off n -> alloc d doff n ->
    exists d', (do bs <- read_bytes b off n; write_bytes d doff bs) = Ok d' /\
      agree_out d d' doff n /\ same b off d' doff n.
  Proof. exact (memcpy_spec d doff b off n). Qed.
  Lemma copy_prim_self p o b off d doff : strip1 o = TPrim p ->
    bytes_at b off (prim_size p) -> alloc d doff (prim_size p) ->
    exists d', copy_prim_from fc p b o off d doff = Ok d' /\ agree_out d d' doff (prim_size p) /\
      same b off d' doff (prim_size p).
  Proof.
    intros Ho Hb Ha. destruct (bytes_rw_spec b off d doff _ Hb Ha) as (d' & H1 & H2 & H3).
    exists d'. split; [|split; assumption]. unfold copy_prim_from. rewrite Ho.
    unfold convert. rewrite prim_eqb_refl. exact H1.
  Qed.

  Definition cf_spec (t : ty) : Prop := forall o b off d doff,
    rget o = rget t -> (is_union (rget t) = true -> o = t) ->
    live t b off -> alloc d doff (msize t) -> cp t b off d doff (copy_from fc b t o off d doff).
  Lemma cf_spec_self t : cf_spec t -> el_spec t.
  Proof. intros H b off d doff. apply H; auto. Qed.
  Lemma cf_spec_pair x y : good x -> good y -> cf_spec x -> cf_spec y -> cf_spec (TPair x y).
  Proof.
    intros Hgx Hgy IHx IHy o b off d doff Ho _ Hl Ha.
    rewrite copy_from_pair, strip1_rget, Ho. cbn [rget strip1]. cbn [live] in Hl. destruct Hl as [L1 L2].
    apply (cp_pair x y b off d doff (fun d => copy_from fc b x x off d doff)
             (fun d1 => copy_from fc b y y (off + msize x) d1 (doff + msize x))); try assumption.
    - intros d0 Ha0. apply IHx; auto.
    - intros d0 Ha0. apply IHy; auto.
  Qed.

  Lemma cf_members_self b off doff ms d :
    cf_members fc b off doff ms ms false d =
    mfold (fun m d => copy_from fc b (m_type m) (m_type m) (off + m_off m) d (doff + m_off m)) ms d.
  Proof.
    revert d. induction ms as [|m r IH]; intros d; [reflexivity|]. cbn [cf_members mfold].
    destruct (copy_from _ _ _ _ _ _ _); cbn [bind]; [apply IH|reflexivity].
  Qed.

  Lemma copy_from_self t : good t -> cf_ok t -> cf_spec t.
  Proof.
    induction t as [p|nm sz vals|k bd|nm c n IHc|c bd IHc|k v bd IHk IHv|x y IHx IHy|nm s ms IHms|nm s ms labels dv iv df IHms|nm a IHa]
      using ty_ind'; intros Hg Hcf o b off d doff Ho Hu Hl Ha.
    - rewrite copy_from_prim. cbn [msize live] in *.
      destruct (copy_prim_self p o b off d doff) as (d' & H1 & H2 & H3); [rewrite strip1_rget, Ho; reflexivity|assumption..|].
      exists d'. split; [exact H1|]. split; [exact H2|].
      split; [eapply (live_local (TPrim p)); eassumption|apply (read_local (TPrim p)); assumption].
    - rewrite copy_from_enum. cbn [cf_ok] in Hcf. subst sz. cbn [enum_prim N.eqb Pos.eqb].
      unfold copy_prim_from. rewrite strip1_rget, Ho. cbn [strip1 rget].
      destruct (bytes_rw_spec b off d doff 4 Hl Ha) as (d' & H1 & H2 & H3).
      exists d'. split; [exact H1|]. split; [exact H2|].
      split; [eapply (live_local (TEnum nm 4 vals)); eassumption|apply (read_local (TEnum nm 4 vals)); assumption].
    - rewrite copy_from_str, strip1_rget, Ho. cbn [strip1 rget]. rewrite skind_eqb_refl.
      apply copy_str_spec; assumption.
    - rewrite copy_from_arr, strip1_rget, Ho. cbn [strip1 rget]. rewrite N.min_id, N.eqb_refl. cbn [negb].
      rewrite orb_false_r. pose proof (good_arr _ _ _ Hg) as Hgc. cbn [cf_ok] in Hcf.
      cbn [msize] in Ha. cbn [live] in Hl.
      destruct (is_constructed_type c) eqn:Ec.
      + destruct (for_up_slots doff (msize c) (fun i d => copy_from fc b c c (off + i * msize c) d (doff + i * msize c))
                    (fun i d => alloc d (doff + i * msize c) (msize c))
                    (fun i d => live c d (doff + i * msize c) /\ read c d (doff + i * msize c) = read c b (off + i * msize c))
                    n d) as (d' & H1 & H2 & H3).
        * intros i d0 Hi Ha0. destruct (IHc Hgc Hcf c b (off + i * msize c) d0 (doff + i * msize c)) as (d' & E & A & L & R); auto.
          exists d'. auto.
        * intros i d0 d' Hi. apply alloc_same.
        * intros i d0 d' Hi S [L R]. split; [eapply live_local; eassumption|].
          rewrite (read_local c _ _ _ _ Hgc S). exact R.
        * intros i Hi. eapply alloc_sub; [exact Ha|nia].
        * exists d'. split; [exact H1|]. split; [exact H2|]. split.
          -- cbn [live]. intros i Hi. apply H3, Hi.
          -- cbn [read]. f_equal. apply collect_ext. intros j _ Hj. apply H3. lia.
      + destruct (constructed_prim _ Ec) as [p ->].
        apply (memcpy_copy (TArr nm (TPrim p) n)); try assumption.
        intros _. cbn [msize]. apply slots_bytes. exact Hl.
    - rewrite copy_from_seq, strip1_rget, Ho. cbn [strip1 rget].
      assert (E : forall r, copy_seq fc b off d doff = r ->
                 match at_ b off with
                 | CSeq c' ocap osize m =>
                     if intact b off SZ_SEQ then
                       do r <- seq_construct_copy (copy_from fc m c c')
                                 c c' (bound_min ocap bd) (bound_min osize bd) ocap osize m;
                       let '(cap, size, m') := r in
                       put_obj d doff SZ_SEQ (CSeq c cap size m')
                     else Fail UB
                 | _ => Fail UB
                 end = r).
      { intros r <-. cbn [live] in Hl. destruct Hl as (cap & size & m & [Ho1 Ho2] & Hsz & Hb & _).
        unfold copy_seq. rewrite Ho1, Ho2. unfold bound_min.
        destruct (bd =? 0) eqn:Eb; [reflexivity|]. apply N.eqb_neq in Eb.
        rewrite (N.min_l cap bd) by lia. rewrite (N.min_l size bd) by lia. reflexivity. }
      rewrite (E _ eq_refl). apply copy_seq_spec; try assumption.
      apply cf_spec_self, IHc; [eapply good_seq, Hg|exact Hcf].
    - rewrite copy_from_map, strip1_rget, Ho. cbn [strip1 rget]. rewrite String.eqb_refl.
      pose proof (good_map _ _ _ Hg) as [Hgk Hgv]. destruct Hcf as [Hck Hcv].
      assert (E : forall r, copy_map fc b off d doff = r ->
          match at_ b off with
          | CMap k' v' ocap osize m =>
              if intact b off SZ_MAP then
                do r <- map_construct_copy (copy_from fc m (TPair k' v') (TPair k' v'))
                          k' v' (bound_min ocap bd) (bound_min osize bd) ocap osize m;
                let '(cap, size, m') := r in
                put_obj d doff SZ_MAP (CMap k' v' cap size m')
              else Fail UB
          | _ => Fail UB
          end = r).
      { intros r <-. cbn [live] in Hl. destruct Hl as (cap & size & m & [Ho1 Ho2] & Hsz & Hb & _).
        unfold copy_map. rewrite Ho1, Ho2. unfold bound_min.
        destruct (bd =? 0) eqn:Eb; [reflexivity|]. apply N.eqb_neq in Eb.
        rewrite (N.min_l cap bd) by lia. rewrite (N.min_l size bd) by lia. reflexivity. }
      rewrite (E _ eq_refl). apply copy_map_spec; try assumption.
      apply cf_spec_self, cf_spec_pair; auto.
    - pose proof (good_pair _ _ Hg) as [Hgx Hgy]. destruct Hcf as [Hcx Hcy].
      apply (cf_spec_pair x y Hgx Hgy (IHx Hgx Hcx) (IHy Hgy Hcy)); assumption.
    - rewrite Forall_forall in IHms. apply cf_struct in Hcf. unfold all_members in Hcf. rewrite Forall_forall in Hcf.
      rewrite copy_from_struct, Ho. cbn [rget].
      assert (G : cp (TStruct nm s ms) b off d doff (cf_members fc b off doff ms ms false d)).
      { rewrite cf_members_self. apply cp_struct; [exact Hg| |exact Ha].
        intros m d0 Hm Ha0. apply IHms; auto.
        - eapply good_struct; eassumption.
        - rewrite live_struct, Forall_forall in Hl. apply Hl, Hm. }
      destruct ms as [|m1 [|m2 r]]; exact G.
    - rewrite Forall_forall in IHms. apply cf_union in Hcf. unfold all_members in Hcf. rewrite Forall_forall in Hcf.
      rewrite (Hu eq_refl). rewrite copy_from_union.
      destruct (good_union_inv _ _ _ _ _ _ _ Hg) as (dn & disc & cs & -> & Hgd & Hc & Hlw & Hiv & Hoff & Hs & _).
      apply (cp_union nm s dn disc cs labels dv iv df b off d doff (fun d => copy_from fc b disc disc off d doff)
              (fun l d1 => match lookup_label l labels with
                 | None => Ok d1
                 | Some nm => with_member nm ((dn, 0, disc) :: cs) (Fail Assert)
                     (fun m => copy_from fc b (m_type m) (m_type m) (off + m_off m) d1 (doff + m_off m))
                 end)); try assumption.
      + intros d0 Ha0. pose proof (IHms _ (or_introl eq_refl) Hgd (Hcf _ (or_introl eq_refl))) as IH.
        cbn [m_type snd] in IH. apply IH; auto.
        rewrite live_union in Hl. destruct Hl as (_ & ? & ? & ? & ? & E & Hd & _). inversion E; subst. exact Hd.
      + intros l d0 _ _. destruct (lookup_label l labels) as [x|] eqn:Ex; [|reflexivity].
        intros m Hf Hlm Ham. unfold with_member. rewrite Hf.
        apply find_member_in in Hf as [Hin _]. apply IHms; auto.
        eapply good_union; eassumption.
    - rewrite copy_from_alias. cbn [rget msize live] in *. destruct Hcf as [Hnu Hcf].
      pose proof (good_alias _ _ Hg) as Hga.
      destruct (IHa Hga Hcf o b off d doff Ho) as (d' & H); [congruence|assumption..|].
      exists d'. exact H.
  Qed.

  (** ** copy_instance *)
  Lemma copy_spec t : good t -> copy_ok t -> forall b off d doff,
    live t b off -> selected t b off -> alloc d doff (msize t) ->
    cp t b off d doff (copy fc t b off d doff).
  Proof.
    induction t as [p|nm sz vals|k bd|nm c n IHc|c bd IHc|k v bd IHk IHv|x y IHx IHy|nm s ms IHms|nm s ms labels dv iv df IHms|nm a IHa]
      using ty_ind'; intros Hg Hcf b off d doff Hl Hsel Ha.
    - apply (memcpy_copy (TPrim p)); auto.
    - apply (memcpy_copy (TEnum nm sz vals)); auto.
    - apply copy_str_spec; assumption.
    - cbn [copy]. pose proof (good_arr _ _ _ Hg) as Hgc. cbn [copy_ok] in Hcf.
      cbn [msize] in Ha. cbn [live selected] in Hl, Hsel.
      destruct (is_constructed_type c) eqn:Ec.
      + destruct (for_up_slots doff (msize c) (fun i d => copy fc c b (off + i * msize c) d (doff + i * msize c))
                    (fun i d => alloc d (doff + i * msize c) (msize c))
                    (fun i d => live c d (doff + i * msize c) /\ read c d (doff + i * msize c) = read c b (off + i * msize c))
                    n d) as (d' & H1 & H2 & H3).
        * intros i d0 Hi Ha0. destruct (IHc Hgc Hcf b (off + i * msize c) d0 (doff + i * msize c)) as (d' & E & A & L & R); auto.
          exists d'. auto.
        * intros i d0 d' Hi. apply alloc_same.
        * intros i d0 d' Hi S [L R]. split; [eapply live_local; eassumption|].
          rewrite (read_local c _ _ _ _ Hgc S). exact R.
        * intros i Hi. eapply alloc_sub; [exact Ha|nia].
        * exists d'. split; [exact H1|]. split; [exact H2|]. split.
          -- cbn [live]. intros i Hi. apply H3, Hi.
          -- cbn [read]. f_equal. apply collect_ext. intros j _ Hj. apply H3. lia.
      + destruct (constructed_prim _ Ec) as [p ->].
        apply (memcpy_copy (TArr nm (TPrim p) n)); try assumption.
        intros _. cbn [msize]. apply slots_bytes. exact Hl.
    - cbn [copy copy_ok] in *. apply copy_seq_spec; try assumption.
      apply cf_spec_self, copy_from_self; [eapply good_seq, Hg|exact Hcf].
    - cbn [copy copy_ok] in *. pose proof (good_map _ _ _ Hg) as [Hgk Hgv]. destruct Hcf as [Hck Hcv].
      apply copy_map_spec; try assumption.
      apply cf_spec_self, cf_spec_pair; try assumption; apply copy_from_self; assumption.
    - pose proof (good_pair _ _ Hg) as [Hgx Hgy]. destruct Hcf as [Hcx Hcy]. cbn [copy live selected] in *.
      apply (cp_pair x y b off d doff (fun d => copy fc x b off d doff)
             (fun d1 => copy fc y b (off + msize x) d1 (doff + msize x))); try assumption.
      + intros d0 Ha0. apply IHx; tauto.
      + intros d0 Ha0. apply IHy; tauto.
    - rewrite Forall_forall in IHms. apply copy_ok_struct in Hcf. unfold all_members in Hcf. rewrite Forall_forall in Hcf.
      rewrite copy_struct. apply cp_struct; [exact Hg| |exact Ha].
      rewrite live_struct, Forall_forall in Hl. rewrite selected_struct, Forall_forall in Hsel.
      intros m d0 Hm Ha0. apply IHms; auto. eapply good_struct; eassumption.
    - rewrite Forall_forall in IHms. apply copy_ok_union in Hcf. unfold all_members in Hcf. rewrite Forall_forall in Hcf.
      rewrite copy_union.
      destruct (good_union_inv _ _ _ _ _ _ _ Hg) as (dn & disc & cs & -> & Hgd & Hc & Hlw & Hiv & Hoff & Hs & _).
      rewrite selected_union in Hsel. destruct Hsel as (l0 & x0 & Hgl0 & Hx0 & Hsel).
      destruct (cp_union nm s dn disc cs labels dv iv df b off d doff (fun d => copy fc disc b off d doff)
              (fun l d1 => match lookup_label l labels with
                 | None => Ok d1
                 | Some nm => with_member nm ((dn, 0, disc) :: cs) (Fail Assert)
                     (fun m => copy fc (m_type m) b (off + m_off m) d1 (doff + m_off m))
                 end)) as [_ G]; try assumption.
      + intros d0 Ha0. pose proof (IHms _ (or_introl eq_refl) Hgd (Hcf _ (or_introl eq_refl))) as IH.
        cbn [m_type snd] in IH. apply IH; auto.
        * rewrite live_union in Hl. destruct Hl as (_ & ? & ? & ? & ? & E & Hd & _). inversion E; subst. exact Hd.
        * clear - Hc. assert (forall t, selected (rget t) b off -> selected t b off) as Hr.
          { induction t using ty_ind'; cbn [rget selected]; auto. }
          apply Hr. destruct (check_disc_cases _ Hc) as [(p & -> & _)|(? & ? & ? & ->)]; exact I.
      + intros l d0 Hgl _. destruct (lookup_label l labels) as [x|] eqn:Ex; [|reflexivity].
        intros m Hf Hlm Ham. unfold with_member. rewrite Hf.
        assert (l = l0) by congruence. subst l0. assert (x = x0) by congruence. subst x0.
        unfold with_member in Hsel. rewrite Hf in Hsel.
        apply find_member_in in Hf as [Hin _]. apply IHms; auto.
        eapply good_union; eassumption.
      + destruct (copy fc disc b off d doff) as [d1|] eqn:E1; cbn [bind] in *; [|exact G].
        rewrite Hgl0 in *. cbn [bind] in *. rewrite Hx0 in *. exact G.
    - cbn [copy live read selected msize copy_ok] in *.
      destruct (IHa (good_alias _ _ Hg) Hcf b off d doff Hl Hsel Ha) as (d' & H). exists d'. exact H.
  Qed.
End Copy.
