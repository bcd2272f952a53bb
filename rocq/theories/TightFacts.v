(** Freshly constructed instances are tight: no object outside what the type accounts for. *)
From Verif Require Import Base Types TypeBuild TypeSpec TyInd CompatFacts2 Layout Mem MemSpec MemEqns MemFacts ConstructFacts CopyFacts DestroyFacts.

Lemma clean_same b off b' off' n : same b off b' off' n -> clean b off n -> clean b' off' n.
Proof. intros H Hc i Hi. rewrite H by exact Hi. apply Hc, Hi. Qed.
Lemma clean_sub b off n o k : clean b off n -> o + k <= n -> clean b (off + o) k.
Proof. intros H Hle i Hi. rewrite <- N.add_assoc. apply H. lia. Qed.

Lemma tight_local t : good t -> forall b off b' off', same b off b' off' (msize t) ->
  tight t b off -> tight t b' off'.
Proof.
  induction t as [p|nm sz vals|k bd|nm c n IHc|c bd IHc|k v bd IHk IHv|x y IHx IHy|nm s ms IHms|nm s ms labels dv iv d IHms|nm a IHa]
    using ty_ind'; intros Hg b off b' off' H; [exact (fun x => x)|exact (fun x => x)|exact (fun x => x)| | | | | | |].
  - cbn [tight]. intros Ht i Hi. eapply IHc; [eapply good_arr, Hg| |apply Ht, Hi].
    eapply same_sub; [exact H|]. cbn [msize]. nia.
  - cbn [tight msize] in *. specialize (H 0 ltac:(reflexivity)). rewrite !N.add_0_r in H. rewrite H. exact (fun x => x).
  - cbn [tight msize] in *. specialize (H 0 ltac:(reflexivity)). rewrite !N.add_0_r in H. rewrite H. exact (fun x => x).
  - apply good_pair in Hg as [Hgx Hgy]. cbn [msize tight] in *. intros [T1 T2]. split.
    + eapply IHx; [exact Hgx| |exact T1]. pose proof (same_sub _ _ _ _ _ 0 (msize x) H ltac:(lia)) as G.
      rewrite !N.add_0_r in G. exact G.
    + eapply IHy; [exact Hgy| |exact T2]. apply (same_sub _ _ _ _ _ _ _ H). lia.
  - rewrite !tight_struct, !Forall_forall. rewrite Forall_forall in IHms. intros Ht m Hm.
    eapply IHms; [exact Hm|eapply good_struct; eassumption| |apply Ht, Hm].
    eapply same_sub; [exact H|]. destruct Hg as [Hw _]. apply wf_struct_iff in Hw as (Hlo & -> & _ & _).
    cbn [msize]. pose proof (laid_out_in _ _ _ Hlo Hm). lia.
  - rewrite !tight_union. rewrite Forall_forall in IHms. cbn [msize] in H.
    destruct (good_union_inv _ _ _ _ _ _ _ Hg) as (dn & disc & cs & -> & Hgd & Hc & Hlw & Hiv & _ & Hs & _).
    assert (Hlab : get_label disc b' off' = get_label disc b off).
    { apply get_label_same. rewrite Hlw. pose proof (same_sub _ _ _ _ _ 0 (msize disc) H ltac:(lia)) as G0.
      rewrite !N.add_0_r in G0. exact G0. }
    rewrite Hlab. destruct (get_label disc b off) as [l|]; [|exact (fun x => x)].
    destruct (lookup_label l labels) as [x|] eqn:Ex.
    + destruct (union_case _ _ _ _ _ _ _ _ _ Hg Ex) as (dn' & disc' & cs' & m & E' & Hf & Hin & Hmo & Hmr).
      inversion E'; subst dn' disc' cs'. clear E'. unfold with_member. rewrite Hf.
      intros [T1 T2]. split.
      * eapply IHms; [right; exact Hin|eapply good_union; [exact Hg|right; exact Hin]| |exact T1].
        eapply same_sub; [exact H|exact Hmr].
      * eapply clean_same; [|exact T2]. rewrite <- !N.add_assoc. eapply same_sub; [exact H|]. lia.
    + apply clean_same. eapply same_sub; [exact H|]. lia.
  - cbn [tight msize] in *. apply (IHa (good_alias _ _ Hg)), H.
Qed.

Lemma fresh_clean n : clean (fresh n) 0 n.
Proof. intros i Hi. cbn. destruct (i <? n); reflexivity. Qed.
Lemma fresh_raw_clean n off k : clean (fresh_raw n) off k.
Proof. intros i Hi. cbn. destruct (off + i <? n); reflexivity. Qed.

Definition tspec (t : ty) : Prop :=
  forall b off, alloc b off (msize t) -> clean b off (msize t) ->
  exists b', construct t b off = Ok b' /\ agree_out b b' off (msize t) /\ live t b' off /\ tight t b' off.

Lemma tspec_pair x y : good x -> good y -> tspec x -> tspec y -> tspec (TPair x y).
Proof.
  intros Hgx Hgy IHx IHy b off Ha Hc. cbn [msize construct live tight] in *.
  destruct (IHx b off) as (b1 & E1 & A1 & L1 & T1).
  { intros i Hi. apply Ha. lia. } { intros i Hi. apply Hc. lia. }
  assert (S1 : same b (off + msize x) b1 (off + msize x) (msize y)) by (eapply agree_out_same; [exact A1|right; lia]).
  destruct (IHy b1 (off + msize x)) as (b2 & E2 & A2 & L2 & T2).
  { eapply alloc_same; [exact S1|]. eapply alloc_sub; [exact Ha|lia]. }
  { eapply clean_same; [exact S1|]. eapply clean_sub; [exact Hc|lia]. }
  exists b2. rewrite E1. cbn [bind]. split; [exact E2|].
  split; [eapply agree_out_trans; [exact A1|exact A2|lia|lia|lia|lia]|].
  assert (S : same b1 off b2 off (msize x)) by (eapply agree_out_same; [exact A2|left; lia]).
  split; (split; [|assumption]).
  - eapply live_local; eassumption.
  - eapply tight_local; eassumption.
Qed.

Lemma init_memory_tight T n (cons : block -> N -> res block) : good T -> tspec T ->
  (forall b o, cons b o = construct T b o) ->
  msize T < 4294967296 -> n * msize T < 4294967296 ->
  exists m, init_memory cons (wrap32 (msize T)) n = Ok m /\
    (forall i, i < n -> live T m (i * msize T) /\ tight T m (i * msize T)).
Proof.
  intros Hg HT Hcons H1 H2. rewrite (wrap32_small _ H1). unfold init_memory. destruct (n =? 0) eqn:E.
  - apply N.eqb_eq in E. subst n. eexists. split; [reflexivity|]. intros i Hi. lia.
  - rewrite (wrap32_small (n * msize T)) by exact H2.
    destruct (for_up_slots 0 (msize T) (fun i b => cons b (wrap32 (i * msize T)))
                (fun i d => alloc d (i * msize T) (msize T) /\ clean d (i * msize T) (msize T))
                (fun i d => live T d (i * msize T) /\ tight T d (i * msize T)) n (fresh (n * msize T))) as (m & M1 & M2 & M3).
    + intros i d Hi [Ha Hc]. rewrite wrap32_small by nia. rewrite Hcons. apply HT; assumption.
    + intros i d d' Hi Hs [Ha Hc]. split; [eapply alloc_same; eassumption|eapply clean_same; eassumption].
    + intros i d d' Hi Hs [L T']. change (0 + i * msize T) with (i * msize T) in Hs.
      split; [eapply live_local; eassumption|eapply tight_local; eassumption].
    + intros i Hi. split; [apply (alloc_sub _ _ _ (i * msize T) (msize T) (fresh_alloc (n * msize T)))|
                           apply (clean_sub _ _ _ (i * msize T) (msize T) (fresh_clean (n * msize T)))]; nia.
    + exists m. auto.
Qed.

Lemma construct_tight t : good t -> tspec t.
Proof.
  induction t as [p|nm sz vals|k bd|nm c n IHc|c bd IHc|k v bd IHk IHv|x y IHx IHy|nm s ms IHms|nm s ms labels dv iv d IHms|nm a IHa]
    using ty_ind'; intros Hg; [| | | | | | | | |].
  - intros b off Ha _. destruct (construct_live _ Hg b off Ha) as (b' & E & A & L). exists b'. cbn [tight]. auto.
  - intros b off Ha _. destruct (construct_live _ Hg b off Ha) as (b' & E & A & L). exists b'. cbn [tight]. auto.
  - intros b off Ha _. destruct (construct_live _ Hg b off Ha) as (b' & E & A & L). exists b'. cbn [tight]. auto.
  - intros b off Ha Hcl. pose proof (good_arr _ _ _ Hg) as Hgc.
    cbn [msize construct live tight] in *.
    destruct (for_up_slots off (msize c) (fun i b => construct c b (off + i * msize c))
                (fun i d => alloc d (off + i * msize c) (msize c) /\ clean d (off + i * msize c) (msize c))
                (fun i d => live c d (off + i * msize c) /\ tight c d (off + i * msize c))
                n b) as (b' & H1 & H2 & H3).
    + intros i d Hi [Ha0 Hc0]. apply (IHc Hgc); assumption.
    + intros i d d' Hi Hs [Ha0 Hc0]. split; [eapply alloc_same; eassumption|eapply clean_same; eassumption].
    + intros i d d' Hi Hs [L T]. split; [eapply live_local; eassumption|eapply tight_local; eassumption].
    + intros i Hi. split; [eapply alloc_sub; [exact Ha|nia]|eapply clean_sub; [exact Hcl|nia]].
    + exists b'. split; [exact H1|]. split; [exact H2|]. split; intros i Hi; apply H3, Hi.
  - intros b off Ha _. destruct (construct_live _ Hg b off Ha) as (b' & E & A & L). exists b'.
    repeat (split; [assumption|]). cbn [construct] in E.
    pose proof (good_seq _ _ Hg) as Hgc. destruct Hg as [[Hw Hb] (Ho & Hm & Hbm & Hb31)].
    destruct (init_memory_tight c bd (construct c) Hgc (IHc Hgc) ltac:(reflexivity) Hm Hbm) as (m & M1 & M2).
    rewrite M1 in E. cbn [bind] in E.
    destruct (put_obj_spec b off SZ_SEQ (CSeq c bd 0 m) ltac:(reflexivity) Ha) as (b2 & H1 & H2 & [H3 _]).
    rewrite H1 in E. injection E as <-. cbn [tight]. rewrite H3. intros i Hi. apply M2, Hi.
  - intros b off Ha _. destruct (construct_live _ Hg b off Ha) as (b' & E & A & L). exists b'.
    repeat (split; [assumption|]). cbn [construct] in E.
    pose proof (good_map _ _ _ Hg) as [Hgk Hgv]. destruct Hg as [(Hwk & Hwv & Hb) (Hok & Hov & Hm & Hbm & Hb31)].
    destruct (init_memory_tight (TPair k v) bd (fun b o => do b1 <- construct k b o; construct v b1 (o + msize k))) as (m & M1 & M2).
    { apply good_pair_iff. auto. } { apply tspec_pair; auto. } { reflexivity. } { exact Hm. } { exact Hbm. }
    cbn [msize] in M1. rewrite M1 in E. cbn [bind] in E.
    destruct (put_obj_spec b off SZ_MAP (CMap k v bd 0 m) ltac:(reflexivity) Ha) as (b2 & H1 & H2 & [H3 _]).
    rewrite H1 in E. injection E as <-. cbn [tight]. rewrite H3. intros i Hi. apply M2, Hi.
  - pose proof (good_pair _ _ Hg) as [Hgx Hgy]. apply tspec_pair; auto.
  - rewrite Forall_forall in IHms. intros b off Ha Hcl.
    pose proof Hg as [Hw _]. apply wf_struct_iff in Hw as (Hlo & Hs & Hnd & _).
    rewrite construct_struct. cbn [msize] in *.
    assert (Hrange : forall m, In m ms -> m_off m + msize (m_type m) <= s).
    { intros m Hm. pose proof (laid_out_in _ _ _ Hlo Hm). lia. }
    destruct (fold_slots' (fun m => off + m_off m) (fun m => msize (m_type m))
               (fun m d => construct (m_type m) d (off + m_off m))
               (fun m d => alloc d (off + m_off m) (msize (m_type m)) /\ clean d (off + m_off m) (msize (m_type m)))
               (fun m d => live (m_type m) d (off + m_off m) /\ tight (m_type m) d (off + m_off m))
               ms b) as (b' & H1 & H2 & H3).
    + eapply laid_out_slots, Hlo.
    + intros m d Hm [Ha0 Hc0]. apply (IHms m Hm); [eapply good_struct; eassumption|assumption..].
    + intros m d d' Hm S [Ha0 Hc0]. split; [eapply alloc_same; eassumption|eapply clean_same; eassumption].
    + intros m d d' Hm S [L T]. pose proof (good_struct _ _ _ _ Hg Hm) as Hgm.
      split; [eapply live_local; eassumption|eapply tight_local; eassumption].
    + intros m Hm. split; [eapply alloc_sub; [exact Ha|apply Hrange, Hm]|eapply clean_sub; [exact Hcl|apply Hrange, Hm]].
    + exists b'. split; [exact H1|]. split.
      { eapply agree_slots_out; [exact H2|]. intros m Hm. specialize (Hrange m Hm). cbn. lia. }
      rewrite live_struct, tight_struct, !Forall_forall. split; intros m Hm; apply H3, Hm.
  - intros b off Ha Hcl. destruct (construct_live _ Hg b off Ha) as (b' & E & A & L). exists b'.
    repeat (split; [assumption|]). rewrite Forall_forall in IHms. rewrite tight_union.
    rewrite construct_union in E. cbn [msize] in *.
    destruct (good_union_inv _ _ _ _ _ _ _ Hg) as (dn & disc & cs & -> & Hgd & Hc & Hlw & Hiv & Hoff & Hs & Hdn & Hnd & Hlab).
    pose proof (default_shrunk _ _ _ _ _ _ (proj1 Hgd) Hc Hlab) as Hsh.
    apply bind_ok in E as (b1 & E1 & E). apply bind_ok in E as (b2 & E2 & E3).
    destruct (construct_spec disc Hgd b off) as (b1' & E1' & A1 & L1 & _); [intros i Hi; apply Ha; lia|].
    rewrite E1 in E1'. injection E1' as <-.
    pose proof (live_alloc _ (proj1 Hgd) _ _ L1) as Ha1.
    destruct (Z.eqb d iv) eqn:Edi.
    + apply Z.eqb_eq in Edi. subst d. injection E2 as <-.
      destruct (put_label_spec disc b1 off iv (proj1 Hgd) Hc Hlw Hsh Ha1) as (b3 & P1 & P2 & P3 & P4 & P5).
      rewrite P1 in E3. injection E3 as <-. rewrite P4, Hiv.
      apply (clean_same b (off + msize disc)); [|eapply clean_sub; [exact Hcl|lia]].
      intros i Hi. rewrite P2, A1 by lia. reflexivity.
    + destruct (lookup_label d labels) as [x|] eqn:Hx; [|discriminate E2].
      destruct (union_case _ _ _ _ _ _ _ _ _ Hg Hx) as (dn' & disc' & cs' & m & E' & Hf & Hin & Hmo & Hmr).
      inversion E'; subst dn' disc' cs'. clear E'.
      unfold with_member in E2. rewrite Hf in E2.
      assert (Hgm : good (m_type m)) by (eapply good_union; [exact Hg|right; exact Hin]).
      assert (S1 : same b (off + m_off m) b1 (off + m_off m) (msize (m_type m))) by (eapply agree_out_same; [exact A1|right; lia]).
      destruct (IHms m (or_intror Hin) Hgm b1 (off + m_off m)) as (b2' & E2' & A2 & L2 & T2).
      { eapply alloc_same; [exact S1|]. eapply alloc_sub; [exact Ha|exact Hmr]. }
      { eapply clean_same; [exact S1|]. eapply clean_sub; [exact Hcl|exact Hmr]. }
      rewrite E2 in E2'. injection E2' as <-.
      destruct (put_label_spec disc b2 off d (proj1 Hgd) Hc Hlw Hsh) as (b3 & P1 & P2 & P3 & P4 & P5).
      { eapply alloc_same; [eapply agree_out_same; [exact A2|left; lia]|exact Ha1]. }
      rewrite P1 in E3. injection E3 as <-. rewrite P4, Hx. unfold with_member. rewrite Hf. split.
      * eapply tight_local; [exact Hgm| |exact T2]. eapply agree_out_same; [exact P2|right; lia].
      * apply (clean_same b (off + m_off m + msize (m_type m))).
        -- intros i Hi. rewrite P2, A2, A1 by lia. reflexivity.
        -- rewrite <- N.add_assoc. eapply clean_sub; [exact Hcl|lia].
  - intros b off Ha Hcl. cbn [msize construct live tight] in *. apply (IHa (good_alias _ _ Hg)); assumption.
Qed.
