(** move_instance: the target gets the value of the source. *)
From Verif Require Import Base Types TypeBuild TypeSpec Mem MemSpec TyInd Layout CompatFacts2 MemEqns MemFacts
  ConstructFacts CopyFacts DestroyFacts.

Lemma nocont_struct nm s ms : nocont (TStruct nm s ms) <-> all_members nocont ms.
Proof. cbn [nocont]. apply all_members_iff. Qed.
Lemma nocont_union nm s ms labels dv iv d : nocont (TUnion nm s ms labels dv iv d) <-> all_members nocont ms.
Proof. cbn [nocont]. apply all_members_iff. Qed.
Lemma movable_struct nm s ms : movable (TStruct nm s ms) <-> all_members movable ms.
Proof. cbn [movable]. apply all_members_iff. Qed.
Lemma movable_union nm s ms labels dv iv d : movable (TUnion nm s ms labels dv iv d) <-> all_members nocont ms.
Proof. cbn [movable]. apply all_members_iff. Qed.

Lemma nocont_movable t : nocont t -> movable t.
Proof.
  induction t as [p|nm sz vals|k bd|nm c n IHc|c bd IHc|k v bd IHk IHv|x y IHx IHy|nm s ms IHms|nm s ms labels dv iv df IHms|nm a IHa]
    using ty_ind'; try (cbn [nocont movable]; tauto).
  - rewrite nocont_struct, movable_struct. unfold all_members. rewrite !Forall_forall in *. auto.
Qed.

(** the destination of a move *)
Definition ready (init : bool) (t : ty) (d : block) (doff : N) : Prop :=
  alloc d doff (msize t) /\ (init = true -> live t d doff \/ nocont t).
Lemma ready_local init t b off b' off' : good t -> same b off b' off' (msize t) -> ready init t b off -> ready init t b' off'.
Proof.
  intros Hg S [H1 H2]. split; [eapply alloc_same; eassumption|]. intros Hi.
  destruct (H2 Hi) as [L|Hn]; [left; eapply live_local; eassumption|auto].
Qed.

Section Move.
  Variable fc : prim -> prim -> list N -> list N.

  Lemma move_str_spec k bd b off d doff : live (TStr k bd) b off -> alloc d doff SZ_STRING ->
    cp (TStr k bd) b off d doff (copy_str k 0 b off d doff).
  Proof.
    cbn [live]. intros (s & [Ho Hi] & Hb) Ha. unfold copy_str. rewrite Ho, Hi, skind_eqb_refl. cbn [andb list_trunc N.eqb].
    destruct (put_obj_spec d doff SZ_STRING (CStr k s) ltac:(reflexivity) Ha) as (d' & H1 & H2 & [H3 H4]).
    exists d'. split; [exact H1|]. split; [exact H2|]. split.
    - cbn [live]. exists s. split; [split; assumption|exact Hb].
    - cbn [read]. rewrite H3, H4, Ho, Hi. reflexivity.
  Qed.

  Lemma destroy_if_ready t d doff (init : bool) : good t -> (init = true -> live t d doff) -> alloc d doff (msize t) ->
    exists d1, (if init then destroy t d doff else Ok d) = Ok d1 /\ agree_out d d1 doff (msize t) /\ alloc d1 doff (msize t).
  Proof.
    intros Hg Hl Ha. destruct init.
    - destruct (destroy_spec t d doff Hg (Hl eq_refl)) as (d1 & E & A & Al & _). eauto.
    - exists d. split; [reflexivity|]. split; [apply agree_out_refl|exact Ha].
  Qed.

  Lemma cp_after t b off d d1 doff r : agree_out d d1 doff (msize t) -> cp t b off d1 doff r -> cp t b off d doff r.
  Proof.
    intros A (d' & E & A' & H). exists d'. split; [exact E|]. split; [|exact H].
    intros j Hj. rewrite A' by exact Hj. apply A, Hj.
  Qed.

  Lemma move_spec t : good t -> copy_ok t -> forall b off d doff init,
    (init = true -> movable t) -> live t b off -> ready init t d doff -> cp t b off d doff (move fc t b off d doff init).
  Proof.
    induction t as [p|nm sz vals|k bd|nm c n IHc|c bd IHc|k v bd IHk IHv|x y IHx IHy|nm s ms IHms|nm s ms labels dv iv df IHms|nm a IHa]
      using ty_ind'; intros Hg Hcf b off d doff init Hmv Hl [Ha Hr].
    - cbn [move]. apply (memcpy_copy (TPrim p)); try assumption. intros H; exact H.
    - cbn [move]. apply (memcpy_copy (TEnum nm sz vals)); try assumption. intros H; exact H.
    - cbn [move]. apply move_str_spec; assumption.
    - pose proof (good_arr _ _ _ Hg) as Hgc. cbn [move live copy_ok msize movable nocont] in *.
      destruct (is_constructed_type c) eqn:Ec.
      + destruct (for_up_slots doff (msize c)
          (fun i d => move fc c b (off + i * msize c) d (doff + i * msize c) init)
          (fun i d => ready init c d (doff + i * msize c))
          (fun i d => live c d (doff + i * msize c) /\ read c d (doff + i * msize c) = read c b (off + i * msize c)) n d)
          as (d' & H1 & H2 & H3).
        * intros i d0 Hi Hal. destruct (IHc Hgc Hcf b (off + i * msize c) d0 (doff + i * msize c) init Hmv) as (d' & E & A & L & R);
            [apply Hl, Hi|exact Hal|]. exists d'. auto.
        * intros i d0 d' Hi. apply ready_local, Hgc.
        * intros i d0 d' Hi S [L R]. split; [eapply live_local; eassumption|].
          rewrite (read_local c _ _ _ _ Hgc S). exact R.
        * intros i Hi. split; [eapply alloc_sub; [exact Ha|nia]|]. intros Hi'. destruct (Hr Hi') as [L|Hn]; [left; apply L, Hi|auto].
        * exists d'. split; [exact H1|]. split; [exact H2|]. split.
          -- cbn [live]. intros i Hi. apply H3, Hi.
          -- cbn [read]. f_equal. apply collect_ext. intros j _ Hj. apply H3. lia.
      + destruct (constructed_prim _ Ec) as [p ->].
        apply (memcpy_copy (TArr nm (TPrim p) n)); try assumption.
        intros _. cbn [msize]. apply slots_bytes. exact Hl.
    - cbn [move copy_ok] in *.
      destruct (destroy_if_ready (TSeq c bd) d doff init Hg) as (d1 & E & A & Al); [|exact Ha|].
      { intros Hi. destruct (Hr Hi) as [L|[]]. exact L. }
      rewrite E. cbn [bind]. apply (cp_after _ _ _ _ _ _ _ A). apply copy_seq_spec; try assumption.
      apply cf_spec_self, copy_from_self; [eapply good_seq, Hg|exact Hcf].
    - cbn [move copy_ok] in *. pose proof (good_map _ _ _ Hg) as [Hgk Hgv]. destruct Hcf as [Hck Hcv].
      destruct (destroy_if_ready (TMap k v bd) d doff init Hg) as (d1 & E & A & Al); [|exact Ha|].
      { intros Hi. destruct (Hr Hi) as [L|[]]. exact L. }
      rewrite E. cbn [bind]. apply (cp_after _ _ _ _ _ _ _ A). apply copy_map_spec; try assumption.
      apply cf_spec_self, cf_spec_pair; try assumption; apply copy_from_self; assumption.
    - pose proof (good_pair _ _ Hg) as [Hgx Hgy]. destruct Hcf as [Hcx Hcy]. cbn [move live movable nocont msize] in *.
      destruct Hl as [L1 L2].
      destruct (IHx Hgx Hcx b off d doff init) as (d1 & E1 & A1 & Lx & R1); [tauto|exact L1| |].
      { split; [intros i Hi; apply Ha; lia|]. intros Hi. destruct (Hr Hi) as [[H _]|[H _]]; auto. }
      destruct (IHy Hgy Hcy b (off + msize x) d1 (doff + msize x) init) as (d2 & E2 & A2 & Ly & R2); [tauto|exact L2| |].
      { eapply (ready_local init y d (doff + msize x)); [exact Hgy|eapply agree_out_same; [exact A1|right; lia]|].
        split; [eapply alloc_sub; [exact Ha|lia]|]. intros Hi. destruct (Hr Hi) as [[_ H]|[_ H]]; auto. }
      exists d2. rewrite E1. cbn [bind]. split; [exact E2|].
      split; [cbn [msize]; eapply agree_out_trans; [exact A1|exact A2|lia|lia|lia|lia]|].
      assert (S : same d1 doff d2 doff (msize x)) by (eapply agree_out_same; [exact A2|left; lia]).
      split; cbn [live read].
      + split; [eapply live_local; eassumption|exact Ly].
      + rewrite (read_local x _ _ _ _ Hgx S), R1, R2. reflexivity.
    - rewrite Forall_forall in IHms. apply copy_ok_struct in Hcf. unfold all_members in Hcf. rewrite Forall_forall in Hcf.
      rewrite move_struct. rewrite movable_struct in Hmv. rewrite nocont_struct, live_struct in Hr.
      rewrite live_struct, Forall_forall in Hl. cbn [msize] in Ha.
      pose proof Hg as [Hw _]. apply wf_struct_iff in Hw as (Hlo & Hs & _ & _).
      assert (Hrange : forall m, In m ms -> m_off m + msize (m_type m) <= s).
      { intros m Hm. pose proof (laid_out_in _ _ _ Hlo Hm). lia. }
      destruct (fold_slots' (fun m => doff + m_off m) (fun m => msize (m_type m))
                 (fun m d => move fc (m_type m) b (off + m_off m) d (doff + m_off m) init)
                 (fun m d => ready init (m_type m) d (doff + m_off m))
                 (fun m d => live (m_type m) d (doff + m_off m) /\
                             read (m_type m) d (doff + m_off m) = read (m_type m) b (off + m_off m))
                 ms d) as (d' & H1 & H2 & H3).
      + eapply laid_out_slots, Hlo.
      + intros m d0 Hm Hal. pose proof (good_struct _ _ _ _ Hg Hm) as Hgm.
        destruct (IHms m Hm Hgm (Hcf m Hm) b (off + m_off m) d0 (doff + m_off m) init) as (d' & E & A & L & R);
          [|apply Hl, Hm|exact Hal|eauto].
        intros Hi. specialize (Hmv Hi). unfold all_members in Hmv. rewrite Forall_forall in Hmv. apply Hmv, Hm.
      + intros m d0 d' Hm. apply ready_local. eapply good_struct; eassumption.
      + intros m d0 d' Hm S [L R]. pose proof (good_struct _ _ _ _ Hg Hm) as Hgm.
        split; [eapply live_local; eassumption|]. rewrite (read_local _ _ _ _ _ Hgm S). exact R.
      + intros m Hm. split; [eapply alloc_sub; [exact Ha|apply Hrange, Hm]|].
        unfold all_members in Hr. intros Hi. specialize (Hr Hi). rewrite !Forall_forall in Hr.
        destruct Hr as [H|H]; [left|right]; apply H, Hm.
      + exists d'. split; [exact H1|]. split.
        { eapply agree_slots_out; [exact H2|]. intros m Hm. specialize (Hrange m Hm). cbn [msize]. lia. }
        split.
        * rewrite live_struct, Forall_forall. intros m Hm. apply H3, Hm.
        * rewrite !read_struct. f_equal. apply mmap_ext. intros m Hm. apply H3, Hm.
    - rewrite Forall_forall in IHms. apply copy_ok_union in Hcf. unfold all_members in Hcf. rewrite Forall_forall in Hcf.
      rewrite move_union. rewrite movable_union in Hmv.
      assert (Hmv' : init = true -> forall m, In m ms -> nocont (m_type m)).
      { intros Hi. specialize (Hmv Hi). unfold all_members in Hmv. rewrite Forall_forall in Hmv. exact Hmv. }
      clear Hmv Hr.
      destruct (good_union_inv _ _ _ _ _ _ _ Hg) as (dn & disc & cs & -> & Hgd & Hc & Hlw & Hiv & Hoff & Hs & _).
      destruct (cp_union nm s dn disc cs labels dv iv df b off d doff (fun d => move fc disc b off d doff init)
              (fun l d1 => match lookup_label l labels with
                 | None => Ok d1
                 | Some nm => with_member nm ((dn, 0, disc) :: cs) (Fail Assert)
                     (fun m => move fc (m_type m) b (off + m_off m) d1 (doff + m_off m) init)
                 end)) as [G _]; try assumption.
      + intros d0 Ha0. pose proof (IHms _ (or_introl eq_refl) Hgd (Hcf _ (or_introl eq_refl))) as IH.
        cbn [m_type snd] in IH. apply IH.
        * intros Hi. apply nocont_movable, (Hmv' Hi _ (or_introl eq_refl)).
        * rewrite live_union in Hl. destruct Hl as (_ & ? & ? & ? & ? & E & Hd & _). inversion E; subst. exact Hd.
        * split; [exact Ha0|]. intros Hi. right. apply (Hmv' Hi _ (or_introl eq_refl)).
      + intros l d0 Hgl _. destruct (lookup_label l labels) as [x|] eqn:Ex; [|reflexivity].
        intros m Hf Hlm Ham. unfold with_member. rewrite Hf.
        apply find_member_in in Hf as [Hin _]. apply IHms; auto.
        * eapply good_union; eassumption.
        * intros Hi. apply nocont_movable, (Hmv' Hi _ Hin).
        * split; [exact Ham|]. intros Hi. right. apply (Hmv' Hi _ Hin).
    - cbn [move live read msize copy_ok movable nocont] in *.
      destruct (IHa (good_alias _ _ Hg) Hcf b off d doff init Hmv Hl (conj Ha Hr)) as (d' & H). exists d'. exact H.
  Qed.
End Move.
