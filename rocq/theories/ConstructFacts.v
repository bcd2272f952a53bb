(** Default construction yields a live instance holding the default value. *)
From Verif Require Import Base Types TypeBuild TypeSpec TyInd CompatFacts2 Layout Mem MemSpec MemEqns MemFacts.

Lemma le_encode_length n x : List.length (le_encode n x) = n.
Proof. revert x. induction n as [|n IH]; intros x; cbn; [reflexivity|]. rewrite IH. reflexivity. Qed.
Lemma le_encode_bytes n x : Forall (fun y => y < 256) (le_encode n x).
Proof. revert x. induction n as [|n IH]; intros x; cbn; constructor; [apply N.mod_lt; lia|apply IH]. Qed.
Lemma le_decode_encode n x : le_decode (le_encode n x) = x mod 256 ^ N.of_nat n.
Proof.
  revert x. induction n as [|n IH]; intros x.
  - cbn. rewrite N.mod_1_r. reflexivity.
  - cbn [le_encode le_decode]. rewrite IH.
    replace (N.of_nat (S n)) with (N.succ (N.of_nat n)) by lia. rewrite N.pow_succ_r'.
    rewrite N.mod_mul_r by (try apply N.pow_nonzero; lia). lia.
Qed.
Lemma le_decode_lt bs : Forall (fun y => y < 256) bs -> le_decode bs < 256 ^ N.of_nat (List.length bs).
Proof.
  induction 1 as [|x r Hx H IH]; [reflexivity|]. cbn [le_decode List.length].
  replace (N.of_nat (S (List.length r))) with (N.succ (N.of_nat (List.length r))) by lia.
  rewrite N.pow_succ_r'. nia.
Qed.
Lemma le_encode_decode bs : Forall (fun y => y < 256) bs -> le_encode (List.length bs) (le_decode bs) = bs.
Proof.
  induction 1 as [|x r Hx H IH]; [reflexivity|]. cbn [le_decode List.length le_encode].
  replace (x + 256 * le_decode r) with (x + le_decode r * 256) by lia.
  rewrite N.mod_add by lia. rewrite N.mod_small by exact Hx.
  rewrite N.div_add by lia. rewrite N.div_small by exact Hx. rewrite N.add_0_l, IH. reflexivity.
Qed.
Lemma le_decode_inj x y : Forall (fun z => z < 256) x -> Forall (fun z => z < 256) y ->
  List.length x = List.length y -> le_decode x = le_decode y -> x = y.
Proof.
  intros H1 H2 HL HE. rewrite <- (le_encode_decode x H1), <- (le_encode_decode y H2), HL, HE. reflexivity.
Qed.

Lemma pow256 n : (256 ^ N.of_nat n = 2 ^ (8 * N.of_nat n))%N.
Proof. change 256 with (2 ^ 8). rewrite <- N.pow_mul_r. reflexivity. Qed.
(** writing a label and reading it back *)
Lemma label_roundtrip sz v : sz = 1 \/ sz = 2 \/ sz = 4 \/ sz = 8 ->
  shrink_label (Z.of_N (le_decode (le_encode (N.to_nat sz) (Z.to_N (v mod 2 ^ (8 * Z.of_N sz)))))) sz =
  shrink_label v sz.
Proof.
  intros H. rewrite le_decode_encode, N2Nat.id.
  assert (Hp : (0 < 2 ^ (8 * Z.of_N sz))%Z) by (apply Z.pow_pos_nonneg; lia).
  pose proof (Z.mod_pos_bound v _ Hp) as Hb.
  rewrite N.mod_small.
  - rewrite Z2N.id by lia. rewrite !(shrink_label_eq _ _ H). rewrite Z.mod_mod by lia. reflexivity.
  - replace (256 ^ sz) with (Z.to_N (2 ^ (8 * Z.of_N sz))); [lia|].
    destruct H as [->|[->|[->| ->]]]; reflexivity.
Qed.

Lemma put_label_spec disc b off v :
  wf_ty disc -> check_discriminator disc = true -> label_width disc = msize disc ->
  shrink_label v (msize disc) = v -> alloc b off (msize disc) ->
  exists b', put_label disc b off v = Ok b' /\ agree_out b b' off (msize disc) /\
    live disc b' off /\ get_label disc b' off = Ok v /\ read disc b' off = Ok (label_bytes disc v).
Proof.
  intros Hw Hc Hl Hv Ha. unfold put_label. rewrite Hl.
  set (bs := le_encode (N.to_nat (msize disc)) (Z.to_N (v mod 2 ^ (8 * Z.of_N (msize disc))))).
  assert (Hlen : N.of_nat (List.length bs) = msize disc) by (unfold bs; rewrite le_encode_length; lia).
  destruct (write_bytes_spec b off bs) as (b' & W1 & W2 & W3); [rewrite Hlen; exact Ha|].
  rewrite Hlen in *.
  assert (HR : read_bytes b' off (msize disc) = Ok bs) by (apply read_bytes_spec; split; assumption).
  exists b'. split; [exact W1|]. split; [exact W2|]. split; [|split].
  - apply live_disc; [exact Hc|]. eapply written_bytes_at; [exact Hlen|exact W3|apply le_encode_bytes].
  - unfold get_label. rewrite Hl, HR. cbn [bind]. f_equal. unfold bs.
    rewrite label_roundtrip by (apply disc_sizes; assumption). exact Hv.
  - rewrite read_disc by exact Hc. rewrite HR. reflexivity.
Qed.

(** the labels of a good union are normalised *)
Lemma iv_shrunk sz : sz = 1 \/ sz = 2 \/ sz = 4 \/ sz = 8 ->
  shrink_label (default_union_label sz - 1) sz = (default_union_label sz - 1)%Z.
Proof. intros [->|[->|[->| ->]]]; reflexivity. Qed.
Lemma default_shrunk disc cs labels dv iv d : wf_ty disc -> check_discriminator disc = true ->
  wf_union_labels disc cs labels dv iv d -> shrink_label d (msize disc) = d.
Proof.
  intros Hw Hc (Hdv & Hiv & Hs & _ & HF & Hd & _).
  destruct (Z.eq_dec d iv) as [->|Hn].
  - subst iv dv. apply iv_shrunk. apply disc_sizes; assumption.
  - specialize (Hd Hn). destruct (lookup_label d labels) as [x|] eqn:E; [|congruence].
    rewrite Forall_forall in HF. apply (HF (d, x)). apply lookup_in, E.
Qed.

Lemma write_zeros_spec b off n : alloc b off n ->
  exists b', write_bytes b off (zeros n) = Ok b' /\ agree_out b b' off n /\ bytes_at b' off n /\
    read_bytes b' off n = Ok (repeat 0 (N.to_nat n)).
Proof.
  intros Ha. assert (Hl : N.of_nat (List.length (zeros n)) = n) by (unfold zeros; rewrite repeat_length; lia).
  destruct (write_bytes_spec b off (zeros n)) as (b' & W1 & W2 & W3); [rewrite Hl; exact Ha|].
  rewrite Hl in *. exists b'. split; [exact W1|]. split; [exact W2|]. split.
  - eapply written_bytes_at; [exact Hl|exact W3|]. apply Forall_forall. intros x Hx.
    apply repeat_spec in Hx. subst. lia.
  - apply read_bytes_spec. split; [exact Hl|exact W3].
Qed.

Lemma collect_ok n i f v : (forall j, i <= j -> j < i + N.of_nat n -> f j = Ok v) ->
  collect n i f = Ok (repeat v n).
Proof.
  revert i. induction n as [|n IH]; intros i H; [reflexivity|]. cbn [collect repeat].
  rewrite (H i) by lia. cbn [bind]. rewrite IH; [reflexivity|]. intros j H1 H2. apply H; lia.
Qed.
Lemma mmap_ok {X A} (f : X -> res A) (g : X -> A) l : (forall x, In x l -> f x = Ok (g x)) ->
  mmap f l = Ok (map g l).
Proof.
  induction l as [|x r IH]; intros H; [reflexivity|]. cbn [mmap map].
  rewrite (H x) by (left; reflexivity). cbn [bind]. rewrite IH; [reflexivity|].
  intros y Hy. apply H. right. exact Hy.
Qed.
Lemma wrap32_small x : x < 4294967296 -> wrap32 x = x.
Proof. apply N.mod_small. Qed.
Lemma fresh_alloc n : alloc (fresh n) 0 n.
Proof. intros i Hi. cbn. apply N.ltb_lt in Hi. rewrite Hi. discriminate. Qed.

Definition cspec (t : ty) : Prop :=
  forall b off, alloc b off (msize t) ->
  exists b', construct t b off = Ok b' /\ agree_out b b' off (msize t) /\ live t b' off /\
    read t b' off = Ok (default_value t).

(** the initial buffer of a container *)
Lemma init_memory_spec c n (P : block -> N -> Prop) (cons : block -> N -> res block) (bs : N) :
  (forall b off, alloc b off bs -> exists b', cons b off = Ok b' /\ agree_out b b' off bs /\ P b' off) ->
  (forall b off b', same b off b' off bs -> P b off -> P b' off) ->
  bs = c -> bs < 4294967296 -> n * bs < 4294967296 ->
  exists m, init_memory cons bs n = Ok m /\ (forall i, i < n -> P m (i * bs)) /\ (forall j, n * bs <= j -> at_ m j = CNone).
Proof.
  intros Hc HP _ Hbs Hn. unfold init_memory. destruct (n =? 0) eqn:E.
  - apply N.eqb_eq in E. subst n. exists (fresh 0). split; [reflexivity|].
    split; [intros i Hi; lia|]. intros j _. cbn. destruct (j <? 0) eqn:E; [apply N.ltb_lt in E; lia|reflexivity].
  - rewrite (wrap32_small (n * bs)) by exact Hn.
    destruct (for_up_slots 0 bs (fun i b => cons b (wrap32 (i * bs)))
                (fun i d => alloc d (i * bs) bs) (fun i d => P d (i * bs)) n (fresh (n * bs))) as (m & H1 & H2 & H3).
    + intros i d Hi Ha. rewrite wrap32_small by nia. apply Hc, Ha.
    + intros i d d' Hi Hs Ha. eapply alloc_same; eassumption.
    + intros i d d' Hi Hs. apply HP, Hs.
    + intros i Hi. pose proof (alloc_sub _ _ _ (i * bs) bs (fresh_alloc (n * bs)) ltac:(nia)) as Ha.
      rewrite N.add_0_l in Ha. exact Ha.
    + exists m. split; [exact H1|]. split; [exact H3|]. intros j Hj. rewrite H2 by lia. cbn.
      destruct (j <? n * bs) eqn:Ej; [apply N.ltb_lt in Ej; lia|reflexivity].
Qed.

Lemma cspec_pair x y : good x -> good y -> cspec x -> cspec y -> cspec (TPair x y).
Proof.
  intros Hgx Hgy IHx IHy b off Ha. cbn [msize construct live read default_value] in *.
  destruct (IHx b off) as (b1 & E1 & A1 & L1 & R1).
  { intros i Hi. apply Ha. lia. }
  destruct (IHy b1 (off + msize x)) as (b2 & E2 & A2 & L2 & R2).
  { eapply alloc_same; [eapply agree_out_same; [exact A1|right; lia]|].
    eapply alloc_sub; [exact Ha|lia]. }
  exists b2. rewrite E1. cbn [bind]. split; [exact E2|].
  split; [eapply agree_out_trans; [exact A1|exact A2|lia|lia|lia|lia]|].
  assert (S : same b1 off b2 off (msize x)) by (eapply agree_out_same; [exact A2|left; lia]).
  split.
  - split; [eapply live_local; [exact Hgx|exact S|exact L1]|exact L2].
  - rewrite (read_local x _ _ _ _ Hgx S), R1, R2. reflexivity.
Qed.

Lemma construct_spec t : good t -> cspec t.
Proof.
  induction t as [p|nm sz vals|k bd|nm c n IHc|c bd IHc|k v bd IHk IHv|x y IHx IHy|nm s ms IHms|nm s ms labels dv iv d IHms|nm a IHa]
    using ty_ind'; intros Hg; [| | | | | | | | |].
  - intros b off Ha. cbn [msize construct live read default_value] in *.
    destruct (write_zeros_spec b off _ Ha) as (b' & H1 & H2 & H3 & H4).
    exists b'. rewrite H4. repeat (split; [assumption|]). reflexivity.
  - intros b off Ha. cbn [msize construct live read default_value] in *.
    destruct (write_zeros_spec b off _ Ha) as (b' & H1 & H2 & H3 & H4).
    exists b'. rewrite H4. repeat (split; [assumption|]). reflexivity.
  - intros b off Ha. cbn [msize construct live read default_value] in *.
    destruct (put_obj_spec b off SZ_STRING (CStr k []) ltac:(reflexivity) Ha) as (b' & H1 & H2 & H3).
    exists b'. split; [exact H1|]. split; [exact H2|]. split.
    + exists []. split; [exact H3|]. right. cbn. lia.
    + destruct H3 as [-> ->]. replace (skind_eqb k k) with true by (destruct k; reflexivity). reflexivity.
  - intros b off Ha. pose proof (good_arr _ _ _ Hg) as Hgc.
    cbn [msize construct live read default_value] in *.
    destruct (for_up_slots off (msize c) (fun i b => construct c b (off + i * msize c))
                (fun i d => alloc d (off + i * msize c) (msize c))
                (fun i d => live c d (off + i * msize c) /\ read c d (off + i * msize c) = Ok (default_value c))
                n b) as (b' & H1 & H2 & H3).
    + intros i d Hi. apply (IHc Hgc).
    + intros i d d' Hi. apply alloc_same.
    + intros i d d' Hi Hs [L R]. split; [eapply live_local; eassumption|].
      rewrite (read_local c _ _ _ _ Hgc Hs). exact R.
    + intros i Hi. eapply alloc_sub; [exact Ha|nia].
    + exists b'. split; [exact H1|]. split; [exact H2|]. split.
      * intros i Hi. apply H3, Hi.
      * rewrite (collect_ok _ _ _ (default_value c)); [reflexivity|]. intros j _ Hj. apply H3. lia.
  - intros b off Ha. pose proof (good_seq _ _ Hg) as Hgc. destruct Hg as [[Hw Hb] (Ho & Hm & Hbm & Hb31)].
    cbn [msize construct] in *.
    destruct (init_memory_spec (msize c) bd (fun b o => live c b o) (construct c) (msize c)) as (m & M1 & M2 & M3).
    + intros b0 o Hal. destruct (IHc Hgc b0 o Hal) as (b' & E & A & L & _). eauto.
    + intros b0 o b' Hs. apply live_local; assumption.
    + reflexivity.
    + exact Hm.
    + exact Hbm.
    + rewrite (wrap32_small (msize c)) by exact Hm. rewrite M1. cbn [bind].
      destruct (put_obj_spec b off SZ_SEQ (CSeq c bd 0 m) ltac:(reflexivity) Ha) as (b' & H1 & H2 & H3).
      exists b'. split; [exact H1|]. split; [exact H2|]. split.
      * cbn [live]. exists bd, 0, m. split; [exact H3|]. repeat split; try assumption; lia.
      * cbn [read]. destruct H3 as [-> ->]. reflexivity.
  - intros b off Ha. pose proof (good_map _ _ _ Hg) as [Hgk Hgv]. destruct Hg as [(Hwk & Hwv & Hb) (Hok & Hov & Hm & Hbm & Hb31)].
    pose proof (cspec_pair k v Hgk Hgv (IHk Hgk) (IHv Hgv)) as IHp. unfold cspec in IHp. cbn [construct msize live] in IHp.
    cbn [msize construct] in *.
    destruct (init_memory_spec (msize k + msize v) bd (fun b o => live k b o /\ live v b (o + msize k))
                 (fun b o => do b1 <- construct k b o; construct v b1 (o + msize k)) (msize k + msize v)) as (m & M1 & M2 & M3).
    + intros b0 o Hal. destruct (IHp b0 o Hal) as (b' & E & A & L & _). eauto.
    + intros b0 o b' Hs. apply (live_local (TPair k v) b0 o b' o); [apply good_pair_iff; auto|exact Hs].
    + reflexivity.
    + exact Hm.
    + exact Hbm.
    + rewrite (wrap32_small (msize k + msize v)) by exact Hm. rewrite M1. cbn [bind].
      destruct (put_obj_spec b off SZ_MAP (CMap k v bd 0 m) ltac:(reflexivity) Ha) as (b' & H1 & H2 & H3).
      exists b'. split; [exact H1|]. split; [exact H2|]. split.
      * cbn [live]. exists bd, 0, m. split; [exact H3|]. split; [lia|]. split; [right; lia|].
        split; [exact Hbm|]. split; [exact Hb31|]. intros i Hi. apply M2, Hi.
      * cbn [read]. destruct H3 as [-> ->]. reflexivity.
  - pose proof (good_pair _ _ Hg) as [Hgx Hgy]. apply cspec_pair; auto.
  - rewrite Forall_forall in IHms. intros b off Ha.
    pose proof Hg as [Hw _]. apply wf_struct_iff in Hw as (Hlo & Hs & Hnd & _).
    rewrite construct_struct, default_struct. cbn [msize] in *.
    assert (Hrange : forall m, In m ms -> m_off m + msize (m_type m) <= s).
    { intros m Hm. pose proof (laid_out_in _ _ _ Hlo Hm). lia. }
    destruct (fold_slots' (fun m => off + m_off m) (fun m => msize (m_type m))
               (fun m d => construct (m_type m) d (off + m_off m))
               (fun m d => alloc d (off + m_off m) (msize (m_type m)))
               (fun m d => live (m_type m) d (off + m_off m) /\ read (m_type m) d (off + m_off m) = Ok (default_value (m_type m)))
               ms b) as (b' & H1 & H2 & H3).
    + eapply laid_out_slots, Hlo.
    + intros m d Hm. apply (IHms m Hm). eapply good_struct; eassumption.
    + intros m d d' Hm. apply alloc_same.
    + intros m d d' Hm S [L R]. pose proof (good_struct _ _ _ _ Hg Hm) as Hgm.
      split; [eapply live_local; eassumption|]. rewrite (read_local _ _ _ _ _ Hgm S). exact R.
    + intros m Hm. eapply alloc_sub; [exact Ha|apply Hrange, Hm].
    + exists b'. split; [exact H1|]. split.
      { eapply agree_slots_out; [exact H2|]. intros m Hm. specialize (Hrange m Hm). cbn. lia. }
      split.
      * rewrite live_struct, Forall_forall. intros m Hm. apply H3, Hm.
      * rewrite read_struct. rewrite (mmap_ok _ (fun m => default_value (m_type m))); [reflexivity|].
        intros m Hm. apply H3, Hm.
  - rewrite Forall_forall in IHms. intros b off Ha.
    destruct (good_union_inv _ _ _ _ _ _ _ Hg) as (dn & disc & cs & Ems & Hgd & Hc & Hlw & Hiv & Hoff & Hs & Hdn & Hnd & Hlab).
    pose proof (default_shrunk _ _ _ _ _ _ (proj1 Hgd) Hc Hlab) as Hsh.
    rewrite construct_union, Ems, default_union, <- Ems. cbn [msize] in *.
    assert (Hain : In (dn, 0, disc) ms) by (rewrite Ems; left; reflexivity).
    destruct (IHms _ Hain Hgd b off) as (b1 & E1 & A1 & _).
    { intros i Hi. apply Ha. cbn in Hi. lia. }
    cbn [m_type m_off fst snd] in E1, A1.
    rewrite E1. cbn [bind].
    assert (Ha1 : alloc b1 off s).
    { intros i Hi. destruct (i <? msize disc) eqn:Ei; [apply N.ltb_lt in Ei|apply N.ltb_ge in Ei].
      - destruct (IHms _ Hain Hgd b off) as (b1' & E1' & _ & L & _).
        { intros j Hj. apply Ha. cbn in Hj. lia. }
        cbn [m_type snd] in E1', L. rewrite E1 in E1'. injection E1' as <-.
        apply live_disc in L; [|exact Hc]. apply (bytes_at_alloc _ _ _ L i Ei).
      - rewrite A1 by lia. apply Ha, Hi. }
    destruct (Z.eqb d iv) eqn:Edi.
    + apply Z.eqb_eq in Edi. subst d. cbn [bind].
      destruct (put_label_spec disc b1 off iv (proj1 Hgd) Hc Hlw Hsh) as (b2 & P1 & P2 & P3 & P4 & P5).
      { intros i Hi. apply Ha1. lia. }
      exists b2. split; [exact P1|]. split; [eapply agree_out_trans; [exact A1|exact P2|lia|lia|lia|lia]|].
      split.
      * rewrite live_union. split.
        { intros i Hi. destruct (i <? msize disc) eqn:Ei; [apply N.ltb_lt in Ei|apply N.ltb_ge in Ei].
          - apply live_disc in P3; [|exact Hc]. apply (bytes_at_alloc _ _ _ P3 i Ei).
          - rewrite P2 by lia. apply Ha1, Hi. }
        exists dn, 0, disc, cs. split; [exact Ems|]. split; [exact P3|]. exists iv. split; [exact P4|].
        rewrite Hiv. exact I.
      * rewrite read_union, Ems. rewrite P5, P4. cbn [bind]. rewrite Hiv. reflexivity.
    + apply Z.eqb_neq in Edi.
      assert (Hsome : exists x, lookup_label d labels = Some x).
      { destruct Hlab as (_ & _ & _ & _ & _ & Hd & _). specialize (Hd Edi).
        destruct (lookup_label d labels); [eauto|congruence]. }
      destruct Hsome as [x Hx]. rewrite Hx.
      destruct (union_case _ _ _ _ _ _ _ _ _ Hg Hx) as (dn' & disc' & cs' & m & E' & Hf & Hin & Hmo & Hmr).
      rewrite Ems in E'. inversion E'; subst dn' disc' cs'. clear E'.
      unfold with_member. rewrite Hf.
      assert (Hinm : In m ms) by (rewrite Ems; right; exact Hin).
      pose proof (good_union _ _ _ _ _ _ _ m Hg Hinm) as Hgm.
      destruct (IHms m Hinm Hgm b1 (off + m_off m)) as (b2 & E2 & A2 & L2 & R2).
      { eapply alloc_sub; [exact Ha1|exact Hmr]. }
      rewrite E2. cbn [bind].
      destruct (put_label_spec disc b2 off d (proj1 Hgd) Hc Hlw Hsh) as (b3 & P1 & P2 & P3 & P4 & P5).
      { eapply alloc_same; [eapply agree_out_same; [exact A2|left; lia]|].
        intros i Hi. apply Ha1. lia. }
      assert (S : same b2 (off + m_off m) b3 (off + m_off m) (msize (m_type m))).
      { eapply agree_out_same; [exact P2|right; lia]. }
      assert (L3 : live (m_type m) b3 (off + m_off m)) by (eapply live_local; eassumption).
      exists b3. split; [exact P1|]. split.
      { assert (A12 : agree_out b b2 off s) by (eapply agree_out_trans; [exact A1|exact A2|lia|lia|lia|lia]).
        eapply agree_out_trans; [exact A12|exact P2|lia|lia|lia|lia]. }
      split.
      * rewrite live_union. split.
        { intros i Hi. destruct (i <? msize disc) eqn:Ei; [apply N.ltb_lt in Ei|apply N.ltb_ge in Ei].
          - apply live_disc in P3; [|exact Hc]. apply (bytes_at_alloc _ _ _ P3 i Ei).
          - rewrite P2 by lia.
            destruct (i <? msize disc + msize (m_type m)) eqn:Ej; [apply N.ltb_lt in Ej|apply N.ltb_ge in Ej].
            + pose proof (live_alloc _ (proj1 Hgm) _ _ L2 (i - m_off m) ltac:(lia)) as G.
              replace (off + m_off m + (i - m_off m)) with (off + i) in G by lia. exact G.
            + rewrite A2 by lia. apply Ha1, Hi. }
        exists dn, 0, disc, cs. split; [exact Ems|]. split; [exact P3|]. exists d. split; [exact P4|].
        rewrite Hx. unfold with_member. rewrite Hf. exact L3.
      * rewrite read_union, Ems. rewrite P5, P4. cbn [bind]. rewrite Hx. rewrite <- Ems. unfold with_member.
        rewrite Hf. rewrite (read_local _ _ _ _ _ Hgm S), R2. reflexivity.
  - intros b off Ha. cbn [msize construct live read default_value] in *. apply (IHa (good_alias _ _ Hg)), Ha.
Qed.
