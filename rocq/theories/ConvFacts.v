(** The compatible copy does what [converts] says. *)
From Verif Require Import Base Types TypeBuild TypeSpec TyInd CompatFacts CompatFacts2 Layout Mem MemSpec MemEqns MemFacts ConstructFacts CollectFacts CopyFacts CompareFacts ValueFacts
  PathFacts Ops Realize NumSpec NumFacts ConvSpec.

Lemma msize_strip1 o : good o -> msize (strip1 o) = msize o.
Proof.
  induction o as [p|nm sz vals|k bd|nm c n IHc|c bd IHc|k v bd IHk IHv|x y IHx IHy|nm s ms IHms|nm s ms labels dv iv d IHms|nm a IHa]
    using ty_ind'; intros Hg; try reflexivity.
  - destruct ms as [|[[mn mo] mt] [|m2 r]]; try reflexivity. cbn [strip1].
    pose proof Hg as [Hw _]. apply wf_struct_iff in Hw as (_ & Hs & _). cbn in Hs. inversion IHms as [|? ? H1 _]; subst. cbn [m_type snd] in H1.
    rewrite H1 by (apply (good_struct _ _ _ (mn, mo, mt) Hg (or_introl eq_refl))). cbn [msize]. lia.
  - cbn [strip1 msize]. apply IHa, (good_alias _ _ Hg).
Qed.
Lemma bare_spec o : good o -> forall b off v, live o b off -> read o b off = Ok v ->
  exists o' v', bare o v = (o', v') /\ o' = strip1 o /\ good o' /\ live o' b off /\ read o' b off = Ok v'.
Proof.
  induction o as [p|nm sz vals|k bd|nm c n IHc|c bd IHc|k w bd IHk IHw|x y IHx IHy|nm s ms IHms|nm s ms labels dv iv d IHms|nm a IHa]
    using ty_ind'; intros Hg b off v L R; try (eexists; eexists; split; [reflexivity|]; split; [reflexivity|]; split; [exact Hg|]; split; [exact L|exact R]).
  - destruct ms as [|[[mn mo] mt] [|m2 r]]; try (eexists; eexists; split; [reflexivity|]; split; [reflexivity|]; split; [exact Hg|]; split; [exact L|exact R]).
    pose proof Hg as [Hw _]. apply wf_struct_iff in Hw as (Hlo & _). cbn in Hlo. destruct Hlo as [Ho _]. cbn [m_off fst snd] in Ho. subst mo.
    inversion IHms as [|? ? H1 _]; subst. cbn [m_type snd] in H1. pose proof (good_struct _ _ _ (mn, 0, mt) Hg (or_introl eq_refl)) as Hgm. cbn [m_type snd] in Hgm.
    cbn [live] in L. destruct L as [L _]. rewrite N.add_0_r in L. rewrite read_struct in R. cbn [mmap m_type m_off fst snd] in R. rewrite N.add_0_r in R.
    destruct (read mt b off) as [w|] eqn:Ew; [|discriminate R]. cbn [bind] in R. injection R as <-.
    destruct (H1 Hgm b off w L Ew) as (o' & v' & E & H). exists o', v'. cbn [bare strip1]. auto.
  - cbn [bare strip1]. apply IHa; [exact (good_alias _ _ Hg)|exact L|exact R].
Qed.

Definition cv (t : ty) (d : block) (doff : N) (r : res block) (v' : value) : Prop :=
  exists d', r = Ok d' /\ agree_out d d' doff (msize t) /\ live t d' doff /\ read t d' doff = Ok v'.

Lemma convert_wf fc p q bs : N.of_nat (List.length bs) = prim_size p -> Forall (fun y => y < 256) bs ->
  N.of_nat (List.length (convert fc p q bs)) = prim_size q /\ Forall (fun y => y < 256) (convert fc p q bs).
Proof.
  intros Hl HF. unfold convert. destruct (prim_eqb p q) eqn:E; [apply prim_eqb_eq in E; subst q; auto|].
  destruct (is_float p || is_float q); [|apply int_bytes_wf]. split; [rewrite le_encode_length; lia|apply le_encode_bytes].
Qed.
Lemma integer_spec p : integer p = true <-> is_float p = false /\ p <> PBool.
Proof. destruct p; cbn; split; try (intros; discriminate); try (intros [? ?]; congruence); try (split; [reflexivity|discriminate]); auto. Qed.
Lemma convert_bytewise fc p q bs : N.of_nat (List.length bs) = prim_size p -> Forall (fun y => y < 256) bs ->
  prim_size p = prim_size q -> bytewise p q -> convert fc p q bs = bs.
Proof.
  intros Hl HF Hs [->|[Hp Hq]]; unfold convert.
  - rewrite (proj2 (prim_eqb_eq q q) eq_refl). reflexivity.
  - destruct (prim_eqb p q) eqn:E; [reflexivity|]. apply integer_spec in Hp as [Hp1 Hp2]. apply integer_spec in Hq as [Hq1 Hq2]. rewrite Hp1, Hq1. cbn [orb].
    assert (Hw : width p = width q) by (unfold width; rewrite Hs; reflexivity).
    destruct (number_prim_int p bs Hl HF) as [_ (k & Hk)]. pose proof (int_bytes_decode q (prim_int p bs) Hq2) as Hd. pose proof (le_decode_lt bs HF) as Hlt. rewrite Hl in Hlt.
    destruct (int_bytes_wf q (prim_int p bs)) as [Hl' HF']. pose proof (pow_width p) as Hpw.
    assert (Hdec : le_decode (int_bytes q (prim_int p bs)) = le_decode bs).
    { rewrite <- Hw in Hd. assert (Hm : (prim_int p bs mod 2 ^ width p = Z.of_N (le_decode bs))%Z).
      { replace (prim_int p bs) with (Z.of_N (le_decode bs) + - k * 2 ^ width p)%Z by lia. rewrite Z.mod_add by (destruct p; discriminate). apply Z.mod_small. rewrite Hpw. lia. }
      rewrite Hm in Hd. lia. }
    rewrite <- (le_encode_decode _ HF'), Hdec. replace (List.length (int_bytes q (prim_int p bs))) with (List.length bs) by lia. apply le_encode_decode, HF.
Qed.
Lemma enum_prim_size sz : sz = 1 \/ sz = 2 \/ sz = 4 -> prim_size (enum_prim sz) = sz.
Proof. intros [->|[->| ->]]; reflexivity. Qed.

Lemma collect_intro n : forall i f l, List.length l = n -> (forall k x, nth_error l k = Some x -> f (i + N.of_nat k) = Ok x) -> collect n i f = Ok l.
Proof.
  induction n as [|n IH]; intros i f l Hl H; [destruct l; [reflexivity|discriminate Hl]|]. destruct l as [|x l]; [discriminate Hl|].
  cbn [collect]. pose proof (H O x eq_refl) as H0. cbn in H0. rewrite N.add_0_r in H0. rewrite H0. cbn [bind].
  rewrite (IH (i + 1) f l); [reflexivity|injection Hl as Hl; exact Hl|]. intros k y Hk. replace (i + 1 + N.of_nat k) with (i + N.of_nat (S k)) by lia. apply H. exact Hk.
Qed.
Lemma forall2_nth {A B} (P : A -> B -> Prop) l l' k y : Forall2 P l l' -> nth_error l' k = Some y -> exists x, nth_error l k = Some x /\ P x y.
Proof. intros H. revert k. induction H as [|x z l l' H1 _ IH]; intros [|k] Hk; try discriminate Hk; cbn in *; [injection Hk as ->; eauto|apply IH, Hk]. Qed.
Lemma Forall2_length {A B} (P : A -> B -> Prop) l l' : Forall2 P l l' -> List.length l = List.length l'.
Proof. induction 1; cbn; congruence. Qed.
Lemma nth_firstn_some {A} n (l : list A) k x : nth_error (firstn n l) k = Some x -> nth_error l k = Some x.
Proof. revert l k. induction n as [|n IH]; intros [|y l] [|k] H; cbn in *; try discriminate H; auto. Qed.
Lemma at_most_some {A} bd (l : list A) k x : nth_error (at_most bd l) k = Some x -> nth_error l k = Some x.
Proof. unfold at_most. destruct (bd =? 0); [auto|apply nth_firstn_some]. Qed.
Lemma at_most_length {A} bd (l : list A) : N.of_nat (List.length (at_most bd l)) = bound_min (N.of_nat (List.length l)) bd.
Proof. unfold at_most, bound_min. destruct (bd =? 0); [reflexivity|]. rewrite firstn_length. lia. Qed.

Section Conv.
  Variable fc : prim -> prim -> list N -> list N.

  Lemma scalar_cv q o b off v v' d doff : good o -> live o b off -> read o b off = Ok v -> scalar_converts fc q o v v' -> alloc d doff (prim_size q) ->
    exists d' bs, copy_prim_from fc q b o off d doff = Ok d' /\ agree_out d d' doff (prim_size q) /\ bytes_at d' doff (prim_size q) /\
      read_bytes d' doff (prim_size q) = Ok bs /\ v' = VBytes bs.
  Proof.
    intros Hg L R Hc Ha. destruct (bare_spec o Hg b off v L R) as (o' & w & E & Ho' & Hg' & L' & R'). unfold scalar_converts in Hc. rewrite E in Hc. unfold copy_prim_from. rewrite <- Ho'.
    assert (Hgo : forall p bs, bytes_at b off (prim_size p) -> read_bytes b off (prim_size p) = Ok bs -> v' = VBytes (convert fc p q bs) ->
      exists d' bs', (do bs <- read_bytes b off (prim_size p); write_bytes d doff (convert fc p q bs)) = Ok d' /\ agree_out d d' doff (prim_size q) /\ bytes_at d' doff (prim_size q) /\
        read_bytes d' doff (prim_size q) = Ok bs' /\ v' = VBytes bs').
    { intros p bs Hb Hr ->. destruct (read_bytes_wf _ _ _ _ Hb Hr) as [Hl HF]. destruct (convert_wf fc p q bs Hl HF) as [Hl' HF']. rewrite Hr. cbn [bind].
      destruct (write_bytes_spec d doff (convert fc p q bs)) as (d' & W1 & W2 & W3); [rewrite Hl'; exact Ha|]. rewrite Hl' in *. exists d', (convert fc p q bs).
      split; [exact W1|]. split; [exact W2|]. split; [exact (written_bytes_at _ _ _ _ Hl' W3 HF')|]. split; [|reflexivity]. apply read_bytes_spec. auto. }
    destruct o' as [p|nm sz vals| | | | | | | |]; try contradiction Hc.
    - cbn [read] in R'. apply bind_ok in R' as (bs & Er & R'). injection R' as <-. apply (Hgo p bs L' Er Hc).
    - cbn [read] in R'. apply bind_ok in R' as (bs & Er & R'). injection R' as <-. destruct Hc as [-> Hc]. apply (Hgo PU32 bs L' Er Hc).
  Qed.
  (** Raw bytes are the conversion where [elements_ok] says so. *)
  Lemma raw_cv q c' b off x x' : good c' -> live c' b off -> read c' b off = Ok x -> scalar_converts fc q c' x x' -> elements_ok (TPrim q) c' -> prim_size q = msize c' ->
    exists bs, bytes_at b off (prim_size q) /\ read_bytes b off (prim_size q) = Ok bs /\ x' = VBytes bs.
  Proof.
    intros Hg L R Hc He Hs. destruct (bare_spec c' Hg b off x L R) as (o' & w & E & Ho' & Hg' & L' & R'). unfold scalar_converts in Hc. rewrite E in Hc.
    specialize (He Hs). rewrite <- Ho' in He. pose proof (msize_strip1 c' Hg) as Hm. rewrite <- Ho', <- Hs in Hm.
    destruct o' as [p|nm sz vals| | | | | | | |]; try contradiction Hc; cbn [msize] in Hm; cbn [live read] in *; apply bind_ok in R' as (bs & Er & R'); injection R' as <-.
    - destruct (read_bytes_wf _ _ _ _ L' Er) as [Hl HF]. exists bs. rewrite <- Hm. split; [exact L'|]. split; [exact Er|]. rewrite Hc. f_equal. apply convert_bytewise; assumption.
    - destruct Hc as [-> Hc]. destruct He as [_ He]. destruct (read_bytes_wf _ _ _ _ L' Er) as [Hl HF]. exists bs. rewrite <- Hm. split; [exact L'|]. split; [exact Er|]. rewrite Hc. f_equal.
      apply convert_bytewise; try assumption.
  Qed.

  Definition cv_spec (t : ty) : Prop := forall o b off v v' d doff, good o -> live o b off -> read o b off = Ok v ->
    converts fc t o v v' -> alloc d doff (msize t) -> cv t d doff (copy_from fc b t o off d doff) v'.

  Lemma fill_cv c c' src soff d doff n l l' : good c -> good c' -> cv_spec c -> elements_ok c c' ->
    (forall k x, nth_error l k = Some x -> live c' src (soff + N.of_nat k * msize c') /\ read c' src (soff + N.of_nat k * msize c') = Ok x) ->
    Forall2 (converts fc c c') l l' -> N.of_nat (List.length l') = n -> alloc d doff (n * msize c) ->
    exists d', (if is_constructed_type c || negb (msize c =? msize c')
                then for_up n (fun i d => copy_from fc src c c' (soff + i * msize c') d (doff + i * msize c)) d
                else memcpy d doff src soff (n * msize c)) = Ok d' /\ agree_out d d' doff (n * msize c) /\
      forall k x, nth_error l' k = Some x -> live c d' (doff + N.of_nat k * msize c) /\ read c d' (doff + N.of_nat k * msize c) = Ok x.
  Proof.
    intros Hg Hg' IH He Hsrc HF Hn Ha.
    assert (Hlk : forall i, i < n -> exists x x', nth_error l (N.to_nat i) = Some x /\ nth_error l' (N.to_nat i) = Some x' /\ converts fc c c' x x').
    { intros i Hi. destruct (nth_error l' (N.to_nat i)) as [x'|] eqn:E; [|apply nth_error_None in E; lia]. destruct (forall2_nth _ _ _ _ _ HF E) as (x & Hx & Hc). eauto. }
    destruct (is_constructed_type c || negb (msize c =? msize c')) eqn:Ed.
    - destruct (for_up_slots doff (msize c) (fun i d => copy_from fc src c c' (soff + i * msize c') d (doff + i * msize c))
                  (fun i d => alloc d (doff + i * msize c) (msize c))
                  (fun i d => live c d (doff + i * msize c) /\ forall x, nth_error l' (N.to_nat i) = Some x -> read c d (doff + i * msize c) = Ok x)
                  n d) as (d' & H1 & H2 & H3).
      + intros i d0 Hi Ha0. destruct (Hlk i Hi) as (x & x' & Hx & Hx' & Hc). destruct (Hsrc _ _ Hx) as [L R]. rewrite N2Nat.id in L, R.
        destruct (IH c' src _ x x' d0 (doff + i * msize c) Hg' L R Hc Ha0) as (d' & E & A & L' & R'). exists d'. split; [exact E|]. split; [exact A|]. split; [exact L'|]. intros y Hy. congruence.
      + intros i d0 d' Hi. apply alloc_same.
      + intros i d0 d' Hi S [L R]. split; [eapply live_local; eassumption|]. intros x Hx. rewrite (read_local c _ _ _ _ Hg S). apply R, Hx.
      + intros i Hi. eapply alloc_sub; [exact Ha|nia].
      + exists d'. split; [exact H1|]. split; [exact H2|]. intros k x Hk. assert (Hlt : N.of_nat k < n) by (subst n; pose proof (nth_error_Some l' k) as Hs; rewrite Hk in Hs; assert (k < List.length l')%nat by (apply Hs; discriminate); lia).
        destruct (H3 _ Hlt) as [L R]. split; [exact L|]. apply R. rewrite Nat2N.id. exact Hk.
    - apply orb_false_iff in Ed as [Ec Em]. apply negb_false_iff, N.eqb_eq in Em. destruct (constructed_prim _ Ec) as [q ->]. cbn [msize] in *.
      assert (Hraw : forall i, i < n -> exists x' bs, nth_error l' (N.to_nat i) = Some x' /\ bytes_at src (soff + i * prim_size q) (prim_size q) /\ read_bytes src (soff + i * prim_size q) (prim_size q) = Ok bs /\ x' = VBytes bs).
      { intros i Hi. destruct (Hlk i Hi) as (x & x' & Hx & Hx' & Hc). destruct (Hsrc _ _ Hx) as [L R]. rewrite N2Nat.id, <- Em in L, R.
        destruct (raw_cv q c' src _ x x' Hg' L R Hc He Em) as (bs & H1 & H2 & H3). eauto 6. }
      destruct (memcpy_spec d doff src soff (n * prim_size q)) as (d' & H1 & H2 & H3); [|exact Ha|].
      { apply slots_bytes. intros i Hi. destruct (Hraw i Hi) as (x' & bs & _ & Hb & _). exact Hb. }
      exists d'. split; [exact H1|]. split; [exact H2|]. intros k x Hk.
      assert (Hlt : N.of_nat k < n) by (subst n; pose proof (nth_error_Some l' k) as Hs; rewrite Hk in Hs; assert (k < List.length l')%nat by (apply Hs; discriminate); lia).
      destruct (Hraw _ Hlt) as (x' & bs & Hx' & Hb & Hr & ->). rewrite Nat2N.id, Hk in Hx'. injection Hx' as ->.
      assert (S : same src (soff + N.of_nat k * prim_size q) d' (doff + N.of_nat k * prim_size q) (prim_size q)) by (apply (same_sub _ _ _ _ _ _ _ H3); nia).
      cbn [live read]. split; [exact (bytes_at_same _ _ _ _ _ S Hb)|]. rewrite (read_bytes_same _ _ _ _ _ S), Hr. reflexivity.
  Qed.

  Lemma for_from_ext {A} n : forall i (f g : N -> A -> res A) a, (forall j x, i <= j -> j < i + N.of_nat n -> f j x = g j x) -> for_from n i f a = for_from n i g a.
  Proof.
    induction n as [|n IH]; intros i f g a H; [reflexivity|]. cbn [for_from]. rewrite (H i a) by lia. destruct (g i a); cbn [bind]; [|reflexivity].
    apply IH. intros j x H1 H2. apply H; lia.
  Qed.
  Lemma for_up_ext {A} n (f g : N -> A -> res A) a : (forall j x, j < n -> f j x = g j x) -> for_up n f a = for_up n g a.
  Proof. intros H. apply for_from_ext. intros j x _ Hj. apply H. lia. Qed.

  (** the size a compatible copy of a container ends up with *)
  Lemma min_size_bound ocap osize bd : osize <= ocap -> bound_min ocap bd <> 0 -> seq_min_size (bound_min ocap bd) ocap osize (bound_min osize bd) = bound_min osize bd.
  Proof.
    intros H Hc. unfold seq_min_size, bound_min in *. destruct (bd =? 0) eqn:E.
    - rewrite N.min_id. destruct (ocap =? 0) eqn:E0; [apply N.eqb_eq in E0; lia|]. rewrite E0. rewrite N.min_r by lia. destruct (osize =? 0); lia.
    - apply N.eqb_neq in E. replace (N.min (N.min ocap bd) ocap) with (N.min ocap bd) by lia. destruct (N.min ocap bd =? 0) eqn:E0; [apply N.eqb_eq in E0; lia|]. rewrite E0.
      destruct (N.min osize bd =? 0) eqn:E1; [apply N.eqb_eq in E1|]; lia.
  Qed.
  Lemma seq_cv c bd : good (TSeq c bd) -> cv_spec c -> cv_spec (TSeq c bd).
  Proof.
    intros Hg IH o b off v v' d doff Hgo Lo Ro Hc Ha. destruct (bare_spec o Hgo b off v Lo Ro) as (o' & w & E & Ho' & Hg' & L & R).
    cbn [converts] in Hc. rewrite E in Hc. rewrite copy_from_seq, <- Ho'. destruct o' as [| | | |c' bd'| | | | |]; try contradiction Hc.
    destruct w as [| |l|]; try contradiction Hc. destruct v' as [| |l'|]; try contradiction Hc. destruct Hc as (Hbd & He & HF).
    pose proof (good_seq _ _ Hg) as Hgc. pose proof (good_seq _ _ Hg') as Hgc'. destruct Hg as [_ (_ & Hm32 & Hb32 & Hb31)].
    cbn [live] in L. destruct L as (ocap & osize & m & [Ho Hi] & Hsz & Hob & H32 & H31 & Hm). rewrite (read_seq_obj c' bd' b off ocap osize m (conj Ho Hi)) in R.
    apply bind_ok in R as (l0 & Rl & R). injection R as ->. destruct (collect_nth _ _ _ _ Rl) as [Hlen Hnth]. rewrite Ho, Hi.
    set (cap := bound_min ocap bd). set (size := bound_min osize bd).
    assert (Hsize : N.of_nat (List.length (at_most bd l)) = size) by (rewrite at_most_length; unfold size; f_equal; lia).
    assert (Hcap32 : cap * msize c < 4294967296).
    { unfold cap, bound_min. destruct (bd =? 0) eqn:Eb; [apply N.eqb_eq in Eb|nia]. destruct (Hbd Eb) as [-> [H|H]]; [nia|].
      assert (Hoc : ocap <= 2 * osize) by (destruct Hob as [[_ H']|H']; [exact H'|lia]). assert (N.of_nat (List.length l) = osize) as Hll by lia. rewrite Hll in H. nia. }
    assert (Hcap : size <= cap /\ cap <= ocap /\ size <= osize) by (unfold size, cap, bound_min; destruct (bd =? 0); lia).
    assert (Hshape : bd = 0 /\ cap <= 2 * size \/ cap <= bd).
    { unfold cap, size, bound_min. destruct (bd =? 0) eqn:Eb; [apply N.eqb_eq in Eb; left|right; lia]. destruct (Hbd Eb) as [-> _]. split; [exact Eb|]. destruct Hob as [[_ H']|H']; [exact H'|lia]. }
    unfold seq_construct_copy. destruct (init_memory_live c cap Hgc Hm32 Hcap32) as (m0 & E0 & L0). rewrite E0. cbn [bind]. rewrite (wrap32_small _ Hm32).
    assert (Hobj : forall m1, (forall i, i < cap -> live c m1 (i * msize c)) -> (forall k x, nth_error l' k = Some x -> read c m1 (N.of_nat k * msize c) = Ok x) ->
      cv (TSeq c bd) d doff (put_obj d doff SZ_SEQ (CSeq c cap size m1)) (VNode l')).
    { intros m1 L1 R1. destruct (put_obj_spec d doff SZ_SEQ (CSeq c cap size m1) ltac:(reflexivity) Ha) as (d' & H1 & H2 & H3). exists d'. split; [exact H1|]. split; [exact H2|]. split.
      - cbn [live]. exists cap, size, m1. split; [exact H3|]. split; [tauto|]. split; [exact Hshape|]. split; [exact Hcap32|]. split; [lia|exact L1].
      - rewrite (read_seq_obj c bd d' doff cap size m1 H3). rewrite (collect_intro (N.to_nat size) 0 _ l'); [reflexivity| |].
        + apply Forall2_length in HF. lia.
        + intros k x Hk. apply R1, Hk. }
    destruct (cap =? 0) eqn:Ec.
    - apply N.eqb_eq in Ec. cbn [bind]. apply (Hobj m0 L0). intros k x Hk. exfalso. assert (size = 0) by lia. apply Forall2_length in HF. destruct l'; [destruct k; discriminate Hk|cbn in HF; lia].
    - apply N.eqb_neq in Ec. pose proof (min_size_bound ocap osize bd Hsz Ec) as Hmin. fold cap in Hmin. fold size in Hmin. rewrite Hmin.
      destruct (fill_cv c c' m 0 m0 0 size (at_most bd l) l' Hgc Hgc' IH He) as (m1 & H1 & H2 & H3).
      + intros k x Hk. pose proof (at_most_some _ _ _ _ Hk) as Hk'. assert (Hlt : (k < List.length l)%nat) by (apply nth_error_Some; congruence).
        destruct (Hnth k ltac:(lia)) as (y & Hy & Hr). rewrite Hk' in Hy. injection Hy as <-. rewrite !N.add_0_l. rewrite N.add_0_l in Hr. split; [apply Hm; lia|exact Hr].
      + exact HF.
      + apply Forall2_length in HF. lia.
      + intros i Hi'. assert (Hk : 0 < msize c) by nia. pose proof (N.div_mod i (msize c) ltac:(lia)) as Ed. pose proof (N.mod_lt i (msize c) ltac:(lia)) as Ed2.
        assert (Hq : i / msize c < size) by (apply N.div_lt_upper_bound; lia). pose proof (live_alloc _ (proj1 Hgc) _ _ (L0 (i / msize c) ltac:(lia)) _ Ed2) as Hal.
        replace (i / msize c * msize c + i mod msize c) with (0 + i) in Hal by lia. exact Hal.
      + assert (Eq : (if is_constructed_type c || negb (msize c =? msize c') then for_up size (fun i d0 => copy_from fc m c c' (i * msize c') d0 (wrap32 (i * msize c))) m0
                      else memcpy m0 0 m 0 (wrap32 (size * msize c))) = Ok m1).
        { rewrite <- H1. destruct (_ || _).
          - apply for_up_ext. intros j x Hj. rewrite wrap32_small by nia. rewrite !N.add_0_l. reflexivity.
          - rewrite wrap32_small by nia. reflexivity. }
        rewrite Eq. cbn [bind]. apply (Hobj m1).
        * intros i Hi'. destruct (i <? size) eqn:Ei; [apply N.ltb_lt in Ei|apply N.ltb_ge in Ei].
          -- destruct (nth_error l' (N.to_nat i)) as [x|] eqn:Ex; [|apply nth_error_None in Ex; apply Forall2_length in HF; lia].
             destruct (H3 _ _ Ex) as [L1 _]. rewrite N2Nat.id, N.add_0_l in L1. exact L1.
          -- eapply live_local; [exact Hgc| |apply L0, Hi']. eapply agree_out_same; [exact H2|]. right. nia.
        * intros k x Hk. destruct (H3 _ _ Hk) as [_ R1]. rewrite N.add_0_l in R1. exact R1.
  Qed.
  Lemma map_cv k w bd : good (TMap k w bd) -> cv_spec (TMap k w bd).
  Proof.
    intros Hg o b off v v' d doff Hgo Lo Ro Hc Ha. destruct (bare_spec o Hgo b off v Lo Ro) as (o' & u & E & Ho' & Hg' & L & R).
    cbn [converts] in Hc. rewrite E in Hc. rewrite copy_from_map, <- Ho'. destruct o' as [| | | | |k' w' bd'| | | |]; try contradiction Hc.
    destruct u as [| |l|]; try contradiction Hc. destruct Hc as (-> & -> & Hck & Hcw & Hbd & ->). rewrite String.eqb_refl.
    pose proof (good_map _ _ _ Hg) as Hgp. apply good_pair_iff in Hgp. destruct Hg as [_ (_ & _ & Hm32 & Hb32 & Hb31)].
    assert (He : el_spec fc (TPair k w)) by (apply cf_spec_self, copy_from_self; [exact Hgp|split; assumption]).
    cbn [live] in L. destruct L as (ocap & osize & m & [Ho Hi] & Hsz & Hob & H32 & H31 & Hm). rewrite (read_map_obj k w bd' b off ocap osize m (conj Ho Hi)) in R.
    apply bind_ok in R as (l0 & Rl & R). injection R as ->. destruct (collect_nth _ _ _ _ Rl) as [Hlen Hnth]. rewrite Ho, Hi.
    set (cap := bound_min ocap bd). set (size := bound_min osize bd). set (T := TPair k w) in *.
    assert (HmT : forall i, i < ocap -> live T m (i * msize T)) by exact Hm.
    assert (Hsize : N.of_nat (List.length (at_most bd l)) = size) by (rewrite at_most_length; unfold size; f_equal; lia).
    assert (Hcap : size <= cap /\ cap <= ocap /\ size <= osize) by (unfold size, cap, bound_min; destruct (bd =? 0); lia).
    assert (Hcap32 : cap * msize T < 4294967296) by (unfold T; cbn [msize]; nia).
    assert (Hshape : bd = 0 /\ cap <= 2 * size \/ cap <= bd).
    { unfold cap, size, bound_min. destruct (bd =? 0) eqn:Eb; [apply N.eqb_eq in Eb; left|right; lia]. rewrite (Hbd Eb) in Hob. split; [exact Eb|]. destruct Hob as [[_ H']|H']; [exact H'|lia]. }
    unfold map_construct_copy. fold T. destruct (init_memory_live T cap Hgp Hm32 Hcap32) as (m0 & E0 & L0). rewrite E0. cbn [bind].
    assert (Hobj : forall m1, (forall i, i < cap -> live T m1 (i * msize T)) -> (forall i, i < size -> read T m1 (i * msize T) = read T m (i * msize T)) ->
      cv (TMap k w bd) d doff (put_obj d doff SZ_MAP (CMap k w cap size m1)) (VNode (at_most bd l))).
    { intros m1 L1 R1. destruct (put_obj_spec d doff SZ_MAP (CMap k w cap size m1) ltac:(reflexivity) Ha) as (d' & H1 & H2 & H3). exists d'. split; [exact H1|]. split; [exact H2|]. split.
      - cbn [live]. exists cap, size, m1. split; [exact H3|]. split; [tauto|]. split; [exact Hshape|]. split; [exact Hcap32|]. split; [lia|exact L1].
      - rewrite (read_map_obj k w bd d' doff cap size m1 H3). fold T. rewrite (collect_intro (N.to_nat size) 0 _ (at_most bd l)); [reflexivity|lia|].
        intros j x Hj. assert (Hlt : (j < List.length (at_most bd l))%nat) by (apply nth_error_Some; congruence). rewrite N.add_0_l, R1 by lia.
        destruct (Hnth j ltac:(lia)) as (y & Hy & Hr). rewrite (at_most_some _ _ _ _ Hj) in Hy. injection Hy as <-. exact Hr. }
    destruct (cap =? 0) eqn:Ec.
    - apply N.eqb_eq in Ec. cbn [bind]. apply (Hobj m0 L0). intros i Hi'. lia.
    - apply N.eqb_neq in Ec. pose proof (min_size_bound ocap osize bd Hsz Ec) as Hmin. fold cap in Hmin. fold size in Hmin. rewrite Hmin.
      destruct (copy_content_spec T cap size m (copy_from fc m T T) (is_constructed_type k || is_constructed_type w) m0) as (m1 & H1 & H2 & H3); try assumption; try tauto.
      + intros i Hi'. apply HmT. lia.
      + intros off0 d0 doff0. apply He.
      + intros Hd off0 Hl. apply orb_false_iff in Hd as [Hd1 Hd2]. destruct (constructed_prim _ Hd1) as [p Hp]. destruct (constructed_prim _ Hd2) as [q Hq]. unfold T in *. rewrite Hp, Hq in *.
        destruct Hl as [L1 L2]. cbn [live msize] in *. intros i Hi'. destruct (i <? prim_size p) eqn:Ei; [apply N.ltb_lt in Ei; apply L1, Ei|apply N.ltb_ge in Ei].
        specialize (L2 (i - prim_size p) ltac:(lia)). replace (off0 + prim_size p + (i - prim_size p)) with (off0 + i) in L2 by lia. exact L2.
      + rewrite H1. cbn [bind]. apply (Hobj m1 H2 H3).
  Qed.

  (** ** Members *)
  Fixpoint members_convert (ms oms : list member) (l l' : list value) : Prop :=
    match ms, oms, l, l' with
    | [], _, _, [] => True
    | m :: r, om :: orest, x :: lr, x' :: lr' => converts fc (m_type m) (m_type om) x x' /\ members_convert r orest lr lr'
    | [m], [], [], [x'] => x' = default_value (m_type m)
    | _, _, _, _ => False
    end.
  Lemma members_convert_eq ms : forall oms l l',
    (fix go (ms oms : list (string * N * ty)) (l l' : list value) {struct ms} : Prop :=
                   match ms, oms, l, l' with
                   | [], _, _, [] => True
                   | (_, _, mt) :: r, (_, _, ot) :: orest, x :: lr, x' :: lr' => converts fc mt ot x x' /\ go r orest lr lr'
                   | [(_, _, mt)], [], [], [x'] => x' = default_value mt
                   | _, _, _, _ => False
                   end) ms oms l l' -> members_convert ms oms l l'.
  Proof.
    induction ms as [|[[n o] t] r IH]; intros [|[[n' o'] t'] oms] [|x l] [|x' l']; cbn [members_convert m_type snd]; try (intros H; exact H); try (destruct r as [|[[? ?] ?] ?]; intros H; exact H);
      try (destruct r as [|[[? ?] ?] ?]; destruct l' as [|? ?]; intros H; exact H).
    destruct r as [|r0 r']; (intros [H1 H2]; split; [exact H1|apply IH, H2]).
  Qed.
  Lemma members_cv b off doff ms : forall o oms l l' d, laid_out o ms -> Forall (fun m => good (m_type m)) ms -> Forall (fun m => cv_spec (m_type m)) ms ->
    Forall (fun m => good (m_type m)) oms -> Forall (fun m => live (m_type m) b (off + m_off m)) oms -> mmap (fun m => read (m_type m) b (off + m_off m)) oms = Ok l ->
    alloc d (doff + o) (total_size ms) -> members_convert ms oms l l' ->
    exists d', cf_members fc b off doff ms oms false d = Ok d' /\ agree_out d d' (doff + o) (total_size ms) /\
      Forall (fun m => live (m_type m) d' (doff + m_off m)) ms /\ mmap (fun m => read (m_type m) d' (doff + m_off m)) ms = Ok l'.
  Proof.
    induction ms as [|m r IH]; intros o oms l l' d Hlo Hg Hcv Hgo Ho Hr Ha Hc.
    - exists d. split; [reflexivity|]. split; [apply agree_out_refl|]. split; [constructor|]. destruct l'; [reflexivity|]. destruct oms, l; contradiction Hc.
    - destruct Hlo as [Hmo Hlo]. inversion Hg as [|? ? Hgm Hgr]; subst. inversion Hcv as [|? ? Hcm Hcr]; subst. unfold total_size in *. cbn [fold_right] in *. fold (total_size r) in *.
      assert (Hrest : forall d1 x' lr' orest (past : bool) lr, agree_out d d1 (doff + m_off m) (msize (m_type m)) -> live (m_type m) d1 (doff + m_off m) -> read (m_type m) d1 (doff + m_off m) = Ok x' ->
        (exists d', cf_members fc b off doff r orest past d1 = Ok d' /\ agree_out d1 d' (doff + (m_off m + msize (m_type m))) (total_size r) /\
          Forall (fun m => live (m_type m) d' (doff + m_off m)) r /\ mmap (fun m => read (m_type m) d' (doff + m_off m)) r = Ok lr') ->
        exists d', cf_members fc b off doff r orest past d1 = Ok d' /\ agree_out d d' (doff + m_off m) (msize (m_type m) + total_size r) /\
          Forall (fun m => live (m_type m) d' (doff + m_off m)) (m :: r) /\ mmap (fun m => read (m_type m) d' (doff + m_off m)) (m :: r) = Ok (x' :: lr') /\ lr = lr :> list value).
      { intros d1 x' lr' orest past lr A L R (d' & E & A' & L' & R'). exists d'. split; [exact E|].
        assert (S : same d1 (doff + m_off m) d' (doff + m_off m) (msize (m_type m))) by (eapply agree_out_same; [exact A'|left; lia]).
        split; [eapply agree_out_trans; [exact A|exact A'|lia|lia|lia|lia]|]. split; [constructor; [eapply live_local; eassumption|exact L']|]. split; [|reflexivity].
        cbn [mmap]. rewrite (read_local _ _ _ _ _ Hgm S), R. cbn [bind]. rewrite R'. reflexivity. }
      cbn [cf_members]. destruct oms as [|om orest].
      + cbn [mmap] in Hr. injection Hr as <-. destruct r as [|m2 r]; [|destruct l' as [|? [|? ?]]; contradiction Hc]. destruct l' as [|x' [|? ?]]; try contradiction Hc. cbn [members_convert] in Hc. subst x'.
        destruct (construct_spec (m_type m) Hgm d (doff + m_off m)) as (d1 & E & A & L & R); [intros i Hi; apply Ha; lia|]. rewrite E. cbn [bind].
        destruct (Hrest d1 _ [] [] true [] A L R) as (d' & H1 & H2 & H3 & H4 & _); [|eauto].
        exists d1. split; [reflexivity|]. split; [apply agree_out_refl|]. split; [constructor|reflexivity].
      + inversion Hgo as [|? ? Hgom Hgor]; subst. inversion Ho as [|? ? Hlom Hlor]; subst. cbn [mmap] in Hr. destruct (read (m_type om) b (off + m_off om)) as [x|] eqn:Ex; [|discriminate Hr]. cbn [bind] in Hr.
        apply bind_ok in Hr as (lr & Er & Hr). injection Hr as <-. destruct l' as [|x' lr']; [destruct r; contradiction Hc|]. assert (Hc' : converts fc (m_type m) (m_type om) x x' /\ members_convert r orest lr lr') by (destruct r; exact Hc). clear Hc. destruct Hc' as [Hcx Hc].
        destruct (Hcm (m_type om) b _ x x' d (doff + m_off m) Hgom Hlom Ex Hcx) as (d1 & E & A & L & R); [intros i Hi; apply Ha; lia|]. rewrite E. cbn [bind].
        destruct (Hrest d1 x' lr' orest false lr A L R) as (d' & H1 & H2 & H3 & H4 & _); [|eauto].
        apply (IH (m_off m + msize (m_type m)) orest lr lr' d1 Hlo Hgr Hcr Hgor Hlor Er); [|exact Hc].
        eapply alloc_same; [eapply agree_out_same; [exact A|right; lia]|]. replace (doff + (m_off m + msize (m_type m))) with (doff + m_off m + msize (m_type m)) by lia. eapply alloc_sub; [exact Ha|lia].
  Qed.

  Theorem converts_spec t : good t -> cv_spec t.
  Proof.
    induction t as [p|nm sz vals|k bd|nm c n IHc|c bd IHc|k w bd IHk IHw|x y IHx IHy|nm s ms IHms|nm s ms labels dv iv df IHms|nm a IHa]
      using ty_ind'; intros Hg.
    - intros o b off v v' d doff Hgo Lo Ro Hc Ha. rewrite copy_from_prim. destruct (scalar_cv p o b off v v' d doff Hgo Lo Ro Hc Ha) as (d' & bs & E & A & L & R & ->).
      exists d'. split; [exact E|]. split; [exact A|]. split; [exact L|]. cbn [read]. rewrite R. reflexivity.
    - intros o b off v v' d doff Hgo Lo Ro Hc Ha. rewrite copy_from_enum. pose proof Hg as [Hw _]. assert (Hsz : prim_size (enum_prim sz) = sz) by (apply enum_prim_size; cbn [wf_ty] in Hw; tauto).
      destruct (scalar_cv (enum_prim sz) o b off v v' d doff Hgo Lo Ro Hc) as (d' & bs & E & A & L & R & ->); [rewrite Hsz; exact Ha|]. rewrite Hsz in *.
      exists d'. split; [exact E|]. split; [exact A|]. split; [exact L|]. cbn [read]. rewrite R. reflexivity.
    - intros o b off v v' d doff Hgo Lo Ro Hc Ha. destruct (bare_spec o Hgo b off v Lo Ro) as (o' & u & E & Ho' & Hg' & L & R). cbn [converts] in Hc. rewrite E in Hc.
      rewrite copy_from_str, <- Ho'. destruct o' as [| |k' bd'| | | | | | |]; try contradiction Hc. destruct u as [|s| |]; try contradiction Hc. destruct Hc as [<- ->]. rewrite skind_eqb_refl.
      cbn [live] in L. destruct L as (s' & [H1 H2] & _). cbn [read] in R. rewrite H1, H2, skind_eqb_refl in R. cbn [andb] in R. injection R as ->. unfold copy_str. rewrite H1, H2, skind_eqb_refl. cbn [andb].
      destruct (put_obj_spec d doff SZ_STRING (CStr k (list_trunc bd s)) ltac:(reflexivity) Ha) as (d' & P1 & P2 & [P3 P4]). exists d'. split; [exact P1|]. split; [exact P2|]. split.
      + cbn [live]. exists (list_trunc bd s). split; [split; assumption|]. unfold list_trunc. destruct (bd =? 0) eqn:Eb; [left; apply N.eqb_eq, Eb|right]. rewrite firstn_length. lia.
      + cbn [read]. rewrite P3, P4, skind_eqb_refl. reflexivity.
    - intros o b off v v' d doff Hgo Lo Ro Hc Ha. destruct (bare_spec o Hgo b off v Lo Ro) as (o' & u & E & Ho' & Hg' & L & R). cbn [converts] in Hc. rewrite E in Hc.
      rewrite copy_from_arr, <- Ho'. destruct o' as [| | |nm' c' n'| | | | | |]; try contradiction Hc. destruct u as [| |l|]; try contradiction Hc. destruct v' as [| |l'|]; try contradiction Hc.
      destruct Hc as (Hn & He & HF). pose proof (good_arr _ _ _ Hg) as Hgc. pose proof (good_arr _ _ _ Hg') as Hgc'. cbn [live read] in L, R. apply bind_ok in R as (l0 & Rl & R). injection R as ->.
      destruct (collect_nth _ _ _ _ Rl) as [Hlen Hnth]. rewrite (N.min_l n n' Hn).
      assert (Hl' : N.of_nat (List.length l') = n) by (apply Forall2_length in HF; rewrite firstn_length in HF; lia).
      destruct (fill_cv c c' b off d doff n (firstn (N.to_nat n) l) l' Hgc Hgc' (IHc Hgc) He) as (d' & H1 & H2 & H3); [|exact HF|exact Hl'|exact Ha|].
      + intros k x Hk. apply nth_firstn_some in Hk. assert (Hlt : (k < List.length l)%nat) by (apply nth_error_Some; congruence).
        destruct (Hnth k ltac:(lia)) as (y & Hy & Hr). rewrite Hk in Hy. injection Hy as <-. rewrite N.add_0_l in Hr. split; [apply L; lia|exact Hr].
      + exists d'. split; [exact H1|]. split; [exact H2|]. split.
        * cbn [live]. intros i Hi. destruct (nth_error l' (N.to_nat i)) as [x|] eqn:Ex; [|apply nth_error_None in Ex; lia]. destruct (H3 _ _ Ex) as [L1 _]. rewrite N2Nat.id in L1. exact L1.
        * cbn [read]. rewrite (collect_intro (N.to_nat n) 0 _ l'); [reflexivity|lia|]. intros k x Hk. rewrite N.add_0_l. apply H3, Hk.
    - apply seq_cv; [exact Hg|apply IHc, (good_seq _ _ Hg)].
    - apply map_cv, Hg.
    - intros o b off v v' d doff Hgo Lo Ro Hc Ha. destruct (bare_spec o Hgo b off v Lo Ro) as (o' & u & E & Ho' & Hg' & L & R). cbn [converts] in Hc. rewrite E in Hc.
      rewrite copy_from_pair, <- Ho'. destruct o' as [| | | | | |x' y'| | |]; try contradiction Hc. destruct u as [| |[|a [|e [|? ?]]]|]; try contradiction Hc. destruct v' as [| |[|a' [|e' [|? ?]]]|]; try contradiction Hc.
      destruct Hc as (Hs & Hca & Hce). pose proof (good_pair _ _ Hg) as [Hgx Hgy]. pose proof (good_pair _ _ Hg') as [Hgx' Hgy']. cbn [live read] in L, R. destruct L as [L1 L2].
      apply bind_ok in R as (a0 & Ra & R). apply bind_ok in R as (e0 & Re & R). injection R as -> ->. rewrite <- Hs in L2, Re. cbn [msize] in Ha.
      destruct (IHx Hgx x' b off a a' d doff Hgx' L1 Ra Hca) as (d1 & E1 & A1 & M1 & R1); [intros i Hi; apply Ha; lia|].
      destruct (IHy Hgy y' b _ e e' d1 (doff + msize x) Hgy' L2 Re Hce) as (d2 & E2 & A2 & M2 & R2).
      { eapply alloc_same; [eapply agree_out_same; [exact A1|right; lia]|]. eapply alloc_sub; [exact Ha|lia]. }
      exists d2. rewrite E1. cbn [bind]. split; [exact E2|]. split; [cbn [msize]; eapply agree_out_trans; [exact A1|exact A2|lia|lia|lia|lia]|].
      assert (S : same d1 doff d2 doff (msize x)) by (eapply agree_out_same; [exact A2|left; lia]).
      split; cbn [live read]; [split; [eapply live_local; eassumption|exact M2]|]. rewrite (read_local x _ _ _ _ Hgx S), R1, R2. reflexivity.
    - intros o b off v v' d doff Hgo Lo Ro Hc Ha. cbn [converts] in Hc. destruct v' as [| |l'|]; try contradiction Hc.
      assert (Hms : Forall (fun m => good (m_type m)) ms) by (apply Forall_forall; intros m Hm; exact (good_struct _ _ _ _ Hg Hm)).
      assert (Hcv : Forall (fun m => cv_spec (m_type m)) ms).
      { rewrite Forall_forall in IHms |- *. intros m Hm. apply (IHms m Hm). exact (good_struct _ _ _ _ Hg Hm). }
      pose proof Hg as [Hw _]. apply wf_struct_iff in Hw as (Hlo & Hs & _). cbn [msize] in Ha.
      assert (Hro : good (rget o) /\ live (rget o) b off /\ read (rget o) b off = Ok v).
      { split; [apply good_rget, Hgo|]. clear - Lo Ro. induction o using ty_ind'; try (split; assumption). cbn [rget]. apply IHo; assumption. }
      destruct Hro as (Hgr & Lr & Rr).
      assert (Hfin : forall oms nm' s' l, rget o = TStruct nm' s' oms -> v = VNode l -> members_convert ms oms l l' ->
        cv (TStruct nm s ms) d doff (cf_members fc b off doff ms oms false d) (VNode l')).
      { intros oms nm' s' l Ero -> Hmc. rewrite Ero in *. apply live_struct in Lr. rewrite read_struct in Rr. apply bind_ok in Rr as (l0 & Rl & Rr). injection Rr as ->.
        assert (Homs : Forall (fun m => good (m_type m)) oms) by (apply Forall_forall; intros m Hm; exact (good_struct _ _ _ _ Hgr Hm)).
        destruct (members_cv b off doff ms 0 oms l l' d Hlo Hms Hcv Homs Lr Rl) as (d' & H1 & H2 & H3 & H4); [rewrite N.add_0_r, <- Hs; exact Ha|exact Hmc|].
        rewrite N.add_0_r, <- Hs in H2. exists d'. split; [exact H1|]. split; [exact H2|]. split; [apply live_struct, H3|]. rewrite read_struct, H4. reflexivity. }
      rewrite copy_from_struct. destruct (rget o) as [p| | | | | | |nm' s' oms| |] eqn:Ero; try (destruct v as [| |l|]; try contradiction Hc;
        try (apply members_convert_eq in Hc; destruct ms as [|m1 [|m2 r]]; exact (Hfin oms nm' s' l eq_refl eq_refl Hc)));
      (destruct ms as [|[[mn mo] mt] [|m2 r]]; try contradiction Hc; destruct l' as [|x' [|? ?]]; try contradiction Hc;
       inversion Hms as [|? ? Hgm _]; subst; inversion Hcv as [|? ? Hcm _]; subst; cbn [m_type snd] in *; cbn in Hlo; destruct Hlo as [Hmo _]; cbn [m_off fst snd] in Hmo; subst mo;
       unfold total_size in *; cbn [fold_right m_type snd] in *; rewrite N.add_0_r in *;
       destruct (Hcm _ b off _ x' d doff Hgr Lr Rr Hc Ha) as (d' & E & A & L & R); exists d'; (split; [exact E|]); (split; [exact A|]); split;
       [cbn [live]; rewrite N.add_0_r; exact (conj L I)|rewrite read_struct; cbn [mmap m_type m_off fst snd]; rewrite N.add_0_r, R; reflexivity]).
    - intros o b off v v' d doff Hgo Lo Ro Hc Ha. cbn [converts] in Hc. destruct Hc as (-> & Hcf & ->).
      destruct (copy_from_self fc _ Hg Hcf _ b off d doff eq_refl (fun _ => eq_refl) Lo Ha) as (d' & E & A & L & R). exists d'. split; [exact E|]. split; [exact A|]. split; [exact L|]. congruence.
    - intros o b off v v' d doff Hgo Lo Ro Hc Ha. rewrite copy_from_alias. cbn [converts msize] in *. exact (IHa (good_alias _ _ Hg) o b off v v' d doff Hgo Lo Ro Hc Ha).
  Qed.
End Conv.
