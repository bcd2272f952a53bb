(** compare_instance decides equality of the denoted values (floating point aside). *)
From Verif Require Import Base Types TypeBuild TypeSpec TyInd CompatFacts2 Layout Mem MemSpec MemEqns MemFacts ConstructFacts CopyFacts.

(** ** live instances denote a value *)
Lemma collect_total n i f : (forall j, i <= j -> j < i + N.of_nat n -> exists v, f j = Ok v) ->
  exists l, collect n i f = Ok l.
Proof.
  revert i. induction n as [|n IH]; intros i H; [eexists; reflexivity|]. cbn [collect].
  destruct (H i ltac:(lia) ltac:(lia)) as [v ->]. cbn [bind].
  destruct (IH (i + 1)) as [l ->]; [intros j H1 H2; apply H; lia|]. eexists; reflexivity.
Qed.
Lemma mmap_total {X A} (f : X -> res A) l : (forall x, In x l -> exists v, f x = Ok v) -> exists r, mmap f l = Ok r.
Proof.
  induction l as [|x r IH]; intros H; [eexists; reflexivity|]. cbn [mmap].
  destruct (H x (or_introl eq_refl)) as [v ->]. cbn [bind].
  destruct IH as [y ->]; [intros y Hy; apply H; right; exact Hy|]. eexists; reflexivity.
Qed.
Lemma live_read t : good t -> forall b off, live t b off -> exists v, read t b off = Ok v.
Proof.
  induction t as [p|nm sz vals|k bd|nm c n IHc|c bd IHc|k v bd IHk IHv|x y IHx IHy|nm s ms IHms|nm s ms labels dv iv d IHms|nm a IHa]
    using ty_ind'; intros Hg b off Hl.
  - cbn [read]. destruct (bytes_at_read _ _ _ Hl) as (bs & -> & _). eexists; reflexivity.
  - cbn [read]. destruct (bytes_at_read _ _ _ Hl) as (bs & -> & _). eexists; reflexivity.
  - cbn [live read] in *. destruct Hl as (s & [-> ->] & _). rewrite skind_eqb_refl. eexists; reflexivity.
  - cbn [live read] in *. destruct (collect_total (N.to_nat n) 0 (fun i => read c b (off + i * msize c))) as [l ->].
    + intros j _ Hj. apply IHc; [eapply good_arr, Hg|]. apply Hl. lia.
    + eexists; reflexivity.
  - cbn [live] in Hl. destruct Hl as (cap & size & m & Ho & Hsz & _ & _ & _ & Hm).
    rewrite (read_seq_obj _ _ _ _ _ _ _ Ho).
    destruct (collect_total (N.to_nat size) 0 (fun i => read c m (i * msize c))) as [l ->].
    + intros j _ Hj. apply IHc; [eapply good_seq, Hg|]. apply Hm. lia.
    + eexists; reflexivity.
  - cbn [live] in Hl. destruct Hl as (cap & size & m & Ho & Hsz & _ & _ & _ & Hm).
    rewrite (read_map_obj _ _ _ _ _ _ _ _ Ho). pose proof (good_map _ _ _ Hg) as [Hgk Hgv].
    destruct (collect_total (N.to_nat size) 0 (fun i => read (TPair k v) m (i * msize (TPair k v)))) as [l ->].
    + intros j _ Hj. destruct (Hm j ltac:(lia)) as [Lk Lv]. cbn [read msize].
      destruct (IHk Hgk _ _ Lk) as [a ->]. destruct (IHv Hgv _ _ Lv) as [c ->]. eexists; reflexivity.
    + eexists; reflexivity.
  - pose proof (good_pair _ _ Hg) as [Hgx Hgy]. destruct Hl as [L1 L2]. cbn [read].
    destruct (IHx Hgx _ _ L1) as [a ->]. destruct (IHy Hgy _ _ L2) as [c ->]. eexists; reflexivity.
  - rewrite Forall_forall in IHms. rewrite live_struct, Forall_forall in Hl. rewrite read_struct.
    destruct (mmap_total (fun m => read (m_type m) b (off + m_off m)) ms) as [l ->].
    + intros m Hm. apply IHms; [exact Hm|eapply good_struct; eassumption|apply Hl, Hm].
    + eexists; reflexivity.
  - rewrite Forall_forall in IHms. rewrite read_union.
    rewrite live_union in Hl. destruct Hl as (Hba & dn & do_ & disc & cs & -> & Hld & l & Hgl & Hmem).
    pose proof (good_union _ _ _ _ _ _ _ _ Hg (or_introl eq_refl)) as Hgd. cbn [m_type snd] in Hgd.
    destruct (IHms _ (or_introl eq_refl) Hgd _ _ Hld) as [vd Ev]. cbn [m_type snd] in Ev. rewrite Ev, Hgl. cbn [bind].
    destruct (lookup_label l labels) as [x|]; [|eexists; reflexivity]. unfold with_member in *.
    destruct (find_member x ((dn, do_, disc) :: cs)) as [m|] eqn:Ef; [|contradiction].
    apply find_member_in in Ef as [Hin _].
    destruct (IHms m Hin (good_union _ _ _ _ _ _ _ _ Hg Hin) _ _ Hmem) as [vm ->]. eexists; reflexivity.
  - cbn [live read] in *. apply IHa; [eapply good_alias, Hg|exact Hl].
Qed.

(** ** equality of collected values is pointwise *)
Lemma collect_eq n i f g :
  (forall j, i <= j -> j < i + N.of_nat n -> exists v, f j = Ok v) ->
  (forall j, i <= j -> j < i + N.of_nat n -> exists v, g j = Ok v) ->
  collect n i f = collect n i g -> forall j, i <= j -> j < i + N.of_nat n -> f j = g j.
Proof.
  revert i. induction n as [|n IH]; intros i Hf Hg E j H1 H2; [lia|]. cbn [collect] in E.
  destruct (Hf i ltac:(lia) ltac:(lia)) as [v Ev]. destruct (Hg i ltac:(lia) ltac:(lia)) as [w Ew].
  rewrite Ev, Ew in E. cbn [bind] in E.
  destruct (collect_total n (i + 1) f) as [lf Elf]; [intros k ? ?; apply Hf; lia|].
  destruct (collect_total n (i + 1) g) as [lg Elg]; [intros k ? ?; apply Hg; lia|].
  rewrite Elf, Elg in E. cbn [bind] in E. injection E as E1 E2.
  destruct (N.eq_dec j i) as [->|Hn]; [congruence|].
  apply (IH (i + 1)); try lia; [intros k ? ?; apply Hf; lia|intros k ? ?; apply Hg; lia|congruence].
Qed.
Lemma node_eq (r r' : res (list value)) : (do l <- r; Ok (VNode l)) = (do l <- r'; Ok (VNode l)) <-> r = r'.
Proof.
  destruct r as [l|e], r' as [l'|e']; cbn; split; intros H; try discriminate H; try congruence.
Qed.
Lemma alland_from_spec n i test : forall acc,
  (forall j, i <= j -> j < i + N.of_nat n -> exists r, test j = Ok r) ->
  exists r, alland_from n i test acc = Ok r /\
    (r = true <-> acc = true /\ forall j, i <= j -> j < i + N.of_nat n -> test j = Ok true).
Proof.
  revert i. induction n as [|n IH]; intros i acc H; cbn [alland_from].
  - exists acc. split; [reflexivity|]. split; [intros ->; split; [reflexivity|lia]|tauto].
  - destruct (H i ltac:(lia) ltac:(lia)) as [r Er]. rewrite Er. cbn [bind].
    destruct (IH (i + 1) (acc && r)) as (r' & E' & Hr'); [intros j ? ?; apply H; lia|].
    exists r'. split; [exact E'|]. rewrite Hr', andb_true_iff. split.
    + intros [[-> ->] Hj]. split; [reflexivity|]. intros j H1 H2.
      destruct (N.eq_dec j i) as [->|Hn]; [exact Er|]. apply Hj; lia.
    + intros [-> Hj]. split; [split; [reflexivity|]|intros j H1 H2; apply Hj; lia].
      specialize (Hj i ltac:(lia) ltac:(lia)). congruence.
Qed.

Definition cmp (t : ty) (b1 : block) (o1 : N) (b2 : block) (o2 : N) (r : res bool) : Prop :=
  exists x, r = Ok x /\ (nofloat t -> (x = true <-> read t b1 o1 = read t b2 o2)).

Lemma memcmp_spec b1 o1 b2 o2 n : bytes_at b1 o1 n -> bytes_at b2 o2 n ->
  exists x, memcmp_eq b1 o1 b2 o2 n = Ok x /\ (x = true <-> read_bytes b1 o1 n = read_bytes b2 o2 n).
Proof.
  intros H1 H2. destruct (bytes_at_read _ _ _ H1) as (x & E1 & _). destruct (bytes_at_read _ _ _ H2) as (y & E2 & _).
  unfold memcmp_eq. rewrite E1, E2. cbn [bind]. eexists. split; [reflexivity|]. rewrite bytes_eqb_eq. split; congruence.
Qed.
Lemma bytes_value_eq b1 o1 b2 o2 n : read_bytes b1 o1 n = read_bytes b2 o2 n <->
  (do bs <- read_bytes b1 o1 n; Ok (VBytes bs)) = (do bs <- read_bytes b2 o2 n; Ok (VBytes bs)).
Proof.
  destruct (read_bytes b1 o1 n), (read_bytes b2 o2 n); cbn; split; intros H; try discriminate H; try congruence.
Qed.
Lemma same_read_bytes b1 o1 b2 o2 n : bytes_at b1 o1 n -> 
  (read_bytes b1 o1 n = read_bytes b2 o2 n <-> same b1 o1 b2 o2 n).
Proof.
  intros H1. split.
  - intros E. destruct (bytes_at_read _ _ _ H1) as (x & E1 & _). rewrite E1 in E. symmetry in E.
    apply read_bytes_spec in E1 as [_ E1]. apply read_bytes_spec in E as [_ E].
    intros i Hi. rewrite E1, E by exact Hi. reflexivity.
  - intros S. symmetry. apply read_bytes_same, S.
Qed.

(** memcmp of [n] flat elements of type [T] decides equality of the element values *)
Lemma flat_slots_spec T n b1 o1 b2 o2 : good T ->
  (forall b off, live T b off -> bytes_at b off (msize T)) ->
  (forall b1 o1 b2 o2, live T b1 o1 -> live T b2 o2 -> read T b1 o1 = read T b2 o2 -> same b1 o1 b2 o2 (msize T)) ->
  (forall i, i < n -> live T b1 (o1 + i * msize T)) -> (forall i, i < n -> live T b2 (o2 + i * msize T)) ->
  exists x, memcmp_eq b1 o1 b2 o2 (n * msize T) = Ok x /\
    (x = true <-> forall i, i < n -> read T b1 (o1 + i * msize T) = read T b2 (o2 + i * msize T)).
Proof.
  intros Hg Hb Hr L1 L2.
  assert (B1 : bytes_at b1 o1 (n * msize T)) by (apply slots_bytes; intros i Hi; apply Hb, L1, Hi).
  assert (B2 : bytes_at b2 o2 (n * msize T)) by (apply slots_bytes; intros i Hi; apply Hb, L2, Hi).
  destruct (memcmp_spec b1 o1 b2 o2 _ B1 B2) as (x & E & Hx). exists x. split; [exact E|].
  rewrite Hx, (same_read_bytes _ _ _ _ _ B1). split.
  - intros S i Hi. symmetry. apply read_local; [exact Hg|]. eapply same_sub; [exact S|nia].
  - intros Heq i Hi. assert (Hk : 0 < msize T) by nia.
    pose proof (N.div_mod i (msize T) ltac:(lia)) as E1. pose proof (N.mod_lt i (msize T) ltac:(lia)) as E2.
    assert (Hq : i / msize T < n) by (apply N.div_lt_upper_bound; lia).
    pose proof (Hr _ _ _ _ (L1 _ Hq) (L2 _ Hq) (Heq _ Hq) (i mod msize T) E2) as G.
    set (q := i / msize T) in *. set (r := i mod msize T) in *. clearbody q r.
    replace (o1 + q * msize T + r) with (o1 + i) in G by lia.
    replace (o2 + q * msize T + r) with (o2 + i) in G by lia. exact G.
Qed.
Lemma prim_flat p b1 o1 b2 o2 : live (TPrim p) b1 o1 -> live (TPrim p) b2 o2 ->
  read (TPrim p) b1 o1 = read (TPrim p) b2 o2 -> same b1 o1 b2 o2 (prim_size p).
Proof.
  cbn [live read]. intros L1 _ E. apply bytes_value_eq in E. apply (same_read_bytes _ _ _ _ _ L1), E.
Qed.
Lemma pair_flat p q b1 o1 b2 o2 : let T := TPair (TPrim p) (TPrim q) in live T b1 o1 -> live T b2 o2 ->
  read T b1 o1 = read T b2 o2 -> same b1 o1 b2 o2 (msize T).
Proof.
  intros T [L1 L1'] [L2 L2'] E. cbn [T msize].
  assert (Gp : good (TPrim p)) by (split; exact I). assert (Gq : good (TPrim q)) by (split; exact I).
  unfold T in E. change (read (TPair (TPrim p) (TPrim q))) with
    (fun b off => do a <- read (TPrim p) b off; do c <- read (TPrim q) b (off + msize (TPrim p)); Ok (VNode [a; c])) in E.
  cbv beta in E.
  destruct (live_read _ Gp _ _ L1) as [a1 Ea1]. destruct (live_read _ Gp _ _ L2) as [a2 Ea2].
  destruct (live_read _ Gq _ _ L1') as [c1 Ec1]. destruct (live_read _ Gq _ _ L2') as [c2 Ec2].
  rewrite Ea1, Ea2, Ec1, Ec2 in E. cbn [bind] in E. injection E as -> ->.
  pose proof (prim_flat p _ _ _ _ L1 L2 ltac:(congruence)) as S1.
  pose proof (prim_flat q _ _ _ _ L1' L2' ltac:(congruence)) as S2.
  intros i Hi. cbn [msize] in *. destruct (i <? prim_size p) eqn:Ei; [apply N.ltb_lt in Ei; apply S1, Ei|apply N.ltb_ge in Ei].
  specialize (S2 (i - prim_size p) ltac:(lia)).
  replace (o1 + prim_size p + (i - prim_size p)) with (o1 + i) in S2 by lia.
  replace (o2 + prim_size p + (i - prim_size p)) with (o2 + i) in S2 by lia. exact S2.
Qed.
Lemma pair_bytes p q b off : live (TPair (TPrim p) (TPrim q)) b off -> bytes_at b off (prim_size p + prim_size q).
Proof.
  intros [L1 L2] i Hi. cbn [live msize] in *.
  destruct (i <? prim_size p) eqn:Ei; [apply N.ltb_lt in Ei; apply L1, Ei|apply N.ltb_ge in Ei].
  specialize (L2 (i - prim_size p) ltac:(lia)).
  replace (off + prim_size p + (i - prim_size p)) with (off + i) in L2 by lia. exact L2.
Qed.

Definition cmp_spec (t : ty) : Prop := forall b1 o1 b2 o2, live t b1 o1 -> live t b2 o2 ->
  cmp t b1 o1 b2 o2 (compare b1 t o1 b2 o2).

Lemma cmp_pair x y : good x -> good y -> cmp_spec x -> cmp_spec y -> cmp_spec (TPair x y).
Proof.
  intros Hgx Hgy IHx IHy b1 o1 b2 o2 [L1 L1'] [L2 L2']. rewrite compare_pair.
  destruct (IHx _ _ _ _ L1 L2) as (r & E & H). rewrite E. cbn [bind].
  destruct (live_read _ Hgx _ _ L1) as [a1 Ea1]. destruct (live_read _ Hgx _ _ L2) as [a2 Ea2].
  destruct (live_read _ Hgy _ _ L1') as [c1 Ec1]. destruct (live_read _ Hgy _ _ L2') as [c2 Ec2].
  unfold cmp. cbn [read nofloat]. rewrite Ea1, Ea2, Ec1, Ec2. cbn [bind]. rewrite Ea1, Ea2 in H.
  destruct r.
  - destruct (IHy _ _ _ _ L1' L2') as (r' & E' & H'). rewrite E', Ec1, Ec2 in *. exists r'. split; [reflexivity|].
    intros [N1 N2]. rewrite (H' N2). specialize (H N1). split; intros G.
    + assert (Ok a1 = Ok a2) by (apply H; reflexivity). congruence.
    + congruence.
  - exists false. split; [reflexivity|]. intros [N1 N2]. specialize (H N1). split; [discriminate|].
    intros G. apply H. congruence.
Qed.

(** the loop over the used slots of two buffers *)
Lemma cmp_buffer T size m1 m2 (deep : bool) : good T -> cmp_spec T ->
  (deep = false -> (forall b off, live T b off -> bytes_at b off (msize T)) /\
     (forall b1 o1 b2 o2, live T b1 o1 -> live T b2 o2 -> read T b1 o1 = read T b2 o2 -> same b1 o1 b2 o2 (msize T))) ->
  msize T < 4294967296 -> size * msize T < 4294967296 ->
  (forall i, i < size -> live T m1 (i * msize T)) -> (forall i, i < size -> live T m2 (i * msize T)) ->
  exists x, (if deep then alland size (fun i => compare m1 T (wrap32 (i * wrap32 (msize T))) m2 (wrap32 (i * wrap32 (msize T))))
             else memcmp_eq m1 0 m2 0 (wrap32 (size * wrap32 (msize T)))) = Ok x /\
    (nofloat T -> (x = true <-> forall i, i < size -> read T m1 (i * msize T) = read T m2 (i * msize T))).
Proof.
  intros Hg HT Hflat H32 Hs32 L1 L2. rewrite (wrap32_small (msize T)) by exact H32. destruct deep.
  - unfold alland. destruct (alland_from_spec (N.to_nat size) 0
      (fun i => compare m1 T (wrap32 (i * msize T)) m2 (wrap32 (i * msize T))) true) as (x & E & Hx).
    + intros j _ Hj. rewrite wrap32_small by nia. destruct (HT m1 (j * msize T) m2 (j * msize T)) as (r & E & _);
        [apply L1; lia|apply L2; lia|]. eauto.
    + exists x. split; [exact E|]. intros Hn. rewrite Hx. split.
      * intros [_ H] i Hi. specialize (H i ltac:(lia) ltac:(lia)). rewrite wrap32_small in H by nia.
        destruct (HT m1 (i * msize T) m2 (i * msize T)) as (r & E' & Hr); [apply L1, Hi|apply L2, Hi|].
        apply Hr; [exact Hn|]. congruence.
      * intros H. split; [reflexivity|]. intros i _ Hi. rewrite wrap32_small by nia.
        destruct (HT m1 (i * msize T) m2 (i * msize T)) as (r & E' & Hr); [apply L1; lia|apply L2; lia|].
        rewrite E'. f_equal. apply Hr; [exact Hn|]. apply H. lia.
  - destruct (Hflat eq_refl) as [F1 F2]. rewrite (wrap32_small (size * msize T)) by exact Hs32.
    destruct (flat_slots_spec T size m1 0 m2 0 Hg F1 F2 L1 L2) as (x & E & Hx). exists x. split; [exact E|].
    intros _. exact Hx.
Qed.

Lemma compare_spec t : good t -> cmp_spec t.
Proof.
  induction t as [p|nm sz vals|k bd|nm c n IHc|c bd IHc|k v bd IHk IHv|x y IHx IHy|nm s ms IHms|nm s ms labels dv iv d IHms|nm a IHa]
    using ty_ind'; intros Hg b1 o1 b2 o2 L1 L2.
  - rewrite compare_prim. cbn [live] in *.
    destruct (bytes_at_read _ _ _ L1) as (x & E1 & _). destruct (bytes_at_read _ _ _ L2) as (y & E2 & _).
    unfold cmp. cbn [read nofloat]. rewrite E1, E2. cbn [bind]. eexists. split; [reflexivity|].
    intros Hn. unfold prim_eq. rewrite Hn, bytes_eqb_eq. split; congruence.
  - rewrite compare_enum. destruct (memcmp_spec b1 o1 b2 o2 sz L1 L2) as (x & E & Hx). exists x. split; [exact E|].
    intros _. rewrite Hx. apply bytes_value_eq.
  - rewrite compare_str. cbn [live] in *. destruct L1 as (s1 & [A1 I1] & _). destruct L2 as (s2 & [A2 I2] & _).
    unfold cmp. cbn [read]. rewrite A1, A2, I1, I2, !skind_eqb_refl. cbn [andb]. eexists. split; [reflexivity|].
    intros _. rewrite bytes_eqb_eq. split; congruence.
  - rewrite compare_arr. pose proof (good_arr _ _ _ Hg) as Hgc. cbn [live] in *.
    assert (R1 : forall j, 0 <= j -> j < 0 + N.of_nat (N.to_nat n) -> exists v, read c b1 (o1 + j * msize c) = Ok v)
      by (intros j _ Hj; apply live_read; [exact Hgc|apply L1; lia]).
    assert (R2 : forall j, 0 <= j -> j < 0 + N.of_nat (N.to_nat n) -> exists v, read c b2 (o2 + j * msize c) = Ok v)
      by (intros j _ Hj; apply live_read; [exact Hgc|apply L2; lia]).
    assert (V : read (TArr nm c n) b1 o1 = read (TArr nm c n) b2 o2 <->
                (forall i, i < n -> read c b1 (o1 + i * msize c) = read c b2 (o2 + i * msize c))).
    { cbn [read]. rewrite node_eq. split.
      - intros E i Hi. apply (collect_eq _ _ _ _ R1 R2 E i); lia.
      - intros E. apply collect_ext. intros j _ Hj. apply E. lia. }
    destruct (is_constructed_type c) eqn:Ec.
    + destruct (alland_from_spec (N.to_nat n) 0 (fun i => compare b1 c (o1 + i * msize c) b2 (o2 + i * msize c)) true) as (x & E & Hx).
      * intros j _ Hj. destruct (IHc Hgc _ _ _ _ (L1 j ltac:(lia)) (L2 j ltac:(lia))) as (r & E & _). eauto.
      * exists x. split; [exact E|]. cbn [nofloat]. intros Hn. rewrite Hx, V. split.
        -- intros [_ H] i Hi. specialize (H i ltac:(lia) ltac:(lia)).
           destruct (IHc Hgc _ _ _ _ (L1 i Hi) (L2 i Hi)) as (r & E' & Hr). apply Hr; [exact Hn|congruence].
        -- intros H. split; [reflexivity|]. intros i _ Hi.
           destruct (IHc Hgc _ _ _ _ (L1 i ltac:(lia)) (L2 i ltac:(lia))) as (r & E' & Hr).
           rewrite E'. f_equal. apply Hr; [exact Hn|apply H; lia].
    + destruct (constructed_prim _ Ec) as [p ->].
      destruct (flat_slots_spec (TPrim p) n b1 o1 b2 o2 Hgc) as (x & E & Hx); try assumption.
      { intros b off H; exact H. } { apply prim_flat. }
      exists x. split; [exact E|]. intros _. rewrite V. exact Hx.
  - rewrite compare_seq. pose proof (good_seq _ _ Hg) as Hgc. cbn [live] in L1, L2.
    destruct L1 as (cap1 & size1 & m1 & O1 & S1 & _ & W1 & _ & M1).
    destruct L2 as (cap2 & size2 & m2 & O2 & S2 & _ & W2 & _ & M2).
    unfold cmp. rewrite (read_seq_obj _ _ _ _ _ _ _ O1), (read_seq_obj _ _ _ _ _ _ _ O2). setoid_rewrite node_eq.
    destruct O1 as [A1 I1], O2 as [A2 I2]. rewrite A1, A2, I1, I2. cbn [andb].
    assert (R1 : forall j, 0 <= j -> j < 0 + N.of_nat (N.to_nat size1) -> exists v, read c m1 (j * msize c) = Ok v)
      by (intros j _ Hj; apply live_read; [exact Hgc|apply M1; lia]).
    assert (R2 : forall j, 0 <= j -> j < 0 + N.of_nat (N.to_nat size2) -> exists v, read c m2 (j * msize c) = Ok v)
      by (intros j _ Hj; apply live_read; [exact Hgc|apply M2; lia]).
    destruct (size1 =? size2) eqn:Es; cbn [negb].
    + apply N.eqb_eq in Es. subst size2.
      destruct (cmp_buffer c size1 m1 m2 (is_constructed_type c) Hgc (IHc Hgc)) as (x & E & Hx).
      * intros Ec. destruct (constructed_prim _ Ec) as [p ->]. split; [intros b off H; exact H|apply prim_flat].
      * destruct Hg as [_ (_ & H & _)]. exact H.
      * nia.
      * intros i Hi. apply M1. lia.
      * intros i Hi. apply M2. lia.
      * exists x. split; [exact E|]. cbn [nofloat]. intros Hn. rewrite (Hx Hn). split.
        -- intros H. apply collect_ext. intros j _ Hj. apply H. lia.
        -- intros H i Hi. apply (collect_eq _ _ _ _ R1 R2 H i); lia.
    + exists false. split; [reflexivity|]. intros _. split; [discriminate|]. intros H. exfalso.
      apply N.eqb_neq in Es. apply Es.
      assert (Len : forall n i f l, collect n i f = Ok l -> List.length l = n).
      { clear. induction n as [|n IH]; intros i f l; cbn [collect]; [intros [= <-]; reflexivity|].
        intros E. apply bind_ok in E as (v & _ & E). apply bind_ok in E as (r & Er & E). injection E as <-.
        cbn. rewrite (IH _ _ _ Er). reflexivity. }
      destruct (collect_total _ _ _ R1) as [l1 El1]. destruct (collect_total _ _ _ R2) as [l2 El2].
      pose proof (Len _ _ _ _ El1). pose proof (Len _ _ _ _ El2). rewrite El1, El2 in H.
      injection H as ->. lia.
  - rewrite compare_map. pose proof (good_map _ _ _ Hg) as [Hgk Hgv]. cbn [live] in L1, L2.
    assert (Hgp : good (TPair k v)) by (apply good_pair_iff; auto).
    destruct L1 as (cap1 & size1 & m1 & O1 & S1 & _ & W1 & _ & M1).
    destruct L2 as (cap2 & size2 & m2 & O2 & S2 & _ & W2 & _ & M2).
    unfold cmp. rewrite (read_map_obj _ _ _ _ _ _ _ _ O1), (read_map_obj _ _ _ _ _ _ _ _ O2). setoid_rewrite node_eq.
    destruct O1 as [A1 I1], O2 as [A2 I2]. rewrite A1, A2, I1, I2. cbn [andb].
    assert (R1 : forall j, 0 <= j -> j < 0 + N.of_nat (N.to_nat size1) -> exists r, read (TPair k v) m1 (j * msize (TPair k v)) = Ok r)
      by (intros j _ Hj; apply live_read; [exact Hgp|apply M1; lia]).
    assert (R2 : forall j, 0 <= j -> j < 0 + N.of_nat (N.to_nat size2) -> exists r, read (TPair k v) m2 (j * msize (TPair k v)) = Ok r)
      by (intros j _ Hj; apply live_read; [exact Hgp|apply M2; lia]).
    destruct (size1 =? size2) eqn:Es; cbn [negb].
    + apply N.eqb_eq in Es. subst size2.
      destruct (cmp_buffer (TPair k v) size1 m1 m2 (is_constructed_type k || is_constructed_type v) Hgp (cmp_pair k v Hgk Hgv (IHk Hgk) (IHv Hgv))) as (x & E & Hx).
      * intros Ec. apply orb_false_iff in Ec as [Ec1 Ec2]. destruct (constructed_prim _ Ec1) as [p ->].
        destruct (constructed_prim _ Ec2) as [q ->]. split; [apply pair_bytes|apply pair_flat].
      * destruct Hg as [_ (_ & _ & H & _)]. exact H.
      * cbn [msize]. nia.
      * intros i Hi. apply M1. lia.
      * intros i Hi. apply M2. lia.
      * exists x. split; [exact E|]. intros Hn. rewrite (Hx Hn). split.
        -- intros H. apply collect_ext. intros j _ Hj. apply H. lia.
        -- intros H i Hi. apply (collect_eq _ _ _ _ R1 R2 H i); lia.
    + exists false. split; [reflexivity|]. intros _. split; [discriminate|]. intros H. exfalso.
      apply N.eqb_neq in Es. apply Es.
      assert (Len : forall n i f l, collect n i f = Ok l -> List.length l = n).
      { clear. induction n as [|n IH]; intros i f l; cbn [collect]; [intros [= <-]; reflexivity|].
        intros E. apply bind_ok in E as (v & _ & E). apply bind_ok in E as (r & Er & E). injection E as <-.
        cbn. rewrite (IH _ _ _ Er). reflexivity. }
      destruct (collect_total _ _ _ R1) as [l1 El1]. destruct (collect_total _ _ _ R2) as [l2 El2].
      pose proof (Len _ _ _ _ El1). pose proof (Len _ _ _ _ El2). rewrite El1, El2 in H.
      injection H as ->. lia.
  - pose proof (good_pair _ _ Hg) as [Hgx Hgy]. apply (cmp_pair x y Hgx Hgy (IHx Hgx) (IHy Hgy)); assumption.
  - rewrite compare_struct. rewrite Forall_forall in IHms. rewrite live_struct in L1, L2.
    unfold cmp. setoid_rewrite read_struct. setoid_rewrite node_eq. setoid_rewrite nofloat_struct. unfold all_members.
    assert (HG : forall m, In m ms -> good (m_type m)) by (intros m Hm; eapply good_struct; eassumption).
    clear Hg. induction ms as [|m r IHr].
    + exists true. split; [reflexivity|]. intros _. split; reflexivity.
    + apply Forall_cons_iff in L1 as [L1m L1r]. apply Forall_cons_iff in L2 as [L2m L2r].
      pose proof (HG m (or_introl eq_refl)) as Hgm.
      destruct (IHms m (or_introl eq_refl) Hgm _ _ _ _ L1m L2m) as (x & E & Hx).
      destruct IHr as (y & E' & Hy); [intros z Hz; apply IHms; right; exact Hz|exact L1r|exact L2r|intros z Hz; apply HG; right; exact Hz|].
      destruct (live_read _ Hgm _ _ L1m) as [a1 Ea1]. destruct (live_read _ Hgm _ _ L2m) as [a2 Ea2].
      destruct (mmap_total (fun m => read (m_type m) b1 (o1 + m_off m)) r) as [r1 Er1].
      { intros z Hz. apply live_read; [apply HG; right; exact Hz|]. rewrite Forall_forall in L1r. apply L1r, Hz. }
      destruct (mmap_total (fun m => read (m_type m) b2 (o2 + m_off m)) r) as [r2 Er2].
      { intros z Hz. apply live_read; [apply HG; right; exact Hz|]. rewrite Forall_forall in L2r. apply L2r, Hz. }
      cbn [mall mmap]. rewrite E. cbn [bind]. rewrite Ea1, Ea2, Er1, Er2 in *. cbn [bind].
      destruct x.
      * exists y. split; [exact E'|]. intros Hn. apply Forall_cons_iff in Hn as [N1 N2]. rewrite (Hy N2).
        specialize (Hx N1). assert (a1 = a2) by (apply Ok_inj, Hx; reflexivity). subst a2. split; congruence.
      * exists false. split; [reflexivity|]. intros Hn. apply Forall_cons_iff in Hn as [N1 N2]. specialize (Hx N1).
        split; [discriminate|]. intros H. apply Hx. congruence.
  - rewrite compare_union. rewrite Forall_forall in IHms. unfold cmp. setoid_rewrite read_union. setoid_rewrite nofloat_union.
    destruct (good_union_inv _ _ _ _ _ _ _ Hg) as (dn & disc & cs & -> & Hgd & Hc & Hlw & Hiv & Hoff & Hs & _).
    rewrite live_union in L1, L2.
    destruct L1 as (_ & dn1 & do1 & disc1 & cs1 & E1 & Ld1 & l1 & Hl1 & Hm1). inversion E1; subst dn1 do1 disc1 cs1. clear E1.
    destruct L2 as (_ & dn1 & do1 & disc1 & cs1 & E1 & Ld2 & l2 & Hl2 & Hm2). inversion E1; subst dn1 do1 disc1 cs1. clear E1.
    destruct (IHms _ (or_introl eq_refl) Hgd _ _ _ _ Ld1 Ld2) as (x & E & Hx). cbn [m_type snd] in E, Hx.
    rewrite E. cbn [bind]. unfold all_members.
    destruct (live_read _ Hgd _ _ Ld1) as [d1 Ed1]. destruct (live_read _ Hgd _ _ Ld2) as [d2 Ed2].
    rewrite Ed1, Ed2, Hl1, Hl2 in *. cbn [bind].
    assert (Hnd : nofloat disc).
    { clear - Hc. assert (Hr : forall t, nofloat (rget t) -> nofloat t).
      { induction t using ty_ind'; cbn [rget nofloat]; auto. }
      apply Hr. destruct (check_disc_cases _ Hc) as [(p & -> & Hp)|(? & ? & ? & ->)]; [exact Hp|exact I]. }
    specialize (Hx Hnd).
    assert (Hgl : forall w : value, match lookup_label l2 labels with
                | Some nm => with_member nm ((dn, 0, disc) :: cs) (Fail UB)
                    (fun m => do v <- read (m_type m) b2 (o2 + m_off m); Ok (VUnion d2 (Some v)))
                | None => Ok (VUnion d2 None) end = Ok w -> exists o, w = VUnion d2 o).
    { intros w. destruct (lookup_label l2 labels) as [z|]; [|intros [= <-]; eauto].
      unfold with_member. destruct (find_member z _); [|discriminate]. intros H. apply bind_ok in H as (v & _ & H).
      injection H as <-. eauto. }
    destruct x.
    + assert (Ed : d1 = d2) by (apply Ok_inj, Hx; reflexivity). subst d2.
      assert (El : l1 = l2).
      { rewrite (read_disc _ _ _ Hc) in Ed1. rewrite (read_disc _ _ _ Hc) in Ed2. unfold get_label in Hl1, Hl2. rewrite Hlw in *.
        destruct (read_bytes b1 o1 (msize disc)) as [bs1|]; [|discriminate]. destruct (read_bytes b2 o2 (msize disc)) as [bs2|]; [|discriminate].
        cbn [bind] in *. congruence. }
      subst l2. destruct (lookup_label l1 labels) as [z|].
      * unfold with_member in *. destruct (find_member z ((dn, 0, disc) :: cs)) as [m|] eqn:Ef; [|contradiction].
        apply find_member_in in Ef as [Hin _]. pose proof (good_union _ _ _ _ _ _ _ _ Hg Hin) as Hgm.
        destruct (IHms m Hin Hgm _ _ _ _ Hm1 Hm2) as (y & Ey & Hy).
        destruct (live_read _ Hgm _ _ Hm1) as [a1 Ea1]. destruct (live_read _ Hgm _ _ Hm2) as [a2 Ea2].
        rewrite Ea1, Ea2 in *. cbn [bind]. exists y. split; [exact Ey|]. intros Hn. rewrite Forall_forall in Hn.
        rewrite (Hy (Hn m Hin)). split; congruence.
      * exists true. split; [reflexivity|]. intros _. split; reflexivity.
    + exists false. split; [reflexivity|]. intros _. split; [discriminate|]. intros H. apply Hx. f_equal.
      assert (exists o, match lookup_label l1 labels with
                | Some nm => with_member nm ((dn, 0, disc) :: cs) (Fail UB)
                    (fun m => do v <- read (m_type m) b1 (o1 + m_off m); Ok (VUnion d1 (Some v)))
                | None => Ok (VUnion d1 None) end = Ok (VUnion d1 o)) as [o Ho].
      { destruct (lookup_label l1 labels) as [z|]; [|eauto]. unfold with_member in *.
        destruct (find_member z ((dn, 0, disc) :: cs)) as [m|] eqn:Ef; [|contradiction].
        apply find_member_in in Ef as [Hin _]. pose proof (good_union _ _ _ _ _ _ _ _ Hg Hin) as Hgm.
        destruct (live_read _ Hgm _ _ Hm1) as [a1 ->]. cbn [bind]. eauto. }
      rewrite Ho in H. symmetry in H. apply Hgl in H as [o' Ho']. congruence.
  - rewrite compare_alias. cbn [live] in *. destruct (IHa (good_alias _ _ Hg) _ _ _ _ L1 L2) as (r & H). exists r. exact H.
Qed.
