(** The operations on a reference, seen on values. *)
From Verif Require Import Base Types TypeBuild TypeSpec Mem MemSpec TyInd Layout CompatFacts2 MemEqns MemFacts
  EnumFacts ConstructFacts CopyFacts DestroyFacts CompareFacts MoveFacts Ops OpsSpec UnionFacts SeqFacts CollectFacts Compat CompatFacts
  Hash HashSpec HashFacts MapOps MapSpec MapValue MapFacts PathFacts.

Section Realize.
  Variable fc : prim -> prim -> list N -> list N.

  (** Assigning from another instance of the type. *)
  Lemma assign_realizes T src soff w : good T -> copy_ok T -> live T src soff -> read T src soff = Ok w -> vselected T w ->
    realizes T (assign_from fc src soff) (fun _ => Some w).
  Proof.
    intros Hg Hc Hl Hr Hs b off v v' L _ [= <-]. unfold assign_from.
    destruct (destroy_spec T b off Hg L) as (b1 & E1 & A1 & Al1 & _). rewrite E1. cbn [bind].
    destruct (copy_spec fc T Hg Hc src soff b1 off Hl (selected_value _ Hg _ _ _ Hl Hr Hs) Al1) as (b2 & E2 & A2 & L2 & R2).
    exists b2. split; [exact E2|]. split; [|split; [exact L2|congruence]].
    intros j Hj. rewrite A2 by exact Hj. apply A1, Hj.
  Qed.

  (** value(t) *)
  Lemma rget_idem t : rget (rget t) = rget t.
  Proof. induction t using ty_ind'; try reflexivity. cbn [rget]. exact IHt. Qed.
  (** The stored scalar. *)
  Definition fit (t : ty) (x : scalar) : scalar :=
    match t, x with TStr _ bd, ScStr k s => ScStr k (list_trunc bd s) | _, _ => x end.
  Lemma list_trunc_length (s : list N) bd : bd = 0 \/ N.of_nat (List.length (list_trunc bd s)) <= bd.
  Proof. unfold list_trunc. destruct (bd =? 0) eqn:E; [left; apply N.eqb_eq, E|right]. rewrite firstn_length. lia. Qed.
  Lemma list_trunc_idem (s : list N) bd : list_trunc bd (list_trunc bd s) = list_trunc bd s.
  Proof. apply list_trunc_id, list_trunc_length. Qed.
  Lemma copy_fit t x : rget t = t -> scalar_ok t x -> forall d doff, copy fc t (scalar_block x) 0 d doff = copy fc t (scalar_block (fit t x)) 0 d doff.
  Proof.
    intros Hrg Hok d doff. destruct t as [| |k bd| | | | | | |]; destruct x as [q bs|k' s]; try contradiction Hok; try reflexivity.
    cbn [scalar_ok] in Hok. subst k'. cbn [fit copy]. unfold copy_str.
    change (at_ (scalar_block (ScStr k s)) 0) with (CStr k s). change (at_ (scalar_block (ScStr k (list_trunc bd s))) 0) with (CStr k (list_trunc bd s)).
    change (intact (scalar_block (ScStr k s)) 0 SZ_STRING) with true. change (intact (scalar_block (ScStr k (list_trunc bd s))) 0 SZ_STRING) with true.
    cbv iota beta. rewrite list_trunc_idem. reflexivity.
  Qed.
  Lemma scalar_live T x : rget T = T -> good T -> scalar_ok T x ->
    live T (scalar_block (fit T x)) 0 /\ read T (scalar_block (fit T x)) 0 = Ok (scalar_value T x) /\ copy_ok T /\ vselected T (scalar_value T x).
  Proof.
    assert (Hbytes : forall p bs, N.of_nat (List.length bs) = prim_size p -> Forall (fun y => y < 256) bs ->
      bytes_at (scalar_block (ScPrim p bs)) 0 (prim_size p) /\ read_bytes (scalar_block (ScPrim p bs)) 0 (prim_size p) = Ok bs).
    { intros p bs Hlen HF. assert (Hat : forall i, i < prim_size p -> at_ (scalar_block (ScPrim p bs)) (0 + i) = CByte (nth (N.to_nat i) bs 0)).
      { intros i Hi. cbn [scalar_block at_ N.add]. rewrite Hlen. apply N.ltb_lt in Hi. rewrite Hi. reflexivity. }
      split.
      - intros i Hi. rewrite (Hat i Hi). eexists. split; [reflexivity|]. rewrite Forall_forall in HF. apply HF, nth_In. lia.
      - apply read_bytes_spec. split; [exact Hlen|]. intros i Hi. apply Hat, Hi. }
    intros Hrg Hg Hok. destruct T as [p|nm sz vals|k bd| | | | | | |]; destruct x as [q bs|k' s]; try contradiction Hok; cbn [scalar_ok fit] in *.
    - destruct Hok as (<- & Hlen & HF). destruct (Hbytes p bs Hlen HF) as [H1 H2]. cbn [live read]. rewrite H2. cbn [bind scalar_value copy_ok vselected]. auto.
    - destruct Hok as (Hq & Hlen & HF & _). rewrite <- Hq in Hlen. destruct (Hbytes q bs Hlen HF) as [H1 H2]. rewrite Hq in *.
      cbn [live read]. rewrite H2. cbn [bind scalar_value copy_ok vselected]. auto.
    - subst k'. assert (Ho : obj_at (scalar_block (ScStr k (list_trunc bd s))) 0 SZ_STRING (CStr k (list_trunc bd s))) by (split; reflexivity).
      cbn [live read]. split; [exists (list_trunc bd s); split; [exact Ho|apply list_trunc_length]|]. destruct Ho as [H1 H2]. rewrite H1, H2, skind_eqb_refl. cbn. auto.
  Qed.
  Lemma set_realizes T x : rget T = T -> good T -> scalar_ok T x -> realizes T (set_value fc x) (fun _ => Some (scalar_value T x)).
  Proof.
    intros Hrg Hg Hok. destruct (scalar_live T x Hrg Hg Hok) as (L & R & C & V).
    pose proof (assign_realizes T _ _ _ Hg C L R V) as Ha. intros b off v v' Lb Rb Hv.
    destruct (Ha b off v v' Lb Rb Hv) as (b' & E & H). exists b'. split; [|exact H]. unfold assign_from in E.
    assert (E' : (do b1 <- destroy T b off; copy fc T (scalar_block x) 0 b1 off) = Ok b').
    { destruct (destroy T b off); [|exact E]. cbn [bind] in *. rewrite copy_fit by assumption. exact E. }
    unfold set_value. rewrite Hrg.
    destruct T as [p|nm sz vals|k bd| | | | | | |]; destruct x as [q bs|k' s]; try contradiction Hok; cbn [scalar_ok] in Hok; cbn [type_check scalar_type].
    - destruct Hok as (<- & _). rewrite prim_eqb_refl. exact E'.
    - destruct Hok as (Hq & _ & _ & Hex). cbn [sizeof]. rewrite Hq, N.eqb_refl.
      replace (is_allowed_value vals (le_decode bs)) with true; [exact E'|]. symmetry. apply is_allowed_value_spec.
      apply Exists_exists in Hex as (e & H1 & <-). apply in_map, H1.
    - subst k'. rewrite skind_eqb_refl. exact E'.
  Qed.

  (** push *)
  Lemma push_realizes c bd src soff w : good (TSeq c bd) -> copy_ok c -> movable c ->
    live c src soff -> read c src soff = Ok w -> vselected c w ->
    realizes (TSeq c bd) (push fc src soff) (push_value c bd w).
  Proof.
    intros Hg Hc Hmv Lw Rw Vw b off v v' Hl Hr Hv. unfold push_value in Hv. destruct v as [| |l|]; try discriminate Hv.
    cbv zeta in Hv. set (n := N.of_nat (List.length l)) in *.
    destruct (accepts c bd (n + 1) (2 * (n + 1))) eqn:Eac; [|discriminate Hv]. injection Hv as <-.
    pose proof (good_seq _ _ Hg) as Hgc. pose proof Hg as [_ (_ & Hm32 & Hbf & Hb31)].
    cbn [live] in Hl. destruct Hl as (cap & size & m & Ho & Hsz & Hb & H32 & H31 & Hm).
    rewrite (read_seq_obj _ _ _ _ _ _ _ Ho) in Hr. apply bind_ok in Hr as (l' & El & Hr). injection Hr as ->.
    destruct (collect_nth _ _ _ _ El) as [Hlen Hnth]. assert (Hn : n = size) by (unfold n; lia). clearbody n. subst n.
    unfold accepts in Eac.
    destruct (push_spec fc c cap size m src soff bd w) as (cap' & m' & E & L & Hs' & Hf' & Hb' & Hcap & R & Rw'); try assumption.
    { split; assumption. }
    { destruct (bd =? 0); [|split; assumption]. apply andb_true_iff in Eac as [E1 E2]. apply N.ltb_lt in E1. apply N.leb_le in E2. split; assumption. }
    { lia. }
    { destruct (bd =? 0) eqn:E0; [left; apply N.eqb_eq, E0|right; apply N.leb_le in Eac; lia]. }
    { eapply selected_value; eassumption. }
    unfold push. cbn [rget]. pose proof Ho as [Ho1 Ho2]. rewrite Ho1, Ho2.
    replace ((size <? bd) || (bd =? 0)) with true.
    2:{ symmetry. destruct (bd =? 0); [apply orb_true_r|]. apply N.leb_le in Eac. apply orb_true_iff. left. apply N.ltb_lt. lia. }
    rewrite E. cbn [bind].
    destruct (set_cell_spec b off SZ_SEQ _ (CSeq c cap' (size + 1) m') ltac:(reflexivity) Ho) as [A' O'].
    eexists. split; [reflexivity|]. split; [exact A'|]. destruct Hf' as [F1 F2]. split.
    - cbn [live]. exists cap', (size + 1), m'. split; [exact O'|]. split; [exact Hs'|]. split; [|repeat split; assumption].
      destruct Hcap as [->|Hcap]; [|lia]. lia.
    - rewrite (read_seq_obj _ _ _ _ _ _ _ O'). replace (N.to_nat (size + 1)) with (N.to_nat size + 1)%nat by lia.
      rewrite collect_app. rewrite (collect_ext _ _ _ (fun i => read c m (i * msize c))).
      + rewrite El. cbn [bind collect]. replace (0 + N.of_nat (N.to_nat size)) with size by lia. rewrite Rw'. reflexivity.
      + intros j _ Hj. apply R. lia.
  Qed.

  (** resize *)
  Lemma resize_realizes c bd n : good (TSeq c bd) -> copy_ok c -> movable c ->
    realizes (TSeq c bd) (resize fc n) (resize_value c bd n).
  Proof.
    intros Hg Hc Hmv b off v v' Hl Hr Hv. unfold resize_value in Hv. destruct v as [| |l|]; try discriminate Hv.
    destruct (accepts c bd n n) eqn:Eac; [|discriminate Hv]. injection Hv as <-.
    pose proof (good_seq _ _ Hg) as Hgc. pose proof Hg as [_ (_ & Hm32 & Hbf & Hb31)].
    cbn [live] in Hl. destruct Hl as (cap & size & m & Ho & Hsz & Hb & H32 & H31 & Hm).
    rewrite (read_seq_obj _ _ _ _ _ _ _ Ho) in Hr. apply bind_ok in Hr as (l' & El & Hr). injection Hr as ->.
    destruct (collect_nth _ _ _ _ El) as [Hlen Hnth].
    unfold accepts in Eac.
    assert (Hfn : fits c n).
    { destruct (bd =? 0); [|apply N.leb_le in Eac; split; [nia|lia]].
      apply andb_true_iff in Eac as [E1 E2]. apply N.ltb_lt in E1. apply N.leb_le in E2. split; assumption. }
    destruct (resize_spec fc c cap size m n bd) as (cap' & m' & E & L & Hs' & Hf' & Hb' & Hcap & R & D); try assumption.
    { split; assumption. }
    { lia. }
    { destruct (bd =? 0) eqn:E0; [left; apply N.eqb_eq, E0|right; apply N.leb_le, Eac]. }
    unfold resize. cbn [rget]. pose proof Ho as [Ho1 Ho2].
    replace ((bd =? 0) || (n <=? bd)) with true by (symmetry; destruct (bd =? 0); [reflexivity|exact Eac]).
    rewrite Ho1, Ho2. rewrite E. cbn [bind].
    destruct (set_cell_spec b off SZ_SEQ _ (CSeq c cap' (N.max size n) m') ltac:(reflexivity) Ho) as [A' O'].
    eexists. split; [reflexivity|]. split; [exact A'|]. destruct Hf' as [F1 F2]. split.
    - cbn [live]. exists cap', (N.max size n), m'. split; [exact O'|]. split; [exact Hs'|]. split; [|repeat split; assumption].
      destruct Hcap as [->| ->]; lia.
    - rewrite (read_seq_obj _ _ _ _ _ _ _ O'). replace (N.to_nat (N.max size n)) with (N.to_nat size + (N.to_nat n - List.length l))%nat by lia.
      rewrite collect_app. rewrite (collect_ext _ _ _ (fun i => read c m (i * msize c))).
      + rewrite El. cbn [bind]. rewrite (collect_const _ _ _ (default_value c)); [reflexivity|]. intros j H1 H2. apply D; lia.
      + intros j _ Hj. apply R. lia.
  Qed.

  Lemma push_scalar_realizes c bd x : good (TSeq c bd) -> match c with TPrim _ | TStr _ _ => scalar_ok c x | _ => False end ->
    realizes (TSeq c bd) (push_scalar fc x) (push_value c bd (scalar_value c x)).
  Proof.
    intros Hg Hok. assert (Hrg : rget c = c /\ scalar_ok c x /\ movable c) by (destruct c; try contradiction Hok; repeat split; exact Hok).
    destruct Hrg as (Hrg & Hok' & Hmv). destruct (scalar_live c x Hrg (good_seq _ _ Hg) Hok') as (L & R & C & V).
    pose proof (push_realizes c bd _ _ _ Hg C Hmv L R V) as Hp. intros b off v v' Lb Rb Hv.
    destruct (Hp b off v v' Lb Rb Hv) as (b' & E & H). exists b'. split; [|exact H]. unfold push_scalar. cbn [rget].
    assert (E' : push fc (scalar_block x) 0 (TSeq c bd) b off = Ok b').
    { rewrite <- E. unfold push. cbn [rget]. destruct Lb as (cap & size & m & [H1 H2] & _). rewrite H1, H2.
      destruct ((size <? bd) || (bd =? 0)); [|reflexivity]. unfold seq_push.
      destruct (if (cap =? 0) || (size =? cap) then _ else _) as [[cap' m']|]; [|reflexivity]. cbn [bind].
      rewrite copy_fit by assumption. reflexivity. }
    replace (match c with TPrim _ | TStr _ _ => type_check c (scalar_type x) | _ => false end) with true; [exact E'|].
    destruct c as [p| |k bd'| | | | | | |]; try contradiction Hok; destruct x as [q bs|k' s]; try contradiction Hok; cbn [scalar_ok type_check scalar_type] in *.
    - destruct Hok as (<- & _). symmetry. apply prim_eqb_refl.
    - subst k'. symmetry. apply skind_eqb_refl.
  Qed.
  Lemma disc_realizes T l : rget T = T -> good T -> realizes T (set_disc l) (disc_value T l).
  Proof.
    intros Hrg Hg b off v v' Hl Hr Hv. destruct T as [| | | | | | | |nm s ms labels dv iv d|]; try discriminate Hv. cbn [disc_value] in Hv.
    destruct ms as [|[[dn o] disc] cs]; [discriminate Hv|].
    destruct (good_union_inv _ _ _ _ _ _ _ Hg) as (dn' & disc' & cs' & Em & _). inversion Em; subst dn' disc' cs' o.
    destruct v as [| | |vd [w|]]; try discriminate Hv.
    destruct (label_of disc vd) as [cur|] eqn:Ec; [|discriminate Hv]. destruct (lookup_label l labels) as [x|] eqn:Ex; [|discriminate Hv].
    destruct (lookup_label cur labels) as [y|] eqn:Ey; [|discriminate Hv].
    destruct (String.eqb x y) eqn:Exy; [|discriminate Hv]. injection Hv as <-. apply String.eqb_eq in Exy. subst y.
    destruct (select_disc_spec _ _ _ _ _ _ _ _ _ Hg l b off Hl vd w Hr) as [(b2 & z & E & _ & A & L & R)|[[_ H]|[[_ H]|(_ & x' & cur' & y & H1 & H2 & H3 & H4)]]]; [|congruence..].
    exists b2. unfold set_disc. cbn [rget]. rewrite E. cbn [bind fst msize]. auto.
  Qed.

  (** ** Queries *)
  Variable strhash : skind -> list N -> N.

  Lemma reading_does T f g : (forall b off v x, live T b off -> read T b off = Ok v -> g v = Some x -> f T b off = Ok x) ->
    does T (reading f) (asking g).
  Proof.
    intros H b off v a v' L R Hv. unfold asking in Hv. destruct (g v) as [x|] eqn:E; [|discriminate Hv]. injection Hv as <- <-.
    exists b. split; [unfold reading; rewrite (H b off v x L R E); reflexivity|]. split; [intros j _; reflexivity|auto].
  Qed.
  Lemma get_does T x : rget T = T -> does T (reading (get_scalar x)) (asking (read_value T x)).
  Proof.
    intros Hrg. apply reading_does. intros b off v y L R Hv. unfold get_scalar, get_value. rewrite Hrg.
    destruct T as [p|nm sz vals|k bd| | | | | | |]; try discriminate Hv; cbn [read_value] in Hv.
    - destruct x as [q|]; [|discriminate Hv]. destruct v as [bs| | |]; try discriminate Hv.
      destruct (prim_eqb p q) eqn:E; [|discriminate Hv]. injection Hv as <-. cbn [type_check]. rewrite E.
      assert (p = q) by (destruct p, q; try discriminate E; reflexivity). subst q. cbn [read] in R. destruct (read_bytes b off (prim_size p)); [|discriminate R]. injection R as ->. reflexivity.
    - destruct x as [q|]; [|discriminate Hv]. destruct v as [bs| | |]; try discriminate Hv.
      destruct (sz =? prim_size q) eqn:E; [|discriminate Hv]. injection Hv as <-. cbn [type_check sizeof]. rewrite E.
      apply N.eqb_eq in E. subst sz. cbn [read] in R. destruct (read_bytes b off (prim_size q)); [|discriminate R]. injection R as ->. reflexivity.
    - destruct x as [|k']; [discriminate Hv|]. destruct v as [|s| |]; try discriminate Hv.
      destruct (skind_eqb k k') eqn:E; [|discriminate Hv]. injection Hv as <-. cbn [type_check]. rewrite E.
      cbn [read] in R. destruct (at_ b off); try discriminate R. destruct (skind_eqb k k0 && intact b off SZ_STRING) eqn:E2; [|discriminate R].
      injection R as ->. apply andb_true_iff in E2 as [E2 E3]. assert (skind_eqb k' k0 = true) as ->; [destruct k, k', k0; auto|]. rewrite E3. reflexivity.
  Qed.
  Lemma size_does T : rget T = T -> good T -> does T (reading get_size) (asking (size_value T)).
  Proof.
    intros Hrg Hg. apply reading_does. intros b off v y L R Hv. unfold get_size. rewrite Hrg.
    destruct T as [p|nm sz vals|k bd|nm c n|c bd|k w bd|x z|nm s ms|nm s ms labels dv iv d|]; try discriminate Hv; cbn [size_value] in Hv.
    - destruct v as [|s| |]; try discriminate Hv. injection Hv as <-. cbn [live] in L. destruct L as (s' & [H1 H2] & _).
      cbn [read] in R. rewrite H1, H2, skind_eqb_refl in *. cbn in R. injection R as ->. reflexivity.
    - destruct v as [| |l|]; try discriminate Hv. injection Hv as <-. cbn [read] in R.
      apply bind_ok in R as (l' & El & R). injection R as ->. destruct (collect_nth _ _ _ _ El) as [Hlen _]. rewrite Hlen, N2Nat.id. reflexivity.
    - destruct v as [| |l|]; try discriminate Hv. injection Hv as <-. cbn [live] in L. destruct L as (cap & size & m & Ho & _).
      rewrite (read_seq_obj _ _ _ _ _ _ _ Ho) in R. destruct Ho as [H1 H2]. rewrite H1, H2.
      apply bind_ok in R as (l' & El & R). injection R as ->. destruct (collect_nth _ _ _ _ El) as [Hlen _]. rewrite Hlen, N2Nat.id. reflexivity.
    - destruct v as [| |l|]; try discriminate Hv. injection Hv as <-. cbn [live] in L. destruct L as (cap & size & m & Ho & _).
      rewrite (read_map_obj _ _ _ _ _ _ _ _ Ho) in R. destruct Ho as [H1 H2]. rewrite H1, H2.
      apply bind_ok in R as (l' & El & R). injection R as ->. destruct (collect_nth _ _ _ _ El) as [Hlen _]. rewrite Hlen, N2Nat.id. reflexivity.
    - destruct v as [| |l|]; try discriminate Hv. injection Hv as <-. cbn [read] in R.
      apply bind_ok in R as (a & _ & R). apply bind_ok in R as (c & _ & R). injection R as <-. reflexivity.
    - destruct v as [| |l|]; try discriminate Hv. injection Hv as <-. rewrite read_struct in R.
      apply bind_ok in R as (l' & El & R). injection R as ->. destruct (mmap_nth _ _ _ El) as [Hlen _]. rewrite Hlen. reflexivity.
    - destruct v; try discriminate Hv. injection Hv as <-. reflexivity.
  Qed.
  Lemma case_does T : rget T = T -> good T -> does T (reading get_case) (asking (case_value T)).
  Proof.
    intros Hrg Hg. apply reading_does. intros b off v y L R Hv. unfold get_case. rewrite Hrg.
    destruct T as [| | | | | | | |nm s ms labels dv iv d|]; try discriminate Hv. cbn [case_value] in Hv.
    destruct ms as [|[[dn o] disc] cs]; [discriminate Hv|].
    destruct (good_union_inv _ _ _ _ _ _ _ Hg) as (dn' & disc' & cs' & Em & _). inversion Em; subst dn' disc' cs' o.
    destruct v as [| | |vd [w|]]; try discriminate Hv.
    destruct (union_state _ _ _ _ _ _ _ _ _ Hg b off L) as (_ & _ & bs & l0 & Rd0 & Gl0 & Lo0 & H0).
    assert (vd = VBytes bs) as ->.
    { destruct (lookup_label l0 labels); [destruct H0 as (? & ? & _ & _ & _ & H0)|]; congruence. }
    rewrite Lo0 in Hv. destruct (lookup_label l0 labels) as [x|] eqn:Ex; [|discriminate Hv]. injection Hv as <-.
    destruct H0 as (m & w' & Hf & _). destruct (u_member _ _ _ _ _ _ _ _ _ Hg _ _ Hf) as (Hf' & _ & Hn & _).
    cbn [current_case]. rewrite Gl0. cbn [bind]. rewrite Ex. unfold member_at. rewrite Hf'. cbn [bind]. rewrite Hn. reflexivity.
  Qed.
  (** operator== with another instance of the type whose value is [w]. *)
  Lemma eq_does T ob ooff w : good T -> nofloat T -> live T ob ooff -> read T ob ooff = Ok w ->
    does T (reading (ref_eq T ob ooff)) (asking (fun v => Some (OBool (value_eqb v w)))).
  Proof.
    intros Hg Hn L2 R2. apply reading_does. intros b off v y L R [= <-].
    destruct (compare_spec T Hg b off ob ooff L L2) as (r & E & H). specialize (H Hn). rewrite R, R2 in H.
    assert (r = value_eqb v w) as ->.
    { destruct r, (value_eqb v w) eqn:Ev; try reflexivity.
      - destruct H as [H _]. specialize (H eq_refl). injection H as ->. rewrite value_eqb_refl in Ev. discriminate Ev.
      - apply value_eqb_eq in Ev. subst w. destruct H as [_ H]. apply H. reflexivity. }
    unfold ref_eq. destruct T; try (rewrite E; reflexivity). cbn [tname]. rewrite String.eqb_refl, E. reflexivity.
  Qed.
  Lemma has_key_does k w bd kt kb ko kv : good (TMap k w bd) -> rget kt = rget k -> entry_ok k w -> key_at k kb ko kv ->
    does (TMap k w bd) (reading (has_key strhash kt kb ko)) (asking (has_key_value strhash k kv)).
  Proof.
    intros Hg Hkt Hok (Lk & Rk & Sk). apply reading_does. intros b off v y L R Hv.
    destruct (map_state k w bd b off v L R) as (cap & size & m & l & -> & Ho & Hsz & Hb & Hfit & Hm & El & Hlen).
    unfold has_key. cbn [rget]. rewrite (compat_refl_gen _ k kt (Nat.lt_succ_diag_r _) (eq_sym Hkt)). cbn [bind]. rewrite N.eqb_refl. destruct Ho as [H1 H2]. rewrite H1, H2.
    pose proof (map_hyps k w bd Hg Hok) as (Gk & Gw & Ck & Cw & Mk & Mw & Hh & H32 & Hpos & Hbs & _).
    rewrite Hbs. cbn [has_key_value] in Hv. destruct (ordered strhash k l) eqn:Hord; [|discriminate Hv].
    destruct (key_pos kv l) as [i|] eqn:Ek.
    - injection Hv as <-. destruct (key_pos_some _ _ _ Ek) as (e & He & Hke & _).
      destruct (entry_nth k w size m l i e El He) as (x & z & -> & Hi & _). cbn [entry_key] in Hke. subst x.
      assert (Fp : find_place strhash k (msize (TPair k w)) size m kb ko = Ok (N.of_nat i, true)).
      { eapply (find_present strhash k w) with (cap := cap) (l := l) (kv := kv); try eassumption. exists z. exact He. }
      rewrite Fp. reflexivity.
    - destruct (collides strhash k kv l) eqn:Ec; [discriminate Hv|]. injection Hv as <-.
      assert (Fa : exists p, find_place strhash k (msize (TPair k w)) size m kb ko = Ok (p, false)).
      { eapply (find_absent strhash k w) with (cap := cap) (l := l) (kv := kv); eassumption. }
      destruct Fa as (p0 & Ep). rewrite Ep. reflexivity.
  Qed.
  Lemma insert_does k w bd pb po kv e : good (TMap k w bd) -> entry_ok k w -> key_at k pb po kv -> entry_key e = kv ->
    does (TMap k w bd) (insert_pair fc strhash (TPair k w) pb po) (insert_value strhash k w bd e).
  Proof.
    intros Hg Hok (Lk & Rk & Sk) He b off v a v' L R Hv.
    destruct (map_state k w bd b off v L R) as (cap & size & m & l & -> & Ho & Hsz & Hb & Hfit & Hm & El & Hlen).
    unfold insert_pair. cbn [rget]. rewrite (compat_refl (TPair k w)). cbn [bind]. rewrite N.eqb_refl. pose proof Ho as [H1 H2]. rewrite H1, H2.
    pose proof (map_hyps k w bd Hg Hok) as (Gk & Gw & Ck & Cw & Mk & Mw & Hh & H32 & Hpos & Hbs & GT & Hbd & Hbd1).
    cbn [insert_value] in Hv. cbv zeta in Hv. rewrite Hlen, He in Hv. destruct (ordered strhash k l) eqn:Hord; [|discriminate Hv].
    unfold insert_instance. replace ((size <? bd) || (bd =? 0)) with ((bd =? 0) || (size <? bd)) by apply orb_comm.
    destruct ((bd =? 0) || (size <? bd)) eqn:Efull.
    - destruct (collides strhash k kv l) eqn:Ec; [discriminate Hv|]. cbn [negb andb] in Hv.
      destruct (accepts (TPair k w) bd (size + 1) (2 * (size + 1))) eqn:Eac; [|discriminate Hv]. injection Hv as <- <-.
      unfold accepts in Eac.
      destruct (insert_spec fc strhash k w Gk Gw Ck Cw Mk Mw Hh H32 Hpos cap size m l pb po bd kv) as (cap' & m' & p & E & Hp & Hple & L' & Hs' & Hf' & Hb' & Hcap & C); try assumption.
      + destruct (bd =? 0); [|split; assumption]. apply andb_true_iff in Eac as [E1 E2]. apply N.ltb_lt in E1. apply N.leb_le in E2. split; assumption.
      + lia.
      + destruct (bd =? 0) eqn:E0; [left; apply N.eqb_eq, E0|right; apply N.leb_le in Eac; lia].
      + eapply selected_value; eassumption.
      + rewrite E. cbn [bind].
        destruct (map_back k w bd b off _ _ _ cap' (size + 1) m' _ Ho Hs' ltac:(destruct Hcap as [->|Hcap]; lia) Hf' L' C) as (A & Lb & Rb).
        eexists. split; [reflexivity|]. auto.
    - injection Hv as <- <-. exists b. split; [reflexivity|]. split; [intros j _; reflexivity|auto].
  Qed.
End Realize.
