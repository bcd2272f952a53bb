(** References: an operation at a path changes the denoted value exactly at that path. *)
From Verif Require Import Base Types TypeBuild TypeSpec Mem MemSpec TyInd Layout CompatFacts2 MemEqns MemFacts
  ConstructFacts CopyFacts DestroyFacts CompareFacts MoveFacts Ops OpsSpec UnionFacts SeqFacts
  CollectFacts Hash HashSpec HashFacts MapOps MapSpec MapValue MapFacts.

(** ** Operations at a reference *)
(** [f] performs [g] on instances of [T] *)
Definition realizes (T : ty) (f : ty -> block -> N -> res block) (g : value -> option value) : Prop :=
  forall b off v v', live T b off -> read T b off = Ok v -> g v = Some v' ->
  exists b', f T b off = Ok b' /\ agree_out b b' off (msize T) /\ live T b' off /\ read T b' off = Ok v'.

Definition upd_ok {A} (a : A) (t : ty) (v' : value) (b : block) (off : N) (r : res (A * block)) : Prop :=
  exists b', r = Ok (a, b') /\ agree_out b b' off (msize t) /\ live t b' off /\ read t b' off = Ok v'.
Definition does {A} (T : ty) (f : ty -> block -> N -> res (A * block)) (g : value -> option (A * value)) : Prop :=
  forall b off v a v', live T b off -> read T b off = Ok v -> g v = Some (a, v') -> upd_ok a T v' b off (f T b off).
Lemma realizes_does T f g : realizes T f g -> does T (writing f) (fun v => option_map (fun v' => (ONone, v')) (g v)).
Proof.
  intros H b off v a v' L R. destruct (g v) as [w|] eqn:E; [|discriminate]. intros [= <- <-].
  destruct (H b off v w L R E) as (b' & E' & H'). exists b'. split; [unfold writing; rewrite E'; reflexivity|exact H'].
Qed.

(** The same with results of [f] that are related to, rather than equal to, those of [g]. *)
Definition updr {A B} (rel : A -> B -> Prop) (a : B) (t : ty) (v' : value) (b : block) (off : N) (r : res (A * block)) : Prop :=
  exists x b', r = Ok (x, b') /\ rel x a /\ agree_out b b' off (msize t) /\ live t b' off /\ read t b' off = Ok v'.
Definition doesr {A B} (rel : A -> B -> Prop) (T : ty) (f : ty -> block -> N -> res (A * block)) (g : value -> option (B * value)) : Prop :=
  forall b off v a v', live T b off -> read T b off = Ok v -> g v = Some (a, v') -> updr rel a T v' b off (f T b off).
Lemma updr_eq {A} (a : A) t v' b off r : updr eq a t v' b off r <-> upd_ok a t v' b off r.
Proof.
  split.
  - intros (x & b' & E & -> & H). exists b'. auto.
  - intros (b' & E & H). exists a, b'. auto.
Qed.

Lemma good_rget t : good t -> good (rget t).
Proof. induction t using ty_ind'; intros Hg; try exact Hg. cbn [rget]. apply IHt, (good_alias _ _ Hg). Qed.

Lemma upd_struct {O O'} (rel : O -> O' -> Prop) (a0 : O') nm s ms b off l k m y (r : res (O * block)) : good (TStruct nm s ms) -> live (TStruct nm s ms) b off ->
  read (TStruct nm s ms) b off = Ok (VNode l) -> nth_error ms k = Some m ->
  updr rel a0 (m_type m) y b (off + m_off m) r -> updr rel a0 (TStruct nm s ms) (VNode (replace_nth k y l)) b off r.
Proof.
  intros Hg Hl Hr Hm (x0 & b' & E & Rel & A & L & R). pose proof Hg as [Hw _]. apply wf_struct_iff in Hw as (Hlo & Hs & _ & _).
  assert (Hrange : m_off m + msize (m_type m) <= s).
  { pose proof (laid_out_in _ _ _ Hlo (nth_error_In _ _ Hm)). lia. }
  assert (Ssib : forall j x, nth_error ms j = Some x -> j <> k -> same b (off + m_off x) b' (off + m_off x) (msize (m_type x))).
  { intros j x Hx Hn. eapply agree_out_same; [exact A|]. pose proof (slots_nth _ _ _ (laid_out_slots 0 ms off Hlo) j k x m Hx Hm Hn) as D.
    unfold disj in D. lia. }
  exists x0, b'. split; [exact E|]. split; [exact Rel|]. split; [cbn [msize]; eapply agree_out_weaken; [exact A|lia|lia]|].
  rewrite live_struct, Forall_forall in *. split.
  - intros x Hx. apply In_nth_error in Hx as [j Hj]. destruct (Nat.eq_dec j k) as [->|Hn].
    + rewrite Hm in Hj. injection Hj as <-. exact L.
    + eapply live_local; [eapply good_struct; [exact Hg|eapply nth_error_In, Hj]|apply (Ssib j x Hj Hn)|apply Hl, (nth_error_In _ _ Hj)].
  - rewrite read_struct in *. destruct (mmap (fun m => read (m_type m) b (off + m_off m)) ms) as [l'|] eqn:El; [|discriminate Hr].
    injection Hr as ->. rewrite (mmap_replace _ (fun m => read (m_type m) b' (off + m_off m)) ms l k m y El Hm); [reflexivity| |exact R].
    intros j x Hx Hn. apply read_local; [eapply good_struct; [exact Hg|eapply nth_error_In, Hx]|apply (Ssib j x Hx Hn)].
Qed.
Lemma upd_arr {O O'} (rel : O -> O' -> Prop) (a0 : O') nm c n b off l i y (r : res (O * block)) : good (TArr nm c n) -> live (TArr nm c n) b off ->
  read (TArr nm c n) b off = Ok (VNode l) -> i < n ->
  updr rel a0 c y b (off + i * msize c) r -> updr rel a0 (TArr nm c n) (VNode (replace_nth (N.to_nat i) y l)) b off r.
Proof.
  intros Hg Hl Hr Hi (x0 & b' & E & Rel & A & L & R). pose proof (good_arr _ _ _ Hg) as Hgc.
  assert (S : forall j, j <> i -> same b (off + j * msize c) b' (off + j * msize c) (msize c)).
  { intros j Hn. eapply agree_out_same; [exact A|]. nia. }
  exists x0, b'. split; [exact E|]. split; [exact Rel|]. split; [cbn [msize]; eapply agree_out_weaken; [exact A|lia|nia]|]. cbn [live read] in *. split.
  - intros j Hj. destruct (N.eq_dec j i) as [->|Hn]; [exact L|]. eapply live_local; [exact Hgc|apply S, Hn|apply Hl, Hj].
  - destruct (collect (N.to_nat n) 0 (fun i => read c b (off + i * msize c))) as [l'|] eqn:El; [|discriminate Hr].
    injection Hr as ->. rewrite (collect_replace (N.to_nat n) 0 _ (fun i => read c b' (off + i * msize c)) l (N.to_nat i) y El); [reflexivity|lia| |].
    + intros j _ _ Hn. apply read_local; [exact Hgc|apply S; lia].
    + rewrite N2Nat.id. exact R.
Qed.
Lemma upd_pair {O O'} (rel : O -> O' -> Prop) (a0 : O') x y b off a c k v' (r : res (O * block)) : good (TPair x y) -> live (TPair x y) b off ->
  read (TPair x y) b off = Ok (VNode [a; c]) -> 
  (k = 0%nat /\ updr rel a0 x v' b off r \/ k = 1%nat /\ updr rel a0 y v' b (off + msize x) r) ->
  updr rel a0 (TPair x y) (VNode (replace_nth k v' [a; c])) b off r.
Proof.
  intros Hg [L1 L2] Hr H. pose proof (good_pair _ _ Hg) as [Hgx Hgy]. cbn [read] in Hr.
  apply bind_ok in Hr as (a' & Ra & Hr). apply bind_ok in Hr as (c' & Rc & Hr). injection Hr as -> ->.
  destruct H as [[-> (x0 & b' & E & Rel & A & L & R)]|[-> (x0 & b' & E & Rel & A & L & R)]]; exists x0, b'; (split; [exact E|]; split; [exact Rel|]); cbn [msize].
  - assert (S : same b (off + msize x) b' (off + msize x) (msize y)) by (eapply agree_out_same; [exact A|right; lia]).
    split; [eapply agree_out_weaken; [exact A|lia|lia]|]. cbn [live read]. split.
    + split; [exact L|eapply live_local; eassumption].
    + rewrite R, (read_local y _ _ _ _ Hgy S), Rc. reflexivity.
  - assert (S : same b off b' off (msize x)) by (eapply agree_out_same; [exact A|left; lia]).
    split; [eapply agree_out_weaken; [exact A|lia|lia]|]. cbn [live read]. split.
    + split; [eapply live_local; eassumption|exact L].
    + rewrite R, (read_local x _ _ _ _ Hgx S), Ra. reflexivity.
Qed.

(** ** One access *)
Definition do_at {A B} (rel : A -> B -> Prop) (t : ty) (F : block -> N -> res (A * block)) (K : value -> option (B * value)) : Prop :=
  forall b off v a v', live t b off -> read t b off = Ok v -> K v = Some (a, v') -> updr rel a t v' b off (F b off).

Section Access.
  Context {O O' : Type}.
  Variable rel : O -> O' -> Prop.
  Implicit Types (F : block -> N -> res (O * block)) (K : value -> option (O' * value)) (a : O').

  Lemma access_struct nm s ms F K k m : good (TStruct nm s ms) -> nth_error ms k = Some m -> do_at rel (m_type m) F K ->
    do_at rel (TStruct nm s ms) (fun b off => F b (off + m_off m)) (at_index k K).
  Proof.
    intros Hg Hm HF b off v a v' Hl Hr Hv. pose proof (nth_error_In _ _ Hm) as Hin.
    unfold at_index in Hv. destruct v as [| |l|]; try discriminate Hv.
    pose proof Hr as Hr'. rewrite read_struct in Hr'. destruct (mmap (fun m => read (m_type m) b (off + m_off m)) ms) as [l'|] eqn:El; [|discriminate Hr'].
    injection Hr' as ->. destruct (mmap_nth _ _ _ El) as [_ Hnth]. destruct (Hnth k m Hm) as (x & Hx & Rx). rewrite Hx in Hv.
    destruct (K x) as [[a' y]|] eqn:Ey; [|discriminate Hv]. injection Hv as <- <-. cbn [snd fst].
    apply (upd_struct rel a' nm s ms b off l k m y); try assumption.
    apply (HF b (off + m_off m) x a' y); try assumption.
    rewrite live_struct, Forall_forall in Hl. apply Hl, Hin.
  Qed.
  Lemma access_arr nm c n i F K : good (TArr nm c n) -> do_at rel c F K ->
    do_at rel (TArr nm c n) (fun b off => if i <? n then F b (off + i * msize c) else Fail Assert) (at_index (N.to_nat i) K).
  Proof.
    intros Hg HF b off v a v' Hl Hr Hv. unfold at_index in Hv. destruct v as [| |l|]; try discriminate Hv.
    pose proof Hr as Hr'. cbn [read] in Hr'. destruct (collect (N.to_nat n) 0 (fun i => read c b (off + i * msize c))) as [l'|] eqn:El; [|discriminate Hr'].
    injection Hr' as ->. destruct (collect_nth _ _ _ _ El) as [Hlen Hnth].
    destruct (nth_error l (N.to_nat i)) as [x|] eqn:Ex; [|discriminate Hv].
    assert (Hi : i < n). { pose proof (proj1 (nth_error_Some l (N.to_nat i)) ltac:(congruence)). lia. }
    destruct (Hnth (N.to_nat i) ltac:(lia)) as (x' & Hx' & Rx). rewrite Ex in Hx'. injection Hx' as <-. rewrite N2Nat.id in Rx.
    destruct (K x) as [[a' y]|] eqn:Ey; [|discriminate Hv]. injection Hv as <- <-. cbn [fst snd].
    apply N.ltb_lt in Hi as Hi'. rewrite Hi'. apply (upd_arr rel a' nm c n b off l i y); try assumption.
    apply (HF b _ x a' y); try assumption. apply Hl, Hi.
  Qed.
  Lemma access_pair x y F K (fst_ : bool) : good (TPair x y) -> do_at rel (if fst_ then x else y) F K ->
    do_at rel (TPair x y) (fun b off => F b (if fst_ then off else off + msize x)) (at_index (if fst_ then 0 else 1)%nat K).
  Proof.
    intros Hg HF b off v a v' Hl Hr Hv. pose proof Hr as Hr'. cbn [read] in Hr'.
    apply bind_ok in Hr' as (va & Ra & Hr'). apply bind_ok in Hr' as (c & Rc & Hr'). injection Hr' as <-.
    pose proof Hl as [L1 L2]. unfold at_index in Hv.
    destruct fst_; cbn [nth_error] in Hv.
    - destruct (K va) as [[a' y']|] eqn:Ey; [|discriminate Hv]. injection Hv as <- <-. cbn [fst snd].
      apply (upd_pair rel a' x y b off va c 0 y'); try assumption. left. split; [reflexivity|]. eapply HF; eassumption.
    - destruct (K c) as [[a' y']|] eqn:Ey; [|discriminate Hv]. injection Hv as <- <-. cbn [fst snd].
      apply (upd_pair rel a' x y b off va c 1 y'); try assumption. right. split; [reflexivity|]. eapply HF; eassumption.
  Qed.

  (** Changing one slot of the buffer of a container. *)
  Lemma slot_update T n size m l i y (r : res (O * block)) a : good T -> live_slots T n m -> i < size -> size <= n ->
    collect (N.to_nat size) 0 (fun i => read T m (i * msize T)) = Ok l ->
    updr rel a T y m (i * msize T) r ->
    exists z m', r = Ok (z, m') /\ rel z a /\ live_slots T n m' /\
      collect (N.to_nat size) 0 (fun i => read T m' (i * msize T)) = Ok (replace_nth (N.to_nat i) y l).
  Proof.
    intros Hg Hm Hi Hn El (z & m' & E & Rz & A & L & R). exists z, m'. split; [exact E|]. split; [exact Rz|].
    assert (S : forall j, j <> i -> same m (j * msize T) m' (j * msize T) (msize T)).
    { intros j Hj. eapply agree_out_same; [exact A|]. nia. }
    split.
    - intros j Hj. destruct (N.eq_dec j i) as [->|Hne]; [exact L|]. eapply live_local; [exact Hg|apply S, Hne|apply Hm, Hj].
    - rewrite (collect_replace (N.to_nat size) 0 _ (fun i => read T m' (i * msize T)) l (N.to_nat i) y El); [reflexivity|lia| |].
      + intros j _ _ Hne. apply read_local; [exact Hg|apply S; lia].
      + rewrite N2Nat.id. exact R.
  Qed.
  Lemma access_seq c bd i F K : good (TSeq c bd) -> do_at rel c F K ->
    do_at rel (TSeq c bd) (fun b off =>
       match at_ b off with
       | CSeq c' cap size m =>
           if intact b off SZ_SEQ then
             if i <? size then
               do x <- F m (wrap32 (i * wrap32 (msize c')));
               Ok (fst x, set_cell b off (CSeq c' cap size (snd x)))
             else Fail Assert
           else Fail UB
       | _ => Fail UB
       end) (at_index (N.to_nat i) K).
  Proof.
    intros Hg HF b off v a v' Hl Hr Hv. pose proof (good_seq _ _ Hg) as Hgc. unfold at_index in Hv. destruct v as [| |l|]; try discriminate Hv.
    cbn [live] in Hl. destruct Hl as (cap & size & m & Ho & Hsz & Hb & H32 & H31 & Hm).
    rewrite (read_seq_obj _ _ _ _ _ _ _ Ho) in Hr. destruct Hg as [_ (_ & Hm32 & _)].
    destruct (collect (N.to_nat size) 0 (fun i => read c m (i * msize c))) as [l'|] eqn:El; [|discriminate Hr].
    injection Hr as ->. destruct (collect_nth _ _ _ _ El) as [Hlen Hnth].
    destruct (nth_error l (N.to_nat i)) as [x|] eqn:Ex; [|discriminate Hv].
    assert (Hi : i < size). { pose proof (proj1 (nth_error_Some l (N.to_nat i)) ltac:(congruence)). lia. }
    destruct (Hnth (N.to_nat i) ltac:(lia)) as (x' & Hx' & Rx). rewrite Ex in Hx'. injection Hx' as <-. rewrite N2Nat.id in Rx.
    destruct (K x) as [[a' y]|] eqn:Ey; [|discriminate Hv]. injection Hv as <- <-. cbn [fst snd].
    pose proof (HF m (i * msize c) x a' y (Hm i ltac:(lia)) Rx Ey) as U.
    destruct (slot_update c cap size m l i y _ a' Hgc Hm Hi Hsz El U) as (z & m' & E & Rz & L & C).
    pose proof Ho as [Ho1 Ho2]. rewrite Ho1, Ho2. apply N.ltb_lt in Hi as Hi'. rewrite Hi'.
    rewrite (wrap32_small (msize c)) by exact Hm32. rewrite wrap32_small by nia. rewrite E. cbn [bind fst snd].
    destruct (set_cell_spec b off SZ_SEQ _ (CSeq c cap size m') ltac:(reflexivity) Ho) as [A' OB].
    do 2 eexists. split; [reflexivity|]. split; [exact Rz|]. split; [exact A'|]. split.
    - cbn [live]. exists cap, size, m'. split; [exact OB|]. repeat (split; [assumption|]). exact L.
    - rewrite (read_seq_obj _ _ _ _ _ _ _ OB). rewrite C. reflexivity.
  Qed.

  (** After the member has been selected (state [b1]), the access to the member of a union. *)
  Lemma access_union nm s dn disc cs labels dv iv d F K x m l b b1 off w a y :
    good (TUnion nm s ((dn, 0, disc) :: cs) labels dv iv d) -> find_member x cs = Some m -> first_label x labels = Some l ->
    agree_out b b1 off s -> live (TUnion nm s ((dn, 0, disc) :: cs) labels dv iv d) b1 off ->
    live (m_type m) b1 (off + m_off m) -> get_label disc b1 off = Ok l -> live disc b1 off ->
    read disc b1 off = Ok (label_bytes disc l) -> read (m_type m) b1 (off + m_off m) = Ok w ->
    do_at rel (m_type m) F K -> K w = Some (a, y) ->
    updr rel a (TUnion nm s ((dn, 0, disc) :: cs) labels dv iv d) (VUnion (label_bytes disc l) (Some y)) b off (F b1 (off + m_off m)).
  Proof.
    intros Hgr Ef Efl A1 L1 Lm G1 Ld Rd Rm HF Ey.
    destruct (good_union_inv _ _ _ _ _ _ _ Hgr) as (dn' & disc' & cs' & Em & Hgd & _ & Hlw & _ & _ & Hs & _). inversion Em; subst dn' disc' cs'.
    destruct (u_member _ _ _ _ _ _ _ _ _ Hgr _ _ Ef) as (Hf' & Hin & Hn & Ho & Hrg & Hgm).
    destruct (HF b1 (off + m_off m) w a y Lm Rm Ey) as (z & b2 & E2 & Rz & A2 & L2 & R2).
    assert (Sd : same b1 off b2 off (msize disc)) by (eapply agree_out_same; [exact A2|left; lia]).
    assert (Hlk : lookup_label l labels = Some x).
    { destruct (good_union_inv _ _ _ _ _ _ _ Hgr) as (? & ? & ? & Em' & _ & _ & _ & _ & _ & _ & _ & _ & (_ & _ & Hsort & _)).
      apply sorted_lookup; [exact Hsort|]. apply first_label_in, Efl. }
    assert (Al2 : alloc b2 off s).
    { intros i Hi. destruct ((m_off m <=? i) && (i <? m_off m + msize (m_type m))) eqn:Ei.
      - apply andb_true_iff in Ei as [H1 H2]. apply N.leb_le in H1. apply N.ltb_lt in H2.
        pose proof (live_alloc _ (proj1 Hgm) _ _ L2 (i - m_off m) ltac:(lia)) as Q.
        replace (off + m_off m + (i - m_off m)) with (off + i) in Q by lia. exact Q.
      - rewrite A2; [apply (live_alloc _ (proj1 Hgr) _ _ L1 i Hi)|].
        apply andb_false_iff in Ei as [H|H]; [apply N.leb_gt in H|apply N.ltb_ge in H]; lia. }
    destruct (union_intro _ _ _ _ _ _ _ _ _ Hgr b2 off l x m y (label_bytes disc l)) as [Lu Ruu]; try assumption.
    - eapply live_local; eassumption.
    - rewrite (read_local disc _ _ _ _ Hgd Sd). exact Rd.
    - rewrite (get_label_same disc b1 off b2 off); [exact G1|]. rewrite Hlw. exact Sd.
    - exists z, b2. split; [exact E2|]. split; [exact Rz|]. cbn [msize]. split; [|split; assumption].
      intros j Hj. rewrite A2 by lia. apply A1, Hj.
  Qed.
End Access.

Section MapAccess.
  Variable fc : prim -> prim -> list N -> list N.
  Variable strhash : skind -> list N -> N.
  Variables k v : ty.
  Variable bd : N.
  Hypothesis Hg : good (TMap k v bd).
  Hypothesis Hok : entry_ok k v.
  Let T := TPair k v.

  Lemma map_hyps : good k /\ good v /\ copy_ok k /\ copy_ok v /\ movable k /\ movable v /\ hashable k /\
    msize T < 4294967296 /\ 0 < msize T /\ map_bs k v = msize T /\ good T /\ bd * msize T < 4294967296 /\ bd <= 2147483648.
  Proof.
    destruct Hok as (H1 & H2 & H3 & H4 & H5 & H6). destruct Hg as [Hw Ho]. pose proof Ho as (Ok1 & Ok2 & H7 & H8 & H9).
    destruct (good_map _ _ _ Hg) as [Gk Gv].
    repeat (split; [assumption|]). split; [apply wrap32_small; exact H7|]. split; [apply good_T; assumption|]. auto.
  Qed.

  (** The state of a map instance. *)
  Lemma map_state b off vv : live (TMap k v bd) b off -> read (TMap k v bd) b off = Ok vv ->
    exists cap size m l, vv = VNode l /\ obj_at b off SZ_MAP (CMap k v cap size m) /\ size <= cap /\
      (bd = 0 /\ cap <= 2 * size \/ cap <= bd) /\ fits T cap /\ live_slots T cap m /\
      collect (N.to_nat size) 0 (fun i => read T m (i * msize T)) = Ok l /\ N.of_nat (List.length l) = size.
  Proof.
    intros Hl Hr. cbn [live] in Hl. destruct Hl as (cap & size & m & Ho & Hsz & Hb & H32 & H31 & Hm).
    rewrite (read_map_obj _ _ _ _ _ _ _ _ Ho) in Hr. apply bind_ok in Hr as (l & El & Hr). injection Hr as <-.
    destruct (collect_nth _ _ _ _ El) as [Hlen _].
    exists cap, size, m, l. split; [reflexivity|]. split; [exact Ho|]. split; [exact Hsz|]. split; [exact Hb|]. split; [exact (conj H32 H31)|].
    split; [exact Hm|]. split; [exact El|]. lia.
  Qed.
  Lemma map_back b off cap0 size0 m0 cap size m l : obj_at b off SZ_MAP (CMap k v cap0 size0 m0) -> size <= cap ->
    (bd = 0 /\ cap <= 2 * size \/ cap <= bd) -> fits T cap -> live_slots T cap m ->
    collect (N.to_nat size) 0 (fun i => read T m (i * msize T)) = Ok l ->
    agree_out b (set_cell b off (CMap k v cap size m)) off SZ_MAP /\
    live (TMap k v bd) (set_cell b off (CMap k v cap size m)) off /\
    read (TMap k v bd) (set_cell b off (CMap k v cap size m)) off = Ok (VNode l).
  Proof.
    intros Ho Hsz Hb [H32 H31] Hm El.
    destruct (set_cell_spec b off SZ_MAP _ (CMap k v cap size m) ltac:(reflexivity) Ho) as [A' O']. split; [exact A'|]. split.
    - cbn [live]. exists cap, size, m. split; [exact O'|]. repeat (split; [assumption|]). exact Hm.
    - rewrite (read_map_obj _ _ _ _ _ _ _ _ O'). fold T. rewrite El. reflexivity.
  Qed.

  (** Entries of the buffer are pairs. *)
  Lemma entry_nth size m l i e : collect (N.to_nat size) 0 (fun i => read T m (i * msize T)) = Ok l -> nth_error l i = Some e ->
    exists x y, e = VNode [x; y] /\ N.of_nat i < size /\ read T m (N.of_nat i * msize T) = Ok (VNode [x; y]).
  Proof.
    intros El He. destruct (collect_nth _ _ _ _ El) as [Hlen Hnth].
    assert (Hi : (i < N.to_nat size)%nat) by (rewrite <- Hlen; apply nth_error_Some; congruence).
    destruct (Hnth i Hi) as (e' & He' & R). rewrite He in He'. injection He' as <-. rewrite N.add_0_l in R.
    pose proof R as R'. cbn [T read] in R'. unfold T in R'. cbn [read] in R'.
    apply bind_ok in R' as (x & _ & R'). apply bind_ok in R' as (y & _ & R'). injection R' as <-.
    exists x, y. split; [reflexivity|]. split; [lia|exact R].
  Qed.

  Lemma access_spec cap size m l kb ko kv l' : size <= cap -> (bd = 0 /\ cap <= 2 * size \/ cap <= bd) -> fits T cap ->
    live_slots T cap m -> collect (N.to_nat size) 0 (fun i => read T m (i * msize T)) = Ok l -> N.of_nat (List.length l) = size ->
    key_at k kb ko kv -> touch_key strhash k v bd kv l = Some l' ->
    exists cap' size' m' p, map_access fc strhash k v cap size m kb ko bd = Ok (cap', size', m', p) /\
      key_pos kv l' = Some (N.to_nat p) /\ size' <= cap' /\ (bd = 0 /\ cap' <= 2 * size' \/ cap' <= bd) /\ fits T cap' /\
      live_slots T cap' m' /\ collect (N.to_nat size') 0 (fun i => read T m' (i * msize T)) = Ok l'.
  Proof.
    intros Hsz Hb Hf Hm El Hlen (Lk & Rk & Sk) Ht.
    destruct map_hyps as (Gk & Gv & Ck & Cv & Mk & Mv & Hh & H32 & Hpos & Hbs & GT & Hbd & Hbd1).
    unfold touch_key in Ht. cbv zeta in Ht. rewrite Hlen in Ht. destruct (ordered strhash k l) eqn:Ho; [|discriminate Ht].
    unfold map_access. rewrite Hbs.
    destruct (key_pos kv l) as [i|] eqn:Ek.
    - injection Ht as <-. destruct (key_pos_some _ _ _ Ek) as (e & He & Hke & _).
      destruct (entry_nth size m l i e El He) as (x & y & -> & Hi & _). cbn [entry_key] in Hke. subst x.
      assert (Fp : find_place strhash k (msize T) size m kb ko = Ok (N.of_nat i, true)).
      { eapply (find_present strhash k v) with (cap := cap) (l := l) (kv := kv); try eassumption. exists y. exact He. }
      fold T. rewrite Fp. cbn [bind snd fst]. exists cap, size, m, (N.of_nat i). split; [reflexivity|]. rewrite Nat2N.id. auto 10.
    - destruct (collides strhash k kv l) eqn:Ec; [discriminate Ht|]. cbn [negb andb] in Ht.
      destruct (accepts (TPair k v) bd (size + 1) (2 * (size + 1))) eqn:Eac; [|discriminate Ht]. injection Ht as <-.
      assert (Fa : exists p, find_place strhash k (msize T) size m kb ko = Ok (p, false)).
      { eapply (find_absent strhash k v) with (cap := cap) (l := l) (kv := kv); eassumption. }
      destruct Fa as (p0 & Ep). fold T. rewrite Ep. cbn [bind snd].
      unfold accepts in Eac. fold T in Eac.
      destruct (insert_spec fc strhash k v Gk Gv Ck Cv Mk Mv Hh H32 Hpos cap size m l kb ko bd kv) as (cap' & m' & p & E & Hp & Hple & L & Hs' & Hf' & Hb' & Hcap & C); try assumption.
      + destruct (bd =? 0); [|split; assumption]. apply andb_true_iff in Eac as [E1 E2]. apply N.ltb_lt in E1. apply N.leb_le in E2. split; assumption.
      + lia.
      + destruct (bd =? 0) eqn:E0; [left; apply N.eqb_eq, E0|right; apply N.leb_le in Eac; lia].
      + eapply selected_value; eassumption.
      + unfold insert_instance. replace ((size <? bd) || (bd =? 0)) with true.
        2:{ symmetry. destruct (bd =? 0); [apply orb_true_r|]. apply N.leb_le in Eac. apply orb_true_iff. left. apply N.ltb_lt. lia. }
        rewrite E. cbn [bind]. exists cap', (size + 1), m', p. split; [reflexivity|].
        split; [rewrite (add_entry_pos strhash k kv (default_value v) l Ho Ec); rewrite Hp; reflexivity|].
        split; [exact Hs'|]. split; [|split; [exact Hf'|split; [exact L|exact C]]].
        destruct Hcap as [->|Hcap]; lia.
  Qed.
End MapAccess.

Section Path.
  Variable fc : prim -> prim -> list N -> list N.
  Variable strhash : skind -> list N -> N.

  (** Updating the value half of an entry. *)
  Lemma at_key_spec {O O'} (rel : O -> O' -> Prop) k v bd F (K : value -> option (O' * value)) size cap m l kv p a v' :
    good (TMap k v bd) -> do_at rel v F K -> size <= cap -> live_slots (TPair k v) cap m ->
    collect (N.to_nat size) 0 (fun i => read (TPair k v) m (i * msize (TPair k v))) = Ok l ->
    key_pos kv l = Some (N.to_nat p) -> at_key kv K l = Some (a, v') ->
    exists z m' l', F m (p * msize (TPair k v) + msize k) = Ok (z, m') /\ rel z a /\ v' = VNode l' /\ live_slots (TPair k v) cap m' /\
      collect (N.to_nat size) 0 (fun i => read (TPair k v) m' (i * msize (TPair k v))) = Ok l'.
  Proof.
    intros Hg HF Hsz Hm El Ep Hv. unfold at_key in Hv. rewrite Ep in Hv.
    assert (GT : good (TPair k v)) by (destruct (good_map _ _ _ Hg) as [Gk Gv]; apply good_T; assumption).
    unfold at_index at 1 in Hv. destruct (nth_error l (N.to_nat p)) as [e|] eqn:Ee; [|discriminate Hv].
    destruct (entry_nth k v size m l (N.to_nat p) e El Ee) as (x & y & -> & Hi & R). rewrite N2Nat.id in *.
    destruct (at_index 1 K (VNode [x; y])) as [[a' e']|] eqn:E1; [|discriminate Hv]. injection Hv as <- <-. cbn [fst snd].
    pose proof (access_pair rel k v F K false GT HF m (p * msize (TPair k v)) (VNode [x; y]) a' e' (Hm p ltac:(lia)) R E1) as U.
    destruct (slot_update rel (TPair k v) cap size m l p e' _ a' GT Hm Hi Hsz El U) as (z & m' & E & Rz & L & C).
    exists z, m', (replace_nth (N.to_nat p) e' l). auto.
  Qed.

  Theorem path_spec_rel {O O'} (rel : O -> O' -> Prop) (p : list step) (f : ty -> block -> N -> res (O * block)) (g : value -> option (O' * value)) : forall q t T, good t -> path_rel p q t ->
    path_ty q t = Some T -> doesr rel T f g -> do_at rel t (on_path fc strhash p f t) (vmod strhash q g t).
  Proof.
    induction p as [|s p IH]; intros q t T Hg Hp HT Hf b off v a v' Hl Hr Hv.
    - destruct q; [|contradiction Hp]. cbn [path_ty vmod on_path] in *. injection HT as <-. rewrite live_rget in Hl. rewrite read_rget in Hr.
      destruct (Hf b off v a v' Hl Hr Hv) as (x0 & b' & E & Rel & A & L & R). exists x0, b'. rewrite msize_rget in A. rewrite live_rget, read_rget. auto.
    - pose proof (good_rget _ Hg) as Hgr. rewrite live_rget in Hl. rewrite read_rget in Hr.
      assert (G : updr rel a (rget t) v' b off (on_path fc strhash (s :: p) f t b off)).
      2:{ destruct G as (x0 & b' & E & Rel & A & L & R). exists x0, b'. rewrite msize_rget in A. rewrite live_rget, read_rget. auto. }
      destruct s as [nm|nm|i|kb ko|kb ko]; destruct q as [|[nm'|nm'|i'|kv|kv] q]; try contradiction Hp; cbn [path_rel path_ty vmod on_path] in *.
      + destruct Hp as [<- Hp]. destruct (rget t) as [| | | | | | |sn s ms|un s ms labels dv iv d|]; try contradiction Hp.
        * destruct (find_member nm ms) as [m|] eqn:Ef; [|discriminate HT].
          destruct (member_index nm ms) as [k|] eqn:Ek; [|discriminate Hv].
          pose proof (member_index_nth _ _ _ _ Ek Ef) as Hm. unfold member_at. rewrite Ef. cbn [bind].
          exact (access_struct rel sn s ms _ _ k m Hgr Hm (IH q (m_type m) T (good_struct _ _ _ _ Hgr (nth_error_In _ _ Hm)) Hp HT Hf) b off v a v' Hl Hr Hv).
        * destruct ms as [|[[dn o] disc] cs]; [discriminate Hv|].
          destruct (good_union_inv _ _ _ _ _ _ _ Hgr) as (dn' & disc' & cs' & Em & _). inversion Em; subst dn' disc' cs' o.
          destruct v as [| | |vd mv]; try discriminate Hv.
          destruct (find_member nm cs) as [m|] eqn:Ef; [|discriminate Hv].
          destruct (first_label nm labels) as [l|] eqn:Efl; [|discriminate Hv].
          destruct (u_member _ _ _ _ _ _ _ _ _ Hgr _ _ Ef) as (Hf' & Hin & Hn & Ho & Hrg & Hgm).
          destruct (select_case_spec _ _ _ _ _ _ _ _ _ Hgr nm m l b off Ef Efl Hl)
            as (b1 & vd' & mv' & cur & _ & E1 & Ru & Hlo & A1 & L1 & Lm & G1 & Ld & Rd & Rm & _).
          rewrite Hr in Ru. injection Ru as <- <-. rewrite Hlo in Hv. rewrite Hf' in HT, Hp.
          destruct (vmod strhash q g (m_type m) (keep_or_default (lookup_label cur labels) mv nm (m_type m))) as [[a' y]|] eqn:Ey; [|discriminate Hv].
          injection Hv as <- <-. cbn [fst snd]. unfold member_at. rewrite Hf'. cbn [bind]. rewrite E1. cbn [bind].
          eapply access_union; try eassumption. apply (IH q (m_type m) T); assumption.
      + destruct Hp as [<- Hp]. destruct (rget t) as [| | | | | | |sn s ms|un s ms labels dv iv d|]; try contradiction Hp.
        * destruct (find_member nm ms) as [m|] eqn:Ef; [|discriminate HT].
          destruct (member_index nm ms) as [k|] eqn:Ek; [|discriminate Hv].
          pose proof (member_index_nth _ _ _ _ Ek Ef) as Hm. unfold member_at. rewrite Ef. cbn [bind].
          exact (access_struct rel sn s ms _ _ k m Hgr Hm (IH q (m_type m) T (good_struct _ _ _ _ Hgr (nth_error_In _ _ Hm)) Hp HT Hf) b off v a v' Hl Hr Hv).
        * destruct ms as [|[[dn o] disc] cs]; [discriminate Hv|].
          destruct (good_union_inv _ _ _ _ _ _ _ Hgr) as (dn' & disc' & cs' & Em & _). inversion Em; subst dn' disc' cs' o.
          destruct v as [| | |vd [w|]]; try discriminate Hv.
          destruct (find_member nm cs) as [m|] eqn:Ef; [|discriminate Hv].
          destruct (first_label nm labels) as [l|] eqn:Efl; [|discriminate Hv].
          destruct (u_member _ _ _ _ _ _ _ _ _ Hgr _ _ Ef) as (Hf' & Hin & Hn & Ho & Hrg & Hgm).
          destruct (select_case_spec _ _ _ _ _ _ _ _ _ Hgr nm m l b off Ef Efl Hl)
            as (b1 & vd' & mv' & cur & E0 & E1 & Ru & Hlo & A1 & L1 & Lm & G1 & Ld & Rd & Rm & _).
          rewrite Hr in Ru. injection Ru as <- <-. rewrite Hlo in Hv. rewrite Hf' in HT, Hp.
          destruct (lookup_label cur labels) as [x|] eqn:Ex; [|discriminate Hv].
          destruct (String.eqb x nm) eqn:Exn; [|discriminate Hv]. apply String.eqb_eq in Exn. subst x.
          destruct (vmod strhash q g (m_type m) w) as [[a' y]|] eqn:Ey; [|discriminate Hv].
          injection Hv as <- <-. cbn [fst snd]. unfold member_at. rewrite Hf'. cbn [bind].
          destruct (union_state _ _ _ _ _ _ _ _ _ Hgr b off Hl) as (_ & _ & bs & l0 & Rd0 & Gl0 & Lo0 & H0).
          assert (vd = VBytes bs) as ->.
          { destruct (lookup_label l0 labels); [destruct H0 as (? & ? & _ & _ & _ & H0)|]; congruence. }
          rewrite Hlo in Lo0. injection Lo0 as <-.
          assert (Cc : current_case (TUnion un s ((dn, 0, disc) :: cs) labels dv iv d) b off = Ok nm).
          { cbn [current_case]. rewrite Gl0. cbn [bind]. rewrite Ex. unfold member_at. rewrite Hf'. cbn [bind]. rewrite Hn. reflexivity. }
          assert (Es : select_for_read (TUnion un s ((dn, 0, disc) :: cs) labels dv iv d) nm b off = Ok b1).
          { unfold select_for_read. unfold select_for_write in E1. destruct (String.eqb nm UNION_DISCRIMINATOR); [exact E1|].
            rewrite Cc. cbn [bind]. rewrite String.eqb_refl. exact E1. }
          rewrite Es. cbn [bind].
          eapply access_union with (w := w); try eassumption.
          { rewrite Rm. cbn [keep_or_default]. rewrite String.eqb_refl. reflexivity. }
          apply (IH q (m_type m) T); assumption.
      + destruct Hp as [<- Hp]. destruct (rget t) as [| | |an c n|c bd| |x y|sn s ms| |]; try contradiction Hp.
        * exact (access_arr rel an c n i _ _ Hgr (IH q c T (good_arr _ _ _ Hgr) Hp HT Hf) b off v a v' Hl Hr Hv).
        * exact (access_seq rel c bd i _ _ Hgr (IH q c T (good_seq _ _ Hgr) Hp HT Hf) b off v a v' Hl Hr Hv).
        * pose proof (good_pair _ _ Hgr) as [Hgx Hgy]. destruct (i =? 0) eqn:E0.
          { exact (access_pair rel x y _ _ true Hgr (IH q x T Hgx Hp HT Hf) b off v a v' Hl Hr Hv). }
          destruct (i =? 1) eqn:E1; [|discriminate Hv].
          exact (access_pair rel x y _ _ false Hgr (IH q y T Hgy Hp HT Hf) b off v a v' Hl Hr Hv).
        * destruct (nth_error ms (N.to_nat i)) as [m|] eqn:Em; [|discriminate HT].
          exact (access_struct rel sn s ms _ _ _ m Hgr Em (IH q (m_type m) T (good_struct _ _ _ _ Hgr (nth_error_In _ _ Em)) Hp HT Hf) b off v a v' Hl Hr Hv).
      + destruct (rget t) as [| | | | |k w bd| | | |]; try contradiction Hp. destruct Hp as (Hk & Hok & Hp).
        destruct (map_state k w bd b off v Hl Hr) as (cap & size & m & l & -> & Ho & Hsz & Hb & Hfit & Hm & El & Hlen).
        destruct (touch_key strhash k w bd kv l) as [l'|] eqn:Et; [|discriminate Hv].
        destruct (access_spec fc strhash k w bd Hgr Hok cap size m l kb ko kv l' Hsz Hb Hfit Hm El Hlen Hk Et)
          as (cap' & size' & m' & pp & E & Ep & Hsz' & Hb' & Hfit' & Hm' & El').
        pose proof (map_hyps k w bd Hgr Hok) as (_ & Gw & _ & _ & _ & _ & _ & _ & _ & Hbs & _).
        pose proof Ho as [Ho1 Ho2]. rewrite Ho1, Ho2, E. cbn [bind]. rewrite Hbs.
        destruct (at_key_spec rel k w bd _ _ size' cap' m' l' kv pp a v' Hgr (IH q w T Gw Hp HT Hf) Hsz' Hm' El' Ep Hv) as (z & m2 & l2 & E2 & Rz & -> & L2 & C2).
        rewrite E2. cbn [bind fst snd].
        destruct (map_back k w bd b off _ _ _ cap' size' m2 l2 Ho Hsz' Hb' Hfit' L2 C2) as (A & L & R).
        do 2 eexists. split; [reflexivity|]. auto.
      + destruct (rget t) as [| | | | |k w bd| | | |]; try contradiction Hp. destruct Hp as ((Lk & Rk & Sk) & Hok & Hp).
        destruct (map_state k w bd b off v Hl Hr) as (cap & size & m & l & -> & Ho & Hsz & Hb & Hfit & Hm & El & Hlen).
        destruct (ordered strhash k l) eqn:Hord; [|discriminate Hv].
        pose proof (map_hyps k w bd Hgr Hok) as (Gk & Gw & Ck & Cw & Mk & Mw & Hh & H32 & Hpos & Hbs & _).
        pose proof Ho as [Ho1 Ho2]. rewrite Ho1, Ho2, Hbs.
        destruct (key_pos kv l) as [i|] eqn:Ek; [|unfold at_key in Hv; rewrite Ek in Hv; discriminate Hv].
        destruct (key_pos_some _ _ _ Ek) as (e & He & Hke & _).
        destruct (entry_nth k w size m l i e El He) as (x & y & -> & Hi & _). cbn [entry_key] in Hke. subst x.
        assert (Fp : find_place strhash k (msize (TPair k w)) size m kb ko = Ok (N.of_nat i, true)).
        { eapply (find_present strhash k w) with (cap := cap) (l := l) (kv := kv); try eassumption. exists y. exact He. }
        rewrite Fp. cbn [bind snd fst].
        assert (Ek' : key_pos kv l = Some (N.to_nat (N.of_nat i))) by (rewrite Nat2N.id; exact Ek).
        destruct (at_key_spec rel k w bd _ _ size cap m l kv (N.of_nat i) a v' Hgr (IH q w T Gw Hp HT Hf) Hsz Hm El Ek' Hv) as (z & m2 & l2 & E2 & Rz & -> & L2 & C2).
        rewrite E2. cbn [bind fst snd].
        destruct (map_back k w bd b off _ _ _ cap size m2 l2 Ho Hsz Hb Hfit L2 C2) as (A & L & R).
        do 2 eexists. split; [reflexivity|]. auto.
  Qed.
  Theorem path_spec {O} (p : list step) (f : ty -> block -> N -> res (O * block)) g q t T : good t -> path_rel p q t ->
    path_ty q t = Some T -> does T f g ->
    forall b off v a v', live t b off -> read t b off = Ok v -> vmod strhash q g t v = Some (a, v') ->
    upd_ok a t v' b off (on_path fc strhash p f t b off).
  Proof.
    intros Hg Hp HT Hf b off v a v' L R Hv. apply updr_eq.
    apply (path_spec_rel eq p f g q t T Hg Hp HT) with (v := v); try assumption.
    intros b0 off0 v0 a0 v0' L0 R0 Hv0. apply updr_eq. eapply Hf; eassumption.
  Qed.
End Path.
