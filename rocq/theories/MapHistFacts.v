(** Histories of calls on a map behave as on finite maps. *)
From Coq Require Import Permutation.
From Verif Require Import Base Types TypeBuild TypeSpec Compat Mem MemSpec TyInd Layout MemEqns MemFacts ConstructFacts CopyFacts CompareFacts CompatFacts CompatFacts2
  EnumFacts UnionFacts SeqFacts CollectFacts Hash HashSpec HashFacts MapOps MapSpec MapValue MapFacts Ops OpsSpec PathFacts Realize Prog ProgSpec ProgFacts ValueSpec ValueFacts
  DataSpec DataFacts HistSpec HistFacts MapHistSpec MapOrder.

(** ** Association lists *)
Lemma f_get_in kv a w : f_get kv a = Some w -> In (kv, w) a.
Proof.
  induction a as [|[x y] a IH]; cbn [f_get In]; [discriminate|]. destruct (value_eqb x kv) eqn:E; [|auto].
  apply value_eqb_eq in E. intros [= ->]. subst x. left. reflexivity.
Qed.
Lemma f_get_none kv a : f_get kv a = None <-> ~ In kv (map fst a).
Proof.
  induction a as [|[x y] a IH]; cbn [f_get map fst In]; [tauto|]. destruct (value_eqb x kv) eqn:E.
  - apply value_eqb_eq in E. split; [discriminate|]. intros H. exfalso. apply H. left. exact E.
  - rewrite IH. split; [|tauto]. intros H [Hx|Hx]; [|tauto]. subst x. rewrite value_eqb_refl in E. discriminate E.
Qed.
Lemma f_put_absent kv w a : f_get kv a = None -> f_put kv w a = a ++ [(kv, w)].
Proof. induction a as [|[x y] a IH]; cbn [f_get f_put]; [reflexivity|]. destruct (value_eqb x kv); [discriminate|]. intros H. rewrite IH by exact H. reflexivity. Qed.
Lemma f_put_present kv w a u : f_get kv a = Some u -> exists a1 a2, a = a1 ++ (kv, u) :: a2 /\ f_put kv w a = a1 ++ (kv, w) :: a2.
Proof.
  induction a as [|[x y] a IH]; cbn [f_get f_put]; [discriminate|]. destruct (value_eqb x kv) eqn:E.
  - intros [= ->]. apply value_eqb_eq in E. subst x. exists [], a. auto.
  - intros H. destruct (IH H) as (a1 & a2 & -> & ->). exists ((x, y) :: a1), a2. auto.
Qed.
Lemma f_put_keys kv w a : forall x, In x (map fst (f_put kv w a)) -> x = kv \/ In x (map fst a).
Proof.
  induction a as [|[z y] a IH]; cbn [f_put map fst In]; [intuition congruence|]. destruct (value_eqb z kv) eqn:E; cbn [map fst In]; [tauto|].
  intros x [->|H]; [tauto|]. destruct (IH x H); tauto.
Qed.
Lemma f_put_length kv w a : List.length (f_put kv w a) = match f_get kv a with Some _ => List.length a | None => S (List.length a) end.
Proof. induction a as [|[x y] a IH]; cbn [f_get f_put List.length]; [reflexivity|]. destruct (value_eqb x kv); [reflexivity|]. cbn [List.length]. rewrite IH. destruct (f_get kv a); reflexivity. Qed.
Lemma f_put_nodup kv w a : NoDup (map fst a) -> NoDup (map fst (f_put kv w a)).
Proof.
  intros H. destruct (f_get kv a) as [u|] eqn:E.
  - destruct (f_put_present kv w a u E) as (a1 & a2 & -> & ->). rewrite map_app in *. exact H.
  - rewrite (f_put_absent _ _ _ E), map_app. cbn [map fst]. apply f_get_none in E. eapply Permutation_NoDup; [apply Permutation_cons_append|]. constructor; assumption.
Qed.
Lemma f_put_same kv a u : f_get kv a = Some u -> f_put kv u a = a.
Proof. intros E. destruct (f_put_present kv u a u E) as (a1 & a2 & E1 & E2). congruence. Qed.

(** ** Entries *)
Lemma contains_length l a : contains l a -> List.length l = List.length a.
Proof. intros [_ H]. rewrite (Permutation_length H). unfold entries_of. apply map_length. Qed.
Lemma contains_in l a e : contains l a -> In e l -> exists x y, e = entry x y /\ In (x, y) a.
Proof.
  intros [_ H] He. apply (Permutation_in _ H), in_map_iff in He as ([x y] & <- & Hin). exists x, y. auto.
Qed.
Lemma contains_entry l a x y : contains l a -> In (x, y) a -> In (entry x y) l.
Proof. intros [_ H] Hin. apply (Permutation_in _ (Permutation_sym H)), in_map_iff. exists (x, y). auto. Qed.
Lemma contains_get l a kv w : contains l a -> f_get kv a = Some w -> exists i, key_pos kv l = Some i /\ nth_error l i = Some (entry kv w).
Proof.
  intros Hc H. pose proof (contains_entry _ _ _ _ Hc (f_get_in _ _ _ H)) as Hin. destruct (key_pos kv l) as [i|] eqn:E.
  - exists i. split; [reflexivity|]. destruct (key_pos_some _ _ _ E) as (e & He & Hk & _). destruct (contains_in _ _ e Hc (nth_error_In _ _ He)) as (x & y & -> & Hy).
    cbn in Hk. subst x. rewrite He. f_equal. f_equal. pose proof (f_get_in _ _ _ H) as Hw. destruct Hc as [Hnd _]. clear - Hnd Hw Hy.
    induction a as [|[p q] a IH]; [destruct Hw|]. inversion Hnd as [|? ? Hn Hnd']; subst. destruct Hw as [[= -> ->]|Hw], Hy as [[= ->]|Hy]; try reflexivity.
    + exfalso. apply Hn. apply in_map_iff. exists (kv, y). auto.
    + subst. exfalso. apply Hn. apply in_map_iff. exists (kv, w). auto.
    + apply IH; assumption.
  - exfalso. apply key_pos_none with (e := entry kv w) in E; [|exact Hin]. apply E. reflexivity.
Qed.
Lemma contains_absent l a kv : contains l a -> f_get kv a = None -> key_pos kv l = None.
Proof.
  intros Hc H. apply key_pos_none. intros e He Hk. destruct (contains_in _ _ _ Hc He) as (x & y & -> & Hin). cbn in Hk. subst x.
  apply f_get_none in H. apply H. apply in_map_iff. exists (kv, y). auto.
Qed.
Lemma replace_split {A} (l : list A) i x y : nth_error l i = Some x -> exists l1 l2, l = l1 ++ x :: l2 /\ replace_nth i y l = l1 ++ y :: l2.
Proof.
  revert i; induction l as [|z l IH]; intros [|i] H; try discriminate H; cbn in H.
  - injection H as ->. exists [], l. auto.
  - destruct (IH i H) as (l1 & l2 & -> & E). exists (z :: l1), l2. cbn. rewrite E. auto.
Qed.
Lemma replace_self {A} (l : list A) i x : nth_error l i = Some x -> replace_nth i x l = l.
Proof. intros H. destruct (replace_split l i x x H) as (l1 & l2 & E1 & E2). congruence. Qed.
Lemma contains_replace l a i kv u w : contains l a -> nth_error l i = Some (entry kv u) -> f_get kv a = Some u -> contains (replace_nth i (entry kv w) l) (f_put kv w a).
Proof.
  intros [Hnd Hp] Hi Hg. split; [apply f_put_nodup, Hnd|].
  destruct (replace_split l i _ (entry kv w) Hi) as (l1 & l2 & El & ->). destruct (f_put_present kv w a u Hg) as (a1 & a2 & Ea & ->). subst l a.
  unfold entries_of in *. rewrite map_app in *. cbn [map fst snd] in *. apply Permutation_app_inv in Hp.
  etransitivity; [apply Permutation_sym, Permutation_middle|]. etransitivity; [|apply Permutation_middle]. constructor. exact Hp.
Qed.
Lemma replace_keys l i kv u w : nth_error l i = Some (entry kv u) -> map entry_key (replace_nth i (entry kv w) l) = map entry_key l.
Proof. intros Hi. destruct (replace_split l i _ (entry kv w) Hi) as (l1 & l2 & -> & ->). rewrite !map_app. reflexivity. Qed.
Lemma replace_insert {A} p (x y : A) l : (p <= List.length l)%nat -> replace_nth p x (insert_at p y l) = insert_at p x l.
Proof. unfold insert_at. revert l; induction p as [|p IH]; intros [|z l] H; cbn in *; try reflexivity; try lia. f_equal. apply IH. lia. Qed.
Lemma contains_add strhash k l a kv w : contains l a -> f_get kv a = None -> contains (add_entry strhash k kv w l) (f_put kv w a).
Proof.
  intros [Hnd Hp] Hg. split; [apply f_put_nodup, Hnd|]. rewrite (f_put_absent _ _ _ Hg). unfold entries_of. rewrite map_app. cbn [map fst snd].
  etransitivity; [|apply Permutation_cons_append]. unfold add_entry, insert_at. etransitivity; [apply Permutation_sym, Permutation_middle|]. rewrite firstn_skipn. constructor. exact Hp.
Qed.
Lemma no_coll strhash k l a kv ks : contains l a -> f_get kv a = None -> no_collision strhash k ks -> In kv ks -> (forall x, In x (map fst a) -> In x ks) -> collides strhash k kv l = false.
Proof.
  intros Hc Hg Hn Hk Ha. apply collides_not. intros e He E. destruct (contains_in _ _ _ Hc He) as (x & y & -> & Hin).
  assert (Hx : In x (map fst a)) by (apply in_map_iff; exists (x, y); auto). unfold khash in E. cbn [entry_key entry] in E.
  apply f_get_none in Hg. apply Hg. rewrite <- (Hn x kv (Ha x Hx) Hk E). exact Hx.
Qed.

Lemma copy_ok_rget t : copy_ok t <-> copy_ok (rget t).
Proof. induction t using ty_ind'; try reflexivity. exact IHt. Qed.
Lemma wf_value_rget t v : wf_value t v <-> wf_value (rget t) v.
Proof. induction t using ty_ind'; try reflexivity. exact IHt. Qed.

Section Calls.
  Variable fc : prim -> prim -> list N -> list N.
  Variable strhash : skind -> list N -> N.
  Variables k v : ty.
  Variable bd : N.
  Hypothesis Hok : entry_ok k v.

  (** The map holds the finite map [a]. *)
  Definition shows (d : data) (a : fmap) : Prop :=
    exists l, holds d (VNode l) /\ d_type d = TMap k v bd /\ ordered strhash k l = true /\ contains l a.

  Lemma key_is_at key kv : key_is k key kv -> key_at k (d_mem key) 0 kv.
  Proof. intros ((_ & _ & _ & L & R) & Ht & Hs). rewrite Ht, <- live_rget in L. rewrite Ht, <- read_rget in R. split; [exact L|]. split; [exact R|exact Hs]. Qed.
  Lemma at_key_at {A} kv (g : value -> option (A * value)) l i w o w' : key_pos kv l = Some i -> nth_error l i = Some (entry kv w) -> g w = Some (o, w') ->
    at_key kv g l = Some (o, VNode (replace_nth i (entry kv w') l)).
  Proof. intros H1 H2 H3. unfold at_key. rewrite H1. cbn [at_index]. rewrite H2. cbn [at_index entry nth_error]. rewrite H3. reflexivity. Qed.

  Lemma put_call {A} d a key kv (f : ty -> block -> N -> res (A * block)) g o w' ks :
    shows d a -> key_is k key kv -> does (rget v) f g ->
    no_collision strhash k ks -> In kv ks -> (forall x, In x (map fst a) -> In x ks) ->
    (f_get kv a = None -> room bd a = true /\ (bd = 0 -> allocatable (TPair k v) (2 * (N.of_nat (List.length a) + 1)) = true)) ->
    g (match f_get kv a with Some w => w | None => default_value v end) = Some (o, w') ->
    exists d', run_on fc strhash d [SKey (d_mem key) 0] f = Ok (o, d') /\ shows d' (f_put kv w' a).
  Proof.
    intros (l & Hh & Ht & Ho & Hc) Hk Hd Hn Hin Hks Hroom Hg.
    assert (Hv : exists l', vmod strhash [VKey kv] g (d_type d) (VNode l) = Some (o, VNode l') /\ ordered strhash k l' = true /\ contains l' (f_put kv w' a)).
    { rewrite Ht. cbn [vmod rget]. unfold touch_key. rewrite Ho. destruct (f_get kv a) as [w|] eqn:Eg.
      - destruct (contains_get _ _ _ _ Hc Eg) as (i & Hi & He). rewrite Hi. eexists. split; [eapply at_key_at; eassumption|]. split.
        + rewrite <- Ho. apply ordered_keys. eapply replace_keys, He.
        + eapply contains_replace; eassumption.
      - rewrite (contains_absent _ _ _ Hc Eg). pose proof (no_coll strhash k _ _ _ _ Hc Eg Hn Hin Hks) as Hcol. rewrite Hcol. cbn [negb andb].
        destruct (Hroom eq_refl) as [Hr Ha]. cbv zeta. rewrite (contains_length _ _ Hc).
        assert (Hac : accepts (TPair k v) bd (N.of_nat (List.length a) + 1) (2 * (N.of_nat (List.length a) + 1)) = true).
        { unfold accepts. unfold room in Hr. destruct (bd =? 0) eqn:E0; [apply Ha, N.eqb_eq, E0|]. cbn in Hr. apply N.ltb_lt in Hr. apply N.leb_le. lia. }
        rewrite Hac. set (p := lower_bound strhash k (vhash strhash k kv) l). assert (Hp : (p <= List.length l)%nat) by apply lower_bound_le.
        exists (add_entry strhash k kv w' l). split.
        + rewrite (at_key_at kv g _ p (default_value v) o w'); [|apply add_entry_pos; assumption|apply insert_at_nth, Hp|exact Hg]. do 3 f_equal. apply replace_insert, Hp.
        + split; [apply add_entry_ordered; assumption|]. apply contains_add; assumption. }
    destruct Hv as (l' & Hv & Ho' & Hc'). pose proof (key_is_at _ _ Hk) as Hka.
    destruct (run_on_holds fc strhash d (VNode l) [SKey (d_mem key) 0] [VKey kv] (rget v) f g o (VNode l') Hh) as (d' & E & Ht' & Hh').
    - rewrite Ht. cbn. auto.
    - rewrite Ht. reflexivity.
    - exact Hd.
    - exact Hv.
    - exists d'. split; [exact E|]. exists l'. split; [exact Hh'|]. split; [congruence|]. auto.
  Qed.
  Lemma at_call d a key kv f g w y : shows d a -> key_is k key kv -> does (rget v) (reading f) (asking g) -> f_get kv a = Some w -> g w = Some y ->
    exists d', run_on fc strhash d [SAt (d_mem key) 0] (reading f) = Ok (y, d') /\ shows d' a.
  Proof.
    intros (l & Hh & Ht & Ho & Hc) Hk Hd Eg Hg. pose proof (key_is_at _ _ Hk) as Hka. destruct (contains_get _ _ _ _ Hc Eg) as (i & Hi & He).
    destruct (run_on_holds fc strhash d (VNode l) [SAt (d_mem key) 0] [VAt kv] (rget v) (reading f) (asking g) y (VNode l) Hh) as (d' & E & Ht' & Hh').
    - rewrite Ht. cbn. auto.
    - rewrite Ht. reflexivity.
    - exact Hd.
    - rewrite Ht. cbn [vmod rget]. rewrite Ho. rewrite (at_key_at kv _ l i w y w Hi He).
      + rewrite (replace_self l i _ He). reflexivity.
      + unfold asking. rewrite Hg. reflexivity.
    - exists d'. split; [exact E|]. exists l. split; [exact Hh'|]. split; [congruence|]. auto.
  Qed.
  Lemma query_call d a f g y : shows d a -> does (TMap k v bd) (reading f) (asking g) -> (forall l, ordered strhash k l = true -> contains l a -> g (VNode l) = Some y) ->
    exists d', run_on fc strhash d [] (reading f) = Ok (y, d') /\ shows d' a.
  Proof.
    intros (l & Hh & Ht & Ho & Hc) Hd Hg. destruct (run_on_holds fc strhash d (VNode l) [] [] (d_type d) (reading f) (asking g) y (VNode l) Hh) as (d' & E & Ht' & Hh').
    - exact I.
    - cbn. f_equal. apply Hh.
    - rewrite Ht. exact Hd.
    - cbn [vmod]. unfold asking. rewrite (Hg l Ho Hc). reflexivity.
    - exists d'. split; [exact E|]. exists l. split; [exact Hh'|]. split; [congruence|]. auto.
  Qed.

  (** The state of the instance. *)
  Lemma shows_state d a : shows d a -> good (TMap k v bd) /\ rget (d_type d) = d_type d /\ exists cap size m l,
    obj_at (d_mem d) 0 SZ_MAP (CMap k v cap size m) /\ size <= cap /\ (bd = 0 /\ cap <= 2 * size \/ cap <= bd) /\ fits (TPair k v) cap /\ live_slots (TPair k v) cap m /\
    collect (N.to_nat size) 0 (fun i => read (TPair k v) m (i * msize (TPair k v))) = Ok l /\ N.of_nat (List.length a) = size /\ ordered strhash k l = true /\ contains l a /\ d_type d = TMap k v bd.
  Proof.
    intros (l & Hh & Ht & Ho & Hc). pose proof (holds_good _ _ Hh) as Hg. destruct Hh as (_ & _ & Hr & L & R). rewrite Ht in Hg, L, R.
    destruct (map_state k v bd _ _ _ L R) as (cap & size & m & l' & [= <-] & H1 & H2 & H3 & H4 & H5 & H6 & H7). split; [exact Hg|]. split; [exact Hr|].
    exists cap, size, m, l. rewrite <- (contains_length _ _ Hc). repeat (split; [assumption|]). exact Ht.
  Qed.
  Lemma find_key d a key kv ks cap size m l : good (TMap k v bd) -> size <= cap -> live_slots (TPair k v) cap m ->
    collect (N.to_nat size) 0 (fun i => read (TPair k v) m (i * msize (TPair k v))) = Ok l -> ordered strhash k l = true -> contains l a -> key_at k key 0 kv ->
    d_type d = TMap k v bd -> no_collision strhash k ks -> In kv ks -> (forall x, In x (map fst a) -> In x ks) ->
    exists p found, find_place strhash k (map_bs k v) size m key 0 = Ok (p, found) /\
      match f_get kv a with
      | None => found = false
      | Some w => found = true /\ p < size /\ nth_error l (N.to_nat p) = Some (entry kv w)
      end.
  Proof.
    intros Hg Hs Hm El Ho Hc (Lk & Rk & _) Ht Hn Hin Hks. pose proof (map_hyps k v bd Hg Hok) as (Gk & Gw & Ck & Cw & Mk & Mw & Hh & H32 & Hpos & Hbs & _).
    rewrite Hbs. destruct (f_get kv a) as [w|] eqn:Eg.
    - destruct (contains_get _ _ _ _ Hc Eg) as (i & Hi & He). exists (N.of_nat i), true. split; [|split; [reflexivity|]].
      + eapply (find_present strhash k v) with (cap := cap) (l := l) (kv := kv); try eassumption. exists w. exact He.
      + destruct (collect_nth _ _ _ _ El) as [Hlen _]. rewrite Nat2N.id. split; [|exact He]. assert (i < List.length l)%nat by (apply nth_error_Some; congruence). lia.
    - assert (Hcol := no_coll strhash k _ _ _ _ Hc Eg Hn Hin Hks).
      destruct (find_absent strhash k v) with (cap := cap) (size := size) (m := m) (l := l) (src := key) (soff := 0) (kv := kv) as (p & E); try assumption.
      exists p, false. auto.
  Qed.
  Lemma put_refused {A} d a key kv (f : ty -> block -> N -> res (A * block)) ks : shows d a -> key_is k key kv ->
    no_collision strhash k ks -> In kv ks -> (forall x, In x (map fst a) -> In x ks) -> f_get kv a = None -> room bd a = false ->
    run_on fc strhash d [SKey (d_mem key) 0] f = Fail Assert.
  Proof.
    intros Hs Hk Hn Hin Hks Eg Hr. destruct (shows_state _ _ Hs) as (Hg & Hrg & cap & size & m & l & [H1 H2] & Hsz & Hb & Hfit & Hm & El & Hlen & Ho & Hc & Ht).
    unfold run_on. cbn [on_path]. rewrite Hrg, Ht, H1, H2.
    destruct (find_key d a (d_mem key) kv ks cap size m l) as (p & found & E & Hf); try assumption; [apply key_is_at, Hk|]. rewrite Eg in Hf. subst found.
    unfold map_access. rewrite E. cbn [bind snd]. unfold insert_instance. unfold room in Hr. rewrite Hlen in Hr. rewrite orb_comm, Hr. reflexivity.
  Qed.
  Lemma at_refused {A} d a key kv (f : ty -> block -> N -> res (A * block)) ks : shows d a -> key_is k key kv ->
    no_collision strhash k ks -> In kv ks -> (forall x, In x (map fst a) -> In x ks) -> (f_get kv a = None \/ forall b off, f (rget v) b off = Fail Assert) ->
    run_on fc strhash d [SAt (d_mem key) 0] f = Fail Assert.
  Proof.
    intros Hs Hk Hn Hin Hks Eg. destruct (shows_state _ _ Hs) as (Hg & Hrg & cap & size & m & l & [H1 H2] & Hsz & Hb & Hfit & Hm & El & Hlen & Ho & Hc & Ht).
    unfold run_on. cbn [on_path]. rewrite Hrg, Ht, H1, H2.
    destruct (find_key d a (d_mem key) kv ks cap size m l) as (p & found & E & Hf); try assumption; [apply key_is_at, Hk|]. rewrite E. cbn [bind snd].
    destruct Eg as [Eg|Ef]; [rewrite Eg in Hf; subst found; reflexivity|]. destruct found; [|reflexivity]. rewrite Ef. reflexivity.
  Qed.
  Lemma insert_refused d a e kv w u ks : shows d a -> holds e (VNode [kv; w]) -> d_type e = TPair k v -> vselected k kv ->
    no_collision strhash k ks -> In kv ks -> (forall x, In x (map fst a) -> In x ks) -> f_get kv a = Some u -> room bd a = true ->
    (bd = 0 -> allocatable (TPair k v) (2 * (N.of_nat (List.length a) + 1)) = true) ->
    run_on fc strhash d [] (insert_pair fc strhash (d_type e) (d_mem e) 0) = Fail Assert /\
    exists d', refused_insert fc strhash d = Ok d' /\ shows d' a.
  Proof.
    intros Hs He Hte Hsel Hn Hin Hks Eg Hr Ha. destruct (shows_state _ _ Hs) as (Hg & Hrg & cap & size & m & l & Hobj & Hsz & Hb & Hfit & Hm & El & Hlen & Ho & Hc & Ht).
    pose proof (map_hyps k v bd Hg Hok) as (Gk & Gw & Ck & Cw & Mk & Mw & Hh & H32 & Hpos & Hbs & GT & Hbd & Hbd1). pose proof Hobj as [H1 H2].
    assert (Hka : key_at k (d_mem e) 0 kv).
    { destruct He as (_ & _ & _ & L & R). rewrite Hte in L, R. cbn [live] in L. destruct L as [Lk _]. cbn [read] in R. apply bind_ok in R as (x & Rx & R). apply bind_ok in R as (y & Ry & R). injection R as -> ->. split; [exact Lk|]. auto. }
    assert (Hre : exists cap' m', (if (cap =? 0) || (size =? cap)
             then map_realloc fc strhash k v cap size m (if 0 <? cap then wrap32 (cap * 2) else 1) bd
             else Ok (cap, m)) = Ok (cap', m') /\ ((cap =? 0) || (size =? cap) = false -> cap' = cap /\ m' = m) /\
             size <= cap' /\ (bd = 0 /\ cap' <= 2 * size \/ cap' <= bd) /\ fits (TPair k v) cap' /\ live_slots (TPair k v) cap' m' /\
             collect (N.to_nat size) 0 (fun i => read (TPair k v) m' (i * msize (TPair k v))) = Ok l).
    { destruct ((cap =? 0) || (size =? cap)) eqn:Ef.
      - set (desired := if 0 <? cap then wrap32 (cap * 2) else 1).
        assert (Hsc : size = cap) by (apply orb_true_iff in Ef as [Ef|Ef]; apply N.eqb_eq in Ef; lia).
        assert (H0 : 0 < size).
        { rewrite <- Hlen. destruct a; [discriminate Eg|cbn [List.length]; lia]. }
        assert (Hall : bd = 0 -> fits (TPair k v) (2 * (size + 1))).
        { intros Hbz. specialize (Ha Hbz). rewrite Hlen in Ha. apply andb_true_iff in Ha as [A1 A2]. apply N.ltb_lt in A1. apply N.leb_le in A2. split; assumption. }
        assert (Hd : desired = cap * 2).
        { unfold desired. replace (0 <? cap) with true by (symmetry; apply N.ltb_lt; lia). apply wrap32_small. destruct (N.eq_dec bd 0) as [Hz|Hz]; [destruct (Hall Hz); lia|].
          unfold room in Hr. apply N.eqb_neq in Hz. rewrite Hz in Hr. cbn in Hr. apply N.ltb_lt in Hr. lia. }
        set (nc := if bd =? 0 then desired else N.min desired bd).
        assert (Hfn : fits (TPair k v) nc).
        { unfold nc. destruct (bd =? 0) eqn:E0; [apply N.eqb_eq in E0; destruct (Hall E0) as [A1 A2]; split; nia|]. split; [nia|lia]. }
        assert (Hsn : size <= nc). { unfold nc. unfold room in Hr. destruct (bd =? 0); [lia|]. cbn in Hr. apply N.ltb_lt in Hr. lia. }
        destruct (map_realloc_spec fc strhash k v Gk Gw Ck Cw Mk Mw Hh H32 Hpos cap size m desired bd l Hfit) as (m' & E & L & R); fold nc; try assumption; try lia.
        fold nc in E. exists nc, m'. split; [exact E|]. split; [discriminate|]. split; [exact Hsn|]. split; [unfold nc; destruct (bd =? 0) eqn:E0; [left; apply N.eqb_eq in E0; split; [exact E0|lia]|right; lia]|].
        split; [exact Hfn|]. split; [exact L|]. rewrite <- El. apply collect_ext. intros j _ Hj. apply R. lia.
      - exists cap, m. split; [reflexivity|]. split; [auto|]. repeat (split; [assumption|]). exact El. }
    destruct Hre as (cap' & m' & E & Hsame & Hsz' & Hb' & Hf' & Hm' & El'). split.
    - rewrite run_nil by exact Hrg. unfold insert_pair. rewrite Ht, Hte. cbn [rget]. rewrite (compat_refl (TPair k v)). cbn [bind]. rewrite N.eqb_refl, H1, H2.
      unfold insert_instance. unfold room in Hr. rewrite Hlen in Hr. rewrite orb_comm, Hr. unfold map_insert. cbv zeta. rewrite E. cbn [bind].
      destruct (find_key d a (d_mem e) kv ks cap' size m' l) as (p & found & Ef & Hf); try assumption. rewrite Eg in Hf. destruct Hf as (-> & Hp & Hnth). rewrite Ef. cbn [bind fst].
      replace ((size =? 0) || (p =? size)) with false by (symmetry; apply orb_false_iff; split; apply N.eqb_neq; lia).
      destruct Hka as (Lk & Rk & _). rewrite (hash_spec strhash k Gk Hh _ _ _ Lk Rk), Hbs. rewrite (buffer_hash strhash k v Gk Hh H32 Hpos cap' size m' l Hsz' Hm' El' p Hp). cbn [bind].
      unfold hs_of. rewrite (nth_error_nth _ _ (VNode []) Hnth). unfold khash. cbn [entry_key entry]. rewrite N.eqb_refl. reflexivity.
    - unfold refused_insert. rewrite Ht, H1. destruct (map_back k v bd (d_mem d) 0 _ _ _ cap' size m' l Hobj Hsz' Hb' Hf' Hm' El') as (_ & L & R).
      assert (Hsh : shows (mkData (TMap k v bd) (set_cell (d_mem d) 0 (CMap k v cap' size m'))) a).
      { exists l. split; [|split; [reflexivity|]; split; assumption]. unfold holds. cbn [d_type d_mem]. destruct Hg as [G1 G2]. split; [exact G1|]. split; [exact G2|]. split; [reflexivity|]. split; assumption. }
      destruct ((cap =? 0) || (size =? cap)).
      + rewrite E. cbn [bind fst snd]. eauto.
      + exists d. split; [reflexivity|]. exact Hs.
  Qed.

  Lemma bad_read T x w : good T -> rget T = T -> wf_value T w -> read_value T x w = None -> type_check T x = false.
  Proof.
    intros Hg Hr Hw H. destruct T as [p|nm sz vals|kk b| | | | | | |]; try reflexivity.
    - destruct w as [bs| | |]; try contradiction Hw. destruct x as [q|]; [|reflexivity]. cbn [read_value type_check] in *. destruct (prim_eqb p q); [discriminate H|reflexivity].
    - destruct w as [bs| | |]; try contradiction Hw. destruct x as [q|]; cbn [read_value type_check sizeof] in *; [destruct (sz =? prim_size q); [discriminate H|reflexivity]|].
      destruct Hg as [(Hsz & _) _]. destruct Hsz as [->|[->| ->]]; reflexivity.
    - destruct w as [|s| |]; try contradiction Hw. destruct x as [|kk']; [reflexivity|]. cbn [read_value type_check] in *. destruct (skind_eqb kk kk'); [discriminate H|reflexivity].
  Qed.
  Lemma touch_does : does (rget v) (fun _ b _ => Ok (ONone, b)) (fun w => Some (ONone, w)).
  Proof. intros b off w a w' L R [= <- <-]. exists b. split; [reflexivity|]. split; [intros j _; reflexivity|auto]. Qed.

  Lemma map_call_sim ks d a o c : shows d a -> map_means k v o c -> no_collision strhash k ks ->
    (forall x, In x (map fst a) \/ In x (call_key c) -> In x ks) ->
    (bd = 0 -> allocatable (TPair k v) (2 * (N.of_nat (List.length a) + 1)) = true) ->
    exists d', call_map fc strhash d o = Ok (fst (f_step v bd a c), d') /\ shows d' (snd (f_step v bd a c)).
  Proof.
    intros Hs Ho Hn Hin Hal. destruct (shows_state _ _ Hs) as (Hg & Hrg & _). destruct (good_map _ _ _ Hg) as [Gk Gv]. pose proof (good_rget _ Gv) as Gv'. pose proof (rget_idem v) as Hrv.
    assert (Hks : forall x, In x (map fst a) -> In x ks) by auto.
    assert (Hput : forall key kv f w, key_is k key kv -> (In kv ks) -> does (rget v) f (fun _ => Some (ONone, w)) ->
      exists d', match run_on fc strhash d [SKey (d_mem key) 0] f with Ok x => Ok (Done (fst x), snd x) | Fail Assert => Ok (Refused, d) | Fail e => Fail e end =
        Ok (fst (f_step v bd a (FPut kv w)), d') /\ shows d' (snd (f_step v bd a (FPut kv w)))).
    { intros key kv f w Hk Hi Hd. cbn [f_step]. destruct (f_get kv a) as [u|] eqn:Eg; [|destruct (room bd a) eqn:Er].
      - destruct (put_call d a key kv f _ ONone w ks Hs Hk Hd Hn Hi Hks) as (d' & E & Hs'); [congruence|reflexivity|]. rewrite E. eauto.
      - destruct (put_call d a key kv f _ ONone w ks Hs Hk Hd Hn Hi Hks) as (d' & E & Hs'); [auto|reflexivity|]. rewrite E. eauto.
      - rewrite (put_refused d a key kv f ks Hs Hk Hn Hi Hks Eg Er). eauto. }
    destruct o as [key y|key x|key|e|key|key x|key y| ], c as [kv w|kv|kv|kv|kv x'|kv w| ]; try contradiction Ho; cbn [map_means] in Ho; cbn [call_key In] in Hin; unfold call_map.
    - destruct Ho as (Hk & Hy & Hty & Hsel). apply Hput; [exact Hk|auto|].
      destruct Hy as (_ & _ & _ & L & R). rewrite Hty in L, R. apply (realizes_does (rget v) _ (fun _ => Some w)). apply assign_realizes; try assumption.
      + destruct Hok as (_ & Cv & _). apply (proj1 (copy_ok_rget v)), Cv.
      + apply (proj1 (vselected_rget v w)), Hsel.
    - destruct Ho as (Hk & Hx & ->). apply Hput; [exact Hk|auto|]. apply (realizes_does (rget v) _ (fun _ => Some (scalar_value (rget v) x))). apply set_realizes; assumption.
    - cbn [f_step]. destruct (f_get kv a) as [u|] eqn:Eg; [|destruct (room bd a) eqn:Er].
      + destruct (put_call d a key kv _ _ ONone u ks Hs Ho touch_does Hn ltac:(auto) Hks) as (d' & E & Hs'); [congruence|rewrite Eg; reflexivity|]. rewrite E. rewrite (f_put_same _ _ _ Eg) in Hs'. eauto.
      + destruct (put_call d a key kv _ _ ONone (default_value v) ks Hs Ho touch_does Hn ltac:(auto) Hks) as (d' & E & Hs'); [auto|rewrite Eg; reflexivity|]. rewrite E. eauto.
      + rewrite (put_refused d a key kv _ ks Hs Ho Hn ltac:(auto) Hks Eg Er). eauto.
    - destruct Ho as (w & He & Hte & Hsel). cbn [f_step].
      assert (Hka : key_at k (d_mem e) 0 kv).
      { destruct He as (_ & _ & _ & L & R). rewrite Hte in L, R. cbn [live] in L. destruct L as [Lk _]. cbn [read] in R. apply bind_ok in R as (x & Rx & R). apply bind_ok in R as (y & Ry & R). injection R as -> ->. split; [exact Lk|]. auto. }
      destruct (room bd a) eqn:Er; [destruct (f_get kv a) as [u|] eqn:Eg|].
      + destruct (insert_refused d a e kv w u ks Hs He Hte Hsel Hn ltac:(auto) Hks Eg Er Hal) as (E & d' & Ed & Hs'). rewrite E, Ed. cbn [bind]. eauto.
      + pose proof Hs as (l & Hh & Ht & Hor & Hc). pose proof (no_coll strhash k _ _ _ _ Hc Eg Hn ltac:(auto) Hks) as Hcol.
        destruct (run_on_holds fc strhash d (VNode l) [] [] (d_type d) (insert_pair fc strhash (d_type e) (d_mem e) 0) (insert_value strhash k v bd (VNode [kv; w])) (OBool true) (VNode (add_entry strhash k kv (default_value v) l)) Hh I) as (d' & E & Ht' & Hh').
        * cbn. f_equal. exact Hrg.
        * rewrite Ht. rewrite Hte. apply (insert_does fc strhash k v bd (d_mem e) 0 kv); try assumption. reflexivity.
        * cbn [vmod insert_value]. cbv zeta. rewrite Hor, (contains_length _ _ Hc). unfold room in Er. rewrite Er. cbn [entry_key]. rewrite Hcol. cbn [negb andb].
          assert (Hac : accepts (TPair k v) bd (N.of_nat (List.length a) + 1) (2 * (N.of_nat (List.length a) + 1)) = true).
          { unfold accepts. destruct (bd =? 0) eqn:E0; [apply Hal, N.eqb_eq, E0|]. cbn in Er. apply N.ltb_lt in Er. apply N.leb_le. lia. }
          rewrite Hac. reflexivity.
        * rewrite E. cbn [fst snd]. exists d'. split; [reflexivity|]. exists (add_entry strhash k kv (default_value v) l). split; [exact Hh'|]. split; [congruence|]. split; [apply add_entry_ordered; assumption|apply contains_add; assumption].
      + pose proof Hs as (l & Hh & Ht & Hor & Hc).
        destruct (run_on_holds fc strhash d (VNode l) [] [] (d_type d) (insert_pair fc strhash (d_type e) (d_mem e) 0) (insert_value strhash k v bd (VNode [kv; w])) (OBool false) (VNode l) Hh I) as (d' & E & Ht' & Hh').
        * cbn. f_equal. exact Hrg.
        * rewrite Ht. rewrite Hte. apply (insert_does fc strhash k v bd (d_mem e) 0 kv); try assumption. reflexivity.
        * cbn [vmod insert_value]. cbv zeta. rewrite Hor, (contains_length _ _ Hc). unfold room in Er. rewrite Er. reflexivity.
        * rewrite E. cbn [fst snd]. exists d'. split; [reflexivity|]. exists l. split; [exact Hh'|]. split; [congruence|]. split; assumption.
    - destruct (query_call d a (has_key strhash (d_type key) (d_mem key) 0) (has_key_value strhash k kv) (OBool (match f_get kv a with Some _ => true | None => false end)) Hs) as (d' & E & Hs').
      + apply has_key_does; [exact Hg| |exact Hok|apply key_is_at, Ho]. destruct Ho as (_ & -> & _). apply rget_idem.
      + intros l Hor Hc. unfold has_key_value. rewrite Hor. destruct (f_get kv a) as [u|] eqn:Eg.
        * destruct (contains_get _ _ _ _ Hc Eg) as (i & Hi & _). rewrite Hi. reflexivity.
        * rewrite (contains_absent _ _ _ Hc Eg), (no_coll strhash k _ _ _ _ Hc Eg Hn ltac:(auto) Hks). reflexivity.
      + rewrite E. cbn [f_step fst snd]. eauto.
    - destruct Ho as (Hk & <-). cbn [f_step fst snd]. destruct (f_get kv a) as [u|] eqn:Eg; [destruct (read_value (rget v) x u) as [y|] eqn:Er|].
      + destruct (at_call d a key kv _ _ u y Hs Hk (get_does (rget v) x Hrv) Eg Er) as (d' & E & Hs'). rewrite E. eauto.
      + rewrite (at_refused d a key kv _ ks Hs Hk Hn ltac:(auto) Hks); [eauto|]. right. intros b off. unfold reading, get_scalar, get_value. rewrite Hrv.
        rewrite (bad_read (rget v) x u Gv' Hrv); [reflexivity| |exact Er].
        destruct Hs as (l & Hh & Ht & Hor & Hc). destruct (contains_get _ _ _ _ Hc Eg) as (i & _ & Hi). destruct Hh as (_ & _ & _ & L & R). rewrite Ht in L, R.
        pose proof (live_wf_value _ Hg _ _ _ L R) as Hw. cbn [wf_value] in Hw. destruct Hw as [_ Hw]. rewrite Forall_forall in Hw. specialize (Hw _ (nth_error_In _ _ Hi)). cbn in Hw.
        apply (proj1 (wf_value_rget v u)), Hw.
      + rewrite (at_refused d a key kv _ ks Hs Hk Hn ltac:(auto) Hks); [eauto|]. left. exact Eg.
    - destruct Ho as (Hk & Hy & Hty & Hnf). cbn [f_step fst snd]. destruct (f_get kv a) as [u|] eqn:Eg.
      + destruct Hy as (_ & _ & _ & L & R). rewrite Hty in L, R.
        destruct (at_call d a key kv _ _ u (OBool (value_eqb u w)) Hs Hk (eq_does (rget v) (d_mem y) 0 w Gv' Hnf L R) Eg eq_refl) as (d' & E & Hs'). rewrite Hty. rewrite E. eauto.
      + rewrite (at_refused d a key kv _ ks Hs Hk Hn ltac:(auto) Hks); [eauto|]. left. exact Eg.
    - destruct (query_call d a get_size (size_value (TMap k v bd)) (ONat (N.of_nat (List.length a))) Hs) as (d' & E & Hs').
      + apply size_does; [reflexivity|exact Hg].
      + intros l _ Hc. cbn [size_value]. rewrite (contains_length _ _ Hc). reflexivity.
      + rewrite E. cbn [f_step fst snd]. eauto.
  Qed.
  Lemma f_step_grows a c : (List.length (snd (f_step v bd a c)) <= S (List.length a))%nat.
  Proof.
    destruct c; cbn [f_step]; try (cbn [snd]; lia); repeat match goal with |- context [match ?x with _ => _ end] => destruct x eqn:? end; cbn [snd]; rewrite ?f_put_length; repeat match goal with |- context [match ?x with _ => _ end] => destruct x end; lia.
  Qed.
  Lemma f_step_keys a c x : In x (map fst (snd (f_step v bd a c))) -> In x (map fst a) \/ In x (call_key c).
  Proof.
    destruct c; cbn [f_step call_key]; try (cbn [snd]; tauto); repeat match goal with |- context [match ?x with _ => _ end] => destruct x eqn:? end; cbn [snd In]; try tauto;
      intros H; apply f_put_keys in H as [->|H]; tauto.
  Qed.
  Lemma map_calls_sim ks os cs : Forall2 (map_means k v) os cs -> no_collision strhash k ks -> (forall x, In x (flat_map call_key cs) -> In x ks) ->
    forall d a, shows d a -> (forall x, In x (map fst a) -> In x ks) ->
    (bd = 0 -> allocatable (TPair k v) (2 * N.of_nat (List.length a + List.length cs)) = true) ->
    exists d', calls_map fc strhash d os = Ok (fst (f_run v bd a cs), d') /\ shows d' (snd (f_run v bd a cs)).
  Proof.
    intros H Hn. induction H as [|o c os cs Ho _ IH]; intros Hks d a Hs Ha Hal; [exists d; auto|]. cbn [calls_map f_run flat_map] in *.
    destruct (map_call_sim ks d a o c Hs Ho Hn) as (d1 & E1 & Hs1).
    - intros x [Hx|Hx]; [auto|]. apply Hks, in_or_app. auto.
    - intros Hb. eapply allocatable_mono; [|apply Hal, Hb]. cbn [List.length]. lia.
    - rewrite E1. cbn [bind fst snd]. destruct (IH ltac:(intros x Hx; apply Hks, in_or_app; auto) d1 _ Hs1) as (d2 & E2 & Hs2).
      + intros x Hx. apply f_step_keys in Hx as [Hx|Hx]; [auto|]. apply Hks, in_or_app. auto.
      + intros Hb. eapply allocatable_mono; [|apply Hal, Hb]. pose proof (f_step_grows a c). cbn [List.length]. lia.
      + rewrite E2. cbn [bind fst snd]. eauto.
  Qed.
End Calls.
