(** When the calls of the API that build a union succeed, and what the union answers. *)
From Verif Require Import Base Types TyInd TypeBuild TypeSpec Layout Peg0 Grammar Peg PegRules GenIdl GenSpec GenText UnionSpec UnionBuilt UnionRead CaseSpec.
From Coq Require Import Sorting.
Local Open Scope string_scope.

Lemma width_cases : forall disc, check_discriminator disc = true -> (forall nm sz vals, rget disc = TEnum nm sz vals -> sz = 4%N) -> msize disc = 1%N \/ msize disc = 2%N \/ msize disc = 4%N \/ msize disc = 8%N.
Proof.
  intros disc C H. unfold check_discriminator in C. rewrite <- msize_rget. destruct (rget disc) as [q|nm sz vals|k b|nm c b|c b|k v b|k v|nm sz ms|nm sz ms ls dv iv d|nm a]; try discriminate C.
  - destruct q; try discriminate C; cbn; auto.
  - cbn [msize]. rewrite (H nm sz vals eq_refl). auto.
Qed.
Lemma shrink_id : forall sz l, sz = 1%N \/ sz = 2%N \/ sz = 4%N \/ sz = 8%N -> (0 <= l < 2 ^ (8 * Z.of_N sz))%Z -> (l < 2 ^ 63)%Z -> shrink_label l sz = l.
Proof. intros sz l H R R'. rewrite (shrink_label_eq _ _ H), Z.mod_small by exact R. unfold to_i64. rewrite Z.mod_small by lia. cbv zeta. destruct (Z.ltb_spec l 9223372036854775808); lia. Qed.
Lemma label_stays : forall disc l, check_discriminator disc = true -> label_allowed disc l -> shrink_label l (msize disc) = l.
Proof. intros disc l C (R & R' & _ & V). apply shrink_id; [|exact R|exact R']. apply width_cases; [exact C|]. intros nm sz vals E. rewrite E in V. apply V. Qed.
Lemma add_case_ok : forall disc n done ls isd x mt t, check_discriminator disc = true -> built disc n done t ->
  (ls <> [] \/ isd = true) -> x <> UNION_DISCRIMINATOR -> Forall (label_allowed disc) ls -> (forall k l, In k done -> In l ls -> ~ In l (fst (fst k))) ->
  (forall k, In k done -> fst (snd k) <> x) -> (isd = true -> forall k, In k done -> snd (fst k) = false) ->
  exists t', add_case_member t ls x mt isd = (t', Ok tt).
Proof.
  intros disc n done ls isd x mt t CD [Sh ND LB BD] NE NX FL FR FN FD. destruct Sh as (s & ms & labels & d & -> & So & PM & LK & Df). unfold add_case_member.
  assert (A1 : negb (isd || negb match ls with [] => true | _ => false end) = false) by (destruct NE as [NE| ->]; [destruct ls; [congruence|]; destruct isd; reflexivity|reflexivity]).
  rewrite A1. destruct (String.eqb_spec UNION_DISCRIMINATOR x); [congruence|].
  assert (A2 : check_labels disc (default_union_label (msize disc)) labels ls = Ok tt).
  { assert (G : forall l, In l ls -> check_label_value disc (default_union_label (msize disc)) l = Ok tt /\ lookup_label l labels = None).
    { intros l Il. rewrite Forall_forall in FL. destruct (FL l Il) as (R & R' & NR & V). split.
      - unfold check_label_value. destruct (Z.eqb_spec l (default_union_label (msize disc))); [contradiction|]. cbn [negb assert_ bind].
        destruct (rget disc) eqn:Rd; try reflexivity. destruct V as (-> & V). change (4 =? 4)%N with true. cbv iota. unfold check_discriminator in CD.
        rewrite Z.mod_small; [rewrite V; reflexivity|]. split; [apply R|]. destruct R as [_ R]. rewrite <- (msize_rget disc), Rd in R. cbn [msize] in R. change (2 ^ (8 * Z.of_N 4))%Z with 4294967296%Z in R. exact R.
      - destruct (lookup_label l labels) as [nm|] eqn:Lk; [|reflexivity]. apply LK in Lk. destruct Lk as (ls0 & isd0 & mt0 & I0 & C). exfalso. destruct C as [C|(_ & _ & C)]; [exact (FR _ l I0 Il C)|exact (NR C)]. }
    assert (St : forall l, In l ls -> shrink_label l (msize disc) = l) by (intros l Il; apply label_stays; [exact CD|rewrite Forall_forall in FL; apply FL, Il]).
    clear - G St. induction ls as [|l r IH]; [reflexivity|]. cbn [check_labels]. rewrite (St l (or_introl eq_refl)). destruct (G l (or_introl eq_refl)) as [-> ->]. cbn [bind assert_]. apply IH; intros; [apply G|apply St]; right; assumption. }
  rewrite A2.
  assert (A3 : has_member x ((UNION_DISCRIMINATOR, 0%N, disc) :: ms) = false).
  { apply has_member_false. cbn [map m_name fst]. intros [Hm|Hm]; [cbn in Hm; congruence|].
    assert (Q : In x (map fst (map snd done))). { unfold ucase in *. rewrite <- PM. unfold plain_members. rewrite map_map. cbn [fst]. exact Hm. }
    rewrite map_map in Q. apply in_map_iff in Q as (k & E & I). exact (FN k I E). }
  rewrite A3. cbv zeta. destruct isd; [|eexists; reflexivity]. assert (Dn : d = no_default_label disc).
  { destruct Df as [[_ Df]|(ls0 & m0 & I0 & _)]; [exact Df|]. specialize (FD eq_refl _ I0). discriminate FD. }
  rewrite Dn, Z.eqb_refl. eexists. reflexivity.
Qed.
Lemma nodup_apart : forall A (a b : list A) x, NoDup (a ++ b) -> In x a -> ~ In x b.
Proof. induction a as [|y a IH]; intros b x Hn I Ib; [destruct I|]. cbn [app] in Hn. inversion Hn as [|? ? NI Nr]; subst. destruct I as [->|I]; [apply NI, in_or_app; right; exact Ib|exact (IH b x Nr I Ib)]. Qed.
Lemma add_all_ok : forall disc n cs done t, check_discriminator disc = true -> built disc n done t ->
  Forall (case_allowed disc) cs -> cases_apart (done ++ cs) -> exists u, add_all t cs = Ok u /\ built disc n (done ++ cs) u.
Proof.
  intros disc n. induction cs as [|[[ls isd] [x mt]] cs IH]; intros done t CD B F (Ap1 & Ap2 & Ap3); cbn [add_all].
  - exists t. rewrite app_nil_r. auto.
  - inversion F as [|? ? (NE & NX & FL & FD) Fr]; subst. cbn [fst snd] in *.
    destruct (add_case_ok disc n done ls isd x mt t CD B NE NX FL) as (t' & A).
    + intros k l Ik Il Il'. rewrite map_app, concat_app in Ap2. cbn [map List.concat fst snd] in Ap2.
      assert (Q : In l (List.concat (map (fun k : ucase => fst (fst k)) done))) by (apply in_concat; exists (fst (fst k)); split; [apply in_map_iff; exists k; auto|exact Il']).
      apply (nodup_apart _ _ _ l Ap2 Q). apply in_or_app. left. exact Il.
    + intros k Ik E. rewrite map_app in Ap1. cbn [map fst snd] in Ap1. assert (Q : In x (map (fun k : ucase => fst (snd k)) done)) by (apply in_map_iff; exists k; auto).
      apply (nodup_apart _ _ _ x Ap1 Q). left. reflexivity.
    + intros -> k Ik. destruct (snd (fst k)) eqn:Ek; [|reflexivity]. exfalso.
      assert (Q : fst (snd k) = x) by (apply (Ap3 k (ls, true, (x, mt))); [apply in_or_app; left; exact Ik|apply in_or_app; right; left; reflexivity|exact Ek|reflexivity]).
      rewrite map_app in Ap1. cbn [map fst snd] in Ap1. assert (Q' : In x (map (fun k : ucase => fst (snd k)) done)) by (apply in_map_iff; exists k; auto).
      apply (nodup_apart _ _ _ x Ap1 Q'). left. reflexivity.
    + rewrite A. destruct (IH (done ++ [(ls, isd, (x, mt))])%list t' CD) as (u & U & Bu).
      * apply (built_step disc n done ls isd x mt t t' B); [| |exact A].
        -- intros l Il. apply label_stays; [exact CD|]. rewrite Forall_forall in FL. apply FL, Il.
        -- intros Q. specialize (FD Q). destruct ls; cbn [hd]; [unfold no_default_label; lia|exact FD].
      * exact Fr.
      * rewrite <- app_assoc. cbn [app]. split; [exact Ap1|split; [exact Ap2|exact Ap3]].
      * exists u. rewrite <- app_assoc in Bu. auto.
Qed.
Lemma union_of_exact : forall x disc cs, good_union disc cs -> exists u, union_of x disc cs = Ok u /\ built disc x cs u.
Proof.
  intros x disc cs (CD & F & Ap). unfold union_of. destruct (union_new x disc) as [t|e] eqn:E.
  - cbn [bind]. exact (add_all_ok disc x cs [] t CD (built_new _ _ _ E) F Ap).
  - unfold union_new in E. rewrite CD in E. discriminate E.
Qed.
Lemma built_labels : forall disc n cs u ls isd x mt, built disc n cs u -> In (ls, isd, (x, mt)) cs ->
  StronglySorted Z.lt (get_labels u x) /\ (forall l, In l (get_labels u x) <-> In l ls) /\ is_default u x = Ok isd.
Proof.
  intros disc n cs u ls isd x mt [Sh ND LB BD] I. destruct Sh as (s & ms & labels & d & -> & So & PM & LK & Df). set (dv := default_union_label (msize disc)) in *.
  assert (Same : forall ls0 isd0 mt0, In (ls0, isd0, (x, mt0)) cs -> ls0 = ls /\ isd0 = isd).
  { intros ls0 isd0 mt0 I0. assert (Q : (ls0, isd0, (x, mt0)) = (ls, isd, (x, mt))) by (eapply nodup_case; eauto). injection Q as -> -> _. auto. }
  split; [apply labels_ascending, So|]. split.
  - intros l. cbn [get_labels]. rewrite in_map_iff. split.
    + intros ([l' y] & <- & F). apply filter_In in F as [F E]. cbn [fst snd] in *. apply andb_true_iff in E as [E1 E2]. apply String.eqb_eq in E1. subst y. apply negb_true_iff, Z.eqb_neq in E2.
      apply (in_lookup _ _ _ So), LK in F. destruct F as (ls0 & isd0 & mt0 & I0 & C). destruct (Same _ _ _ I0) as [-> _]. destruct C as [C|(_ & _ & C)]; [exact C|contradiction].
    + intros Il. exists (l, x). split; [reflexivity|]. apply filter_In. split.
      * apply lookup_in, LK. exists ls, isd, mt. auto.
      * cbn [fst snd]. rewrite String.eqb_refl. apply negb_true_iff, Z.eqb_neq. eapply LB; eauto.
  - cbn [is_default]. destruct Df as [[Nd ->]|(ls0 & [y my] & I0 & Ed & U)].
    + rewrite Z.eqb_refl. specialize (Nd _ I). cbn [fst snd] in Nd. subst isd. reflexivity.
    + pose proof (BD _ _ I0) as NE. rewrite <- Ed in NE. destruct (Z.eqb_spec d (no_default_label disc)) as [Q|_]; [contradiction|].
      assert (L : lookup_label d labels = Some y).
      { apply LK. exists ls0, true, my. split; [exact I0|]. destruct ls0 as [|z r]; cbn [hd] in Ed; [right; auto|left; left; auto]. }
      rewrite L. destruct (String.eqb_spec y x) as [->|NY]; [destruct (Same _ _ _ I0) as [_ <-]; reflexivity|]. destruct isd; [|reflexivity]. specialize (U _ _ I). congruence.
Qed.
Lemma built_cases : forall disc n cs u, built disc n cs u -> case_members u = (UNION_DISCRIMINATOR, disc) :: map snd cs.
Proof. intros disc n cs u [Sh _ _ _]. destruct Sh as (s & ms & labels & d & -> & _ & PM & _). cbn [case_members map m_name m_type fst snd]. f_equal. exact PM. Qed.
