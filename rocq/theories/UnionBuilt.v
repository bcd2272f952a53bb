(** What a union built by add_case_member answers about its labels. *)
From Verif Require Import Base Types TypeBuild TypeSpec Layout Peg0 Grammar Peg PegRules GenIdl GenSpec UnionSpec GenText.
From Coq Require Import Sorting.
Local Open Scope string_scope.

Definition holds_label (dv : Z) (done : list ucase) (l : Z) (nm : string) : Prop :=
  exists ls isd mt, In (ls, isd, (nm, mt)) done /\ (In l ls \/ (isd = true /\ ls = [] /\ l = dv)).
Record built (disc : ty) (n : string) (done : list ucase) (t : ty) : Prop := {
  b_shape : exists s ms labels d, t = TUnion n s ((UNION_DISCRIMINATOR, 0%N, disc) :: ms) labels (default_union_label (msize disc)) (no_default_label disc) d /\
    sorted_labels labels /\ plain_members ms = map snd done /\
    (forall l nm, lookup_label l labels = Some nm <-> holds_label (default_union_label (msize disc)) done l nm) /\
    ((forall k, In k done -> snd (fst k) = false) /\ d = no_default_label disc \/
     exists ls m, In (ls, true, m) done /\ d = hd (default_union_label (msize disc)) ls /\ forall ls' m', In (ls', true, m') done -> (ls', m') = (ls, m));
  b_names : NoDup (map fst (map snd done));
  b_labels : forall ls isd m l, In (ls, isd, m) done -> In l ls -> l <> default_union_label (msize disc);
  b_default : forall ls m, In (ls, true, m) done -> hd (default_union_label (msize disc)) ls <> no_default_label disc }.
Lemma existsb_shrunk : forall disc ls l, (forall x, In x ls -> shrink_label x (msize disc) = x) -> existsb (fun x => Z.eqb l (shrink_label x (msize disc))) ls = true <-> In l ls.
Proof.
  intros disc ls l H. rewrite existsb_exists. split.
  - intros (x & I & E). rewrite (H x I) in E. apply Z.eqb_eq in E. subst. exact I.
  - intros I. exists l. rewrite (H l I), Z.eqb_refl. auto.
Qed.
Lemma built_step : forall disc n done ls isd x mt t t', built disc n done t -> (forall l, In l ls -> shrink_label l (msize disc) = l) -> (isd = true -> hd (default_union_label (msize disc)) ls <> no_default_label disc) ->
  add_case_member t ls x mt isd = (t', Ok tt) -> built disc n (done ++ [(ls, isd, (x, mt))]) t'.
Proof.
  intros disc n done ls isd x mt t t' [Sh ND LB BD] Sk HDf H. destruct Sh as (s & ms & labels & d & -> & So & PM & LK & Df).
  pose proof H as H0. apply add_case_member_cases in H as [(_ & H)|(n0 & s0 & dn & doff & disc0 & cases & labels0 & dv & iv & d0 & E & NX & NI & CL & H)]; [congruence|].
  injection E as <- <- <- <- <- <- <- <- <- <-. apply check_labels_ok in CL. set (dv := default_union_label (msize disc)) in *.
  assert (NDV : forall l, In l ls -> l <> dv /\ lookup_label l labels = None).
  { intros l I. rewrite Forall_forall in CL. specialize (CL l I). rewrite (Sk l I) in CL. exact CL. }
  destruct (put_labels_spec disc dv x ls labels So) as [So' LK']. { eapply Forall_impl; [|exact CL]. cbv beta. tauto. }
  assert (NX' : ~ In x (map fst (map snd done))).
  { intros I. apply NI. right. rewrite <- PM in I. unfold plain_members in I. rewrite map_map in I. cbn [fst] in I. exact I. }
  assert (ND' : NoDup (map fst (map snd (done ++ [(ls, isd, (x, mt))])))).
  { rewrite !map_app. cbn [map fst snd]. apply NoDup_rev in ND. rewrite <- (rev_involutive (_ ++ _)). apply NoDup_rev. rewrite rev_app_distr. cbn [rev app]. constructor; [rewrite <- in_rev; exact NX'|exact ND]. }
  assert (LB' : forall ls0 isd0 m l, In (ls0, isd0, m) (done ++ [(ls, isd, (x, mt))]) -> In l ls0 -> l <> dv).
  { intros ls0 isd0 m l I Il. apply in_app_or in I as [I|[I|[]]]; [eapply LB; eauto|]. injection I as <- <- <-. apply NDV, Il. }
  assert (HL : forall l nm, (if existsb (fun z => Z.eqb l (shrink_label z (msize disc))) ls then Some x else lookup_label l labels) = Some nm <->
    holds_label dv done l nm \/ (nm = x /\ In l ls)).
  { intros l nm. destruct (existsb _ ls) eqn:Ex.
    - apply (existsb_shrunk disc ls l Sk) in Ex. split; [intros [= <-]; right; auto|]. intros [Hl|[-> _]]; [|reflexivity]. apply LK in Hl. destruct (NDV l Ex) as [_ Q]. congruence.
    - rewrite LK. split; [auto|]. intros [Hl|[-> I]]; [exact Hl|]. apply (existsb_shrunk disc ls l Sk) in I. congruence. }
  assert (HD : forall l nm, holds_label dv (done ++ [(ls, isd, (x, mt))]) l nm <-> holds_label dv done l nm \/ (nm = x /\ (In l ls \/ (isd = true /\ ls = [] /\ l = dv)))).
  { intros l nm. unfold holds_label. split.
    - intros (ls0 & isd0 & mt0 & I & C). apply in_app_or in I as [I|[I|[]]]; [left; eauto 8|]. injection I as <- <- <- <-. right. auto.
    - intros [(ls0 & isd0 & mt0 & I & C)|[-> C]]; [do 3 eexists; split; [apply in_or_app; left; exact I|exact C]|]. do 3 eexists. split; [apply in_or_app; right; left; reflexivity|exact C]. }
  assert (BD' : forall ls0 m, In (ls0, true, m) (done ++ [(ls, isd, (x, mt))]) -> hd dv ls0 <> no_default_label disc).
  { intros ls0 m I. apply in_app_or in I as [I|[I|[]]]; [eapply BD; eauto|]. injection I as <- Q _. apply HDf, Q. }
  assert (PM' : plain_members (ms ++ [(x, msize disc, mt)]) = map snd (done ++ [(ls, isd, (x, mt))])) by (unfold plain_members in *; rewrite !map_app, PM; reflexivity).
  cbv zeta in H. fold dv in H. destruct isd.
  - destruct H as [(Ed & _ & ->)|(_ & Q & _)]; [|discriminate Q]. constructor; [|exact ND'|exact LB'|exact BD'].
    assert (FL : first_label disc dv ls = hd dv ls).
    { destruct (first_label_cases disc dv ls) as [[-> E]|(z & r & -> & E & _)]; [eapply Forall_impl; [|exact CL]; cbv beta; tauto|exact E|]. rewrite E. cbn [hd]. apply Sk. left; reflexivity. }
    rewrite FL. do 4 eexists. split; [reflexivity|]. split; [destruct (Z.eqb (hd dv ls) dv); [apply set_label_sorted|]; exact So'|]. split; [exact PM'|]. split.
    + intros l nm. fold dv. rewrite HD. destruct ls as [|z r]; cbn [hd].
      * rewrite Z.eqb_refl. rewrite lookup_set_label by exact So'. destruct (Z.eqb_spec l dv) as [->|NE].
        -- split; [intros [= <-]; right; auto|]. intros [Hl|[-> _]]; [|reflexivity]. exfalso. destruct Hl as (ls0 & isd0 & mt0 & I & [Il|(-> & -> & _)]); [exact (LB _ _ _ _ I Il eq_refl)|].
           destruct Df as [[Nd _]|(ls1 & m1 & I1 & E1 & _)]; [specialize (Nd _ I); discriminate Nd|]. exact (BD _ _ I1 (eq_trans (eq_sym E1) Ed)).
        -- rewrite LK'. cbn [existsb]. rewrite LK. split; [auto|]. intros [Hl|[_ [[]|(_ & _ & Q)]]]; [exact Hl|contradiction].
      * destruct (Z.eqb_spec z dv) as [Q|_]; [exfalso; apply (NDV z (or_introl eq_refl)); exact Q|]. rewrite LK', HL. split; [intros [?|[-> ?]]; auto|]. intros [?|[-> [?|(_ & Q & _)]]]; auto; discriminate Q.
    + right. exists ls, (x, mt). split; [apply in_or_app; right; left; reflexivity|]. split; [reflexivity|]. intros ls' m' I. apply in_app_or in I as [I|[I|[]]]; [|congruence]. exfalso.
      destruct Df as [[Nd _]|(ls1 & m1 & I1 & E1 & _)]; [specialize (Nd _ I); discriminate Nd|]. exact (BD _ _ I1 (eq_trans (eq_sym E1) Ed)).
  - destruct H as (NE & _ & ->). constructor; [|exact ND'|exact LB'|exact BD']. do 4 eexists. split; [reflexivity|]. split; [exact So'|]. split; [exact PM'|]. split.
    + intros l nm. fold dv. rewrite LK', HL, HD. split; [intros [?|[-> ?]]; auto|]. intros [?|[-> [?|(Q & _)]]]; auto; discriminate Q.
    + destruct Df as [[Nd ->]|(ls0 & m0 & I & -> & U)].
      * left. split; [|reflexivity]. intros k I. apply in_app_or in I as [I|[<-|[]]]; [apply Nd, I|reflexivity].
      * right. exists ls0, m0. split; [apply in_or_app; left; exact I|]. split; [reflexivity|]. intros ls' m' I'. apply in_app_or in I' as [I'|[I'|[]]]; [apply U, I'|discriminate I'].
Qed.
Lemma built_all : forall disc n cs done t u, built disc n done t -> (forall ls isd m, In (ls, isd, m) cs -> (forall l, In l ls -> shrink_label l (msize disc) = l) /\ case_sorted disc (ls, isd, m)) ->
  add_all t cs = Ok u -> built disc n (done ++ cs) u.
Proof.
  intros disc n. induction cs as [|[[ls isd] [x mt]] cs IH]; intros done t u B H A; cbn [add_all] in A.
  - injection A as ->. rewrite app_nil_r. exact B.
  - destruct (add_case_member t ls x mt isd) as [t' [[]|e]] eqn:E; [|discriminate A]. destruct (H ls isd (x, mt) (or_introl eq_refl)) as (Sk & _ & Df).
    replace (done ++ (ls, isd, (x, mt)) :: cs)%list with ((done ++ [(ls, isd, (x, mt))]) ++ cs)%list by (rewrite <- app_assoc; reflexivity).
    apply (IH _ t'); [|intros; apply H; right; assumption|exact A]. apply (built_step disc n done ls isd x mt t t' B Sk); [|exact E].
    intros Q. specialize (Df Q). destruct ls; cbn [hd]; [unfold no_default_label; lia|exact Df].
Qed.
Lemma built_new : forall x disc t, union_new x disc = Ok t -> built disc x [] t.
Proof.
  intros x disc t H. unfold union_new in H. destruct (check_discriminator disc); [|discriminate H]. injection H as <-. constructor; [|constructor|intros ? ? ? ? []|intros ? ? []].
  do 4 eexists. split; [reflexivity|]. split; [exact I|]. split; [reflexivity|]. split; [|left; split; [intros ? []|reflexivity]].
  intros l nm. split; [discriminate|]. intros (ls & isd & mt & [] & _).
Qed.
Lemma union_built_of : forall x disc cs u, (forall ls isd m, In (ls, isd, m) cs -> (forall l, In l ls -> shrink_label l (msize disc) = l) /\ case_sorted disc (ls, isd, m)) ->
  union_of x disc cs = Ok u -> built disc x cs u.
Proof.
  intros x disc cs u H U. unfold union_of in U. destruct (union_new x disc) as [t|] eqn:E; [|discriminate U]. cbn [bind] in U. exact (built_all disc x cs [] t u (built_new _ _ _ E) H U).
Qed.
(** Two ascending lists with the same elements are the same. *)
Lemma ascending_ext : forall a b, StronglySorted Z.lt a -> StronglySorted Z.lt b -> (forall l, In l a <-> In l b) -> a = b.
Proof.
  induction a as [|x a IH]; intros b Sa Sb H.
  - destruct b as [|y b]; [reflexivity|]. destruct (proj2 (H y) (or_introl eq_refl)).
  - destruct b as [|y b]; [destruct (proj1 (H x) (or_introl eq_refl))|]. inversion Sa as [|? ? Sa' Fa]; inversion Sb as [|? ? Sb' Fb]; subst. rewrite Forall_forall in Fa, Fb.
    assert (x = y). { destruct (proj1 (H x) (or_introl eq_refl)) as [E|I]; [auto|]. destruct (proj2 (H y) (or_introl eq_refl)) as [E|J]; [auto|]. specialize (Fa _ J). specialize (Fb _ I). lia. }
    subst y. f_equal. apply IH; [exact Sa'|exact Sb'|]. intros l. split; intros I.
    + destruct (proj1 (H l) (or_intror I)) as [<-|J]; [specialize (Fa _ I); lia|exact J].
    + destruct (proj2 (H l) (or_intror I)) as [<-|J]; [specialize (Fb _ I); lia|exact J].
Qed.
Lemma labels_ascending : forall (P : Z * string -> bool) ls, sorted_labels ls -> StronglySorted Z.lt (map fst (filter P ls)).
Proof.
  intros P. induction ls as [|[k s] r IH]; intros S; [constructor|]. cbn [sorted_labels] in S. destruct S as [F S]. cbn [filter]. destruct (P (k, s)); [|apply IH, S]. cbn [map fst]. constructor; [apply IH, S|].
  apply Forall_forall. intros l I. apply in_map_iff in I as (q & <- & I). apply filter_In in I as [I _]. rewrite Forall_forall in F. exact (F q I).
Qed.
Lemma lookup_in : forall l nm ls, lookup_label l ls = Some nm -> In (l, nm) ls.
Proof. intros l nm. induction ls as [|[k s] r IH]; cbn [lookup_label]; [discriminate|]. destruct (Z.eqb_spec l k) as [->|]; [intros [= ->]; left; reflexivity|right; auto]. Qed.
Lemma nodup_case : forall (cs : list ucase) k k', NoDup (map fst (map snd cs)) -> In k cs -> In k' cs -> fst (snd k) = fst (snd k') -> k = k'.
Proof.
  induction cs as [|c cs IH]; intros k k' N I I' E; [destruct I|]. cbn [map] in N. inversion N as [|? ? NI N']; subst. destruct I as [<-|I], I' as [<-|I']; [reflexivity| | |apply IH; assumption].
  - exfalso. apply NI. rewrite E, map_map. apply in_map_iff. exists k'. auto.
  - exfalso. apply NI. rewrite <- E, map_map. apply in_map_iff. exists k. auto.
Qed.
Lemma built_answers : forall disc n cs u ls isd x mt, built disc n cs u -> In (ls, isd, (x, mt)) cs -> StronglySorted Z.lt ls -> get_labels u x = ls /\ is_default u x = Ok isd.
Proof.
  intros disc n cs u ls isd x mt [Sh ND LB BD] I Hs. destruct Sh as (s & ms & labels & d & -> & So & PM & LK & Df). set (dv := default_union_label (msize disc)) in *.
  assert (Same : forall ls0 isd0 mt0, In (ls0, isd0, (x, mt0)) cs -> ls0 = ls /\ isd0 = isd).
  { intros ls0 isd0 mt0 I0. assert (Q : (ls0, isd0, (x, mt0)) = (ls, isd, (x, mt))) by (eapply nodup_case; eauto). injection Q as -> -> _. auto. }
  split.
  - cbn [get_labels]. apply ascending_ext; [apply labels_ascending, So|exact Hs|]. intros l. rewrite in_map_iff. split.
    + intros ([l' y] & <- & F). apply filter_In in F as [F E]. cbn [fst snd] in *. apply andb_true_iff in E as [E1 E2]. apply String.eqb_eq in E1. subst y. apply negb_true_iff, Z.eqb_neq in E2.
      apply (in_lookup _ _ _ So), LK in F. destruct F as (ls0 & isd0 & mt0 & I0 & C). destruct (Same _ _ _ I0) as [-> _]. destruct C as [C|(_ & _ & C)]; [exact C|contradiction].
    + intros Il. exists (l, x). split; [reflexivity|]. apply filter_In. split.
      * apply lookup_in, LK. exists ls, isd, mt. auto.
      * cbn [fst snd]. rewrite String.eqb_refl. apply negb_true_iff, Z.eqb_neq. eapply LB; eauto.
  - cbn [is_default]. destruct Df as [[Nd ->]|(ls0 & [y my] & I0 & Ed & U)].
    + rewrite Z.eqb_refl. specialize (Nd _ I). cbn [fst snd] in Nd. subst isd. reflexivity.
    + pose proof (BD _ _ I0) as NE. rewrite <- Ed in NE. destruct (Z.eqb_spec d (no_default_label disc)) as [Q|_]; [contradiction|].
      assert (L : lookup_label d labels = Some y).
      { apply LK. exists ls0, true, my. split; [exact I0|]. destruct ls0 as [|z r]; cbn [hd] in Ed; [right; auto|left; left; auto]. }
      rewrite L. destruct (String.eqb_spec y x) as [->|NY]; [destruct (Same _ _ _ I0) as [_ <-]; reflexivity|]. destruct isd; [|reflexivity]. specialize (U _ _ I). congruence.
Qed.
