(** Union operations: the discriminator and the constructed member always agree. *)
From Verif Require Import Base Types TypeBuild TypeSpec Mem MemSpec TyInd Layout CompatFacts2 MemEqns MemFacts
  ConstructFacts CopyFacts DestroyFacts CompareFacts Ops OpsSpec.

Section Union.
  Variables (nm : string) (s : N) (dn : string) (disc : ty) (cs : list member) (labels : list (Z * string)) (dv iv d : Z).
  Let ms : list member := (dn, 0, disc) :: cs.
  Let u : ty := TUnion nm s ms labels dv iv d.
  Hypothesis Hg : good u.

  Lemma u_inv : good disc /\ check_discriminator disc = true /\ label_width disc = msize disc /\
    lookup_label iv labels = None /\ s = msize disc + max_size cs /\ dn = UNION_DISCRIMINATOR /\
    NoDup (map m_name ms) /\ wf_union_labels disc cs labels dv iv d /\ Forall (fun m => m_off m = msize disc) cs.
  Proof.
    destruct (good_union_inv _ _ _ _ _ _ _ Hg) as (dn' & disc' & cs' & E & H1 & H2 & H3 & H4 & H5 & H6 & H7 & H8 & H9).
    unfold ms in E. injection E as <- <- <-. tauto.
  Qed.

  Lemma u_member x m : find_member x cs = Some m ->
    find_member x ms = Some m /\ In m cs /\ m_name m = x /\ m_off m = msize disc /\ m_off m + msize (m_type m) <= s /\ good (m_type m).
  Proof.
    intros Hf. pose proof (find_member_in _ _ _ Hf) as [Hin Hn].
    destruct u_inv as (_ & _ & _ & _ & _ & _ & Hnd & _ & Hoff). rewrite Forall_forall in Hoff.
    assert (E : String.eqb x dn = false).
    { apply String.eqb_neq. intros ->. cbn in Hnd. inversion Hnd as [|? ? Hni]. apply Hni. rewrite <- Hn. apply in_map, Hin. }
    split; [unfold ms; cbn [find_member m_name fst]; rewrite E; exact Hf|]. split; [exact Hin|]. split; [exact Hn|].
    split; [apply Hoff, Hin|]. pose proof Hg as [Hw _].
    split; [apply (union_member_range _ _ _ _ _ _ _ m Hw); right; exact Hin|].
    apply (good_union _ _ _ _ _ _ _ m Hg). right. exact Hin.
  Qed.
  Lemma u_label l x : lookup_label l labels = Some x -> exists m, find_member x cs = Some m.
  Proof.
    intros Hl. destruct u_inv as (_ & _ & _ & _ & _ & _ & _ & (_ & _ & _ & HF & _) & _).
    rewrite Forall_forall in HF. apply find_member_exists. apply (HF (l, x)), lookup_in, Hl.
  Qed.
  Lemma u_label_shrunk l x : In (l, x) labels -> shrink_label l (msize disc) = l.
  Proof.
    intros Hl. destruct u_inv as (_ & _ & _ & _ & _ & _ & _ & (_ & _ & _ & _ & HF & _) & _).
    rewrite Forall_forall in HF. apply (HF (l, x)), Hl.
  Qed.

  (** what a live union looks like *)
  Lemma union_state b off : live u b off -> alloc b off s /\ live disc b off /\
    exists bs l, read disc b off = Ok (VBytes bs) /\ get_label disc b off = Ok l /\ label_of disc (VBytes bs) = Some l /\
      match lookup_label l labels with
      | None => read u b off = Ok (VUnion (VBytes bs) None)
      | Some x => exists m w, find_member x cs = Some m /\ live (m_type m) b (off + m_off m) /\
          read (m_type m) b (off + m_off m) = Ok w /\ read u b off = Ok (VUnion (VBytes bs) (Some w))
      end.
  Proof.
    intros Hl. unfold u in Hl. rewrite live_union in Hl.
    destruct Hl as (Ha & dn' & do' & disc' & cs' & E & Hd & l & Hgl & Hm). inversion E; subst dn' do' disc' cs'.
    destruct u_inv as (Hgd & Hc & Hlw & _).
    split; [exact Ha|]. split; [exact Hd|].
    pose proof (read_disc disc b off Hc) as Er. unfold get_label in Hgl. rewrite Hlw in Hgl.
    destruct (read_bytes b off (msize disc)) as [bs|] eqn:Eb; [|discriminate Hgl]. cbn [bind] in *.
    exists bs, l. split; [exact Er|]. split; [unfold get_label; rewrite Hlw, Eb; exact Hgl|].
    split; [cbn; congruence|].
    assert (Egl : get_label disc b off = Ok l) by (unfold get_label; rewrite Hlw, Eb; exact Hgl).
    destruct (lookup_label l labels) as [x|] eqn:Ex.
    - destruct (u_label _ _ Ex) as (m & Hf). destruct (u_member _ _ Hf) as (Hf' & Hin & Hn & Ho & Hr & Hgm).
      unfold with_member in Hm. fold ms in Hm. rewrite Hf' in Hm. destruct (live_read _ Hgm _ _ Hm) as [w Hw].
      exists m, w. split; [exact Hf|]. split; [exact Hm|]. split; [exact Hw|].
      unfold u, ms. rewrite read_union. rewrite Er, Egl. cbn [bind]. rewrite Ex. unfold with_member. fold ms.
      rewrite Hf', Hw. reflexivity.
    - unfold u, ms. rewrite read_union, Er, Egl. cbn [bind]. rewrite Ex. reflexivity.
  Qed.
  Lemma union_intro b off l x m w vd : alloc b off s -> live disc b off -> read disc b off = Ok vd ->
    get_label disc b off = Ok l -> lookup_label l labels = Some x -> find_member x cs = Some m ->
    live (m_type m) b (off + m_off m) -> read (m_type m) b (off + m_off m) = Ok w ->
    live u b off /\ read u b off = Ok (VUnion vd (Some w)).
  Proof.
    intros Ha Hd Hr Hgl Hx Hf Hl Hw. destruct (u_member _ _ Hf) as (Hf' & _). split.
    - unfold u. rewrite live_union. split; [exact Ha|]. exists dn, 0, disc, cs. split; [reflexivity|]. split; [exact Hd|].
      exists l. split; [exact Hgl|]. rewrite Hx. unfold with_member. rewrite Hf'. exact Hl.
    - unfold u, ms. rewrite read_union, Hr, Hgl. cbn [bind]. rewrite Hx. unfold with_member. fold ms.
      rewrite Hf', Hw. reflexivity.
  Qed.
  Lemma union_intro_none b off l vd : alloc b off s -> live disc b off -> read disc b off = Ok vd ->
    get_label disc b off = Ok l -> lookup_label l labels = None ->
    live u b off /\ read u b off = Ok (VUnion vd None).
  Proof.
    intros Ha Hd Hr Hgl Hx. split.
    - unfold u. rewrite live_union. split; [exact Ha|]. exists dn, 0, disc, cs. split; [reflexivity|]. split; [exact Hd|].
      exists l. split; [exact Hgl|]. rewrite Hx. exact I.
    - unfold u, ms. rewrite read_union, Hr, Hgl. cbn [bind]. rewrite Hx. reflexivity.
  Qed.

  Lemma activate_spec m b off : find_member (m_name m) cs = Some m -> live u b off ->
    exists b1 vd mv l, activate_member ms labels disc m b off = Ok b1 /\
      read u b off = Ok (VUnion vd mv) /\ get_label disc b off = Ok l /\ label_of disc vd = Some l /\
      agree_out b b1 (off + msize disc) (s - msize disc) /\ alloc b1 off s /\
      live (m_type m) b1 (off + m_off m) /\
      read (m_type m) b1 (off + m_off m) = Ok (keep_or_default (lookup_label l labels) mv (m_name m) (m_type m)).
  Proof.
    intros Hf Hl. destruct (union_state _ _ Hl) as (Ha & Hd & bs & l & Hr & Hgl & Hlo & Hst).
    destruct u_inv as (Hgd & Hc & Hlw & Hiv & Hs & _).
    destruct (u_member _ _ Hf) as (Hf' & Hin & _ & Ho & Hrg & Hgm).
    unfold activate_member. rewrite Hgl. cbn [bind].
    assert (Hout : forall b' m', In m' cs -> m_off m' = msize disc -> m_off m' + msize (m_type m') <= s ->
              forall b0, agree_out b0 b' (off + m_off m') (msize (m_type m')) -> agree_out b0 b' (off + msize disc) (s - msize disc)).
    { intros b' m' _ H1 H2 b0 H3. eapply agree_out_weaken; [exact H3|lia|lia]. }
    assert (Hal : forall b0 b' n0, agree_out b0 b' (off + msize disc) n0 -> n0 <= s - msize disc -> alloc b' (off + msize disc) n0 ->
              alloc b0 off s -> alloc b' off s).
    { intros b0 b' n0 A Hn Hm Hb i Hi.
      destruct ((msize disc <=? i) && (i <? msize disc + n0)) eqn:E.
      - apply andb_true_iff in E as [E1 E2]. apply N.leb_le in E1. apply N.ltb_lt in E2.
        specialize (Hm (i - msize disc) ltac:(lia)). replace (off + msize disc + (i - msize disc)) with (off + i) in Hm by lia. exact Hm.
      - rewrite A; [apply Hb, Hi|]. apply andb_false_iff in E as [E|E]; [apply N.leb_gt in E|apply N.ltb_ge in E]; lia. }
    assert (Hcons : forall b0, alloc b0 off s -> agree_out b b0 (off + msize disc) (s - msize disc) ->
       exists b1, construct (m_type m) b0 (off + m_off m) = Ok b1 /\ agree_out b b1 (off + msize disc) (s - msize disc) /\ alloc b1 off s /\
         live (m_type m) b1 (off + m_off m) /\ read (m_type m) b1 (off + m_off m) = Ok (default_value (m_type m))).
    { intros b0 Ha0 A0. destruct (construct_spec _ Hgm b0 (off + m_off m)) as (b1 & E & A & L & R).
      { eapply alloc_sub; [exact Ha0|lia]. }
      exists b1. split; [exact E|]. split.
      { intros j Hj. rewrite (Hout _ _ Hin Ho Hrg _ A) by exact Hj. apply A0, Hj. }
      split; [|split; assumption].
      apply (Hal b0 b1 (msize (m_type m))); [rewrite <- Ho; exact A|lia|rewrite <- Ho; apply live_alloc; [apply Hgm|exact L]|exact Ha0]. }
    destruct (lookup_label l labels) as [x|] eqn:Ex.
    - destruct Hst as (a & w & Hfa & La & Ra & Ru). destruct (u_member _ _ Hfa) as (Hfa' & Hina & Hna & Hoa & Hrga & Hga).
      unfold member_at. rewrite Hfa'. cbn [bind].
      destruct (String.eqb (m_name a) (m_name m)) eqn:En.
      + apply String.eqb_eq in En. assert (a = m) by congruence. subst a.
        exists b, (VBytes bs), (Some w), l. split; [reflexivity|]. split; [exact Ru|]. split; [reflexivity|]. split; [exact Hlo|].
        split; [apply agree_out_refl|]. split; [exact Ha|]. split; [exact La|].
        rewrite Ex. cbn [keep_or_default]. rewrite Hna, String.eqb_refl. exact Ra.
      + destruct (destroy_spec _ _ _ Hga La) as (b0 & E0 & A0 & Al0 & _). rewrite E0. cbn [bind].
        destruct (Hcons b0) as (b1 & E1 & A1 & Al1 & L1 & R1).
        * apply (Hal b b0 (msize (m_type a))); [rewrite <- Hoa; exact A0|lia|rewrite <- Hoa; exact Al0|exact Ha].
        * apply (Hout _ _ Hina Hoa Hrga _ A0).
        * exists b1, (VBytes bs), (Some w), l. split; [exact E1|]. split; [exact Ru|]. split; [reflexivity|]. split; [exact Hlo|].
          split; [exact A1|]. split; [exact Al1|]. split; [exact L1|].
          rewrite Ex. cbn [keep_or_default]. rewrite <- Hna, En. exact R1.
    - destruct (Hcons b Ha (agree_out_refl _ _ _)) as (b1 & E1 & A1 & Al1 & L1 & R1).
      exists b1, (VBytes bs), None, l. split; [exact E1|]. split; [exact Hst|]. split; [reflexivity|]. split; [exact Hlo|].
      split; [exact A1|]. split; [exact Al1|]. split; [exact L1|]. rewrite Ex. exact R1.
  Qed.

  (** selecting a member and setting one of its labels *)
  Lemma select_label_spec m l b off : find_member (m_name m) cs = Some m -> In (l, m_name m) labels ->
    lookup_label l labels = Some (m_name m) -> live u b off ->
    exists b2 vd mv cur, (do b1 <- activate_member ms labels disc m b off; do b2 <- put_label disc b1 off l; Ok (b2, true)) = Ok (b2, true) /\
      read u b off = Ok (VUnion vd mv) /\ label_of disc vd = Some cur /\
      agree_out b b2 off s /\ live u b2 off /\ live (m_type m) b2 (off + m_off m) /\
      get_label disc b2 off = Ok l /\ live disc b2 off /\ read disc b2 off = Ok (label_bytes disc l) /\
      read (m_type m) b2 (off + m_off m) = Ok (keep_or_default (lookup_label cur labels) mv (m_name m) (m_type m)) /\
      read u b2 off = Ok (VUnion (label_bytes disc l) (Some (keep_or_default (lookup_label cur labels) mv (m_name m) (m_type m)))).
  Proof.
    intros Hf Hin Hx Hl. destruct (activate_spec m b off Hf Hl) as (b1 & vd & mv & cur & E1 & Ru & Hgl & Hlo & A1 & Al1 & L1 & R1).
    destruct u_inv as (Hgd & Hc & Hlw & Hiv & Hs & _).
    destruct (u_member _ _ Hf) as (Hf' & Him & _ & Ho & Hrg & Hgm).
    destruct (put_label_spec disc b1 off l (proj1 Hgd) Hc Hlw (u_label_shrunk _ _ Hin)) as (b2 & E2 & A2 & L2 & G2 & R2).
    { intros i Hi. apply Al1. lia. }
    exists b2, vd, mv, cur. rewrite E1. cbn [bind]. rewrite E2. cbn [bind]. split; [reflexivity|]. split; [exact Ru|]. split; [exact Hlo|].
    assert (S : same b1 (off + m_off m) b2 (off + m_off m) (msize (m_type m))) by (eapply agree_out_same; [exact A2|right; lia]).
    assert (Al2 : alloc b2 off s).
    { intros i Hi. destruct (i <? msize disc) eqn:Ei; [apply N.ltb_lt in Ei|apply N.ltb_ge in Ei].
      - apply (live_alloc _ (proj1 Hgd) _ _ L2 i Ei).
      - rewrite A2 by lia. apply Al1, Hi. }
    split; [intros j Hj; rewrite A2 by lia; apply A1; lia|].
    assert (L3 : live (m_type m) b2 (off + m_off m)) by (eapply live_local; eassumption).
    assert (R3 : read (m_type m) b2 (off + m_off m) = Ok (keep_or_default (lookup_label cur labels) mv (m_name m) (m_type m)))
      by (rewrite (read_local _ _ _ _ _ Hgm S); exact R1).
    destruct (union_intro b2 off l (m_name m) m _ _ Al2 L2 R2 G2 Hx Hf L3 R3) as [Lu Ruu].
    split; [exact Lu|]. split; [exact L3|]. split; [exact G2|]. split; [exact L2|]. split; [exact R2|]. split; [exact R3|exact Ruu].
  Qed.

  Lemma first_label_in x ls l : first_label x ls = Some l -> In (l, x) ls.
  Proof.
    induction ls as [|[k y] r IH]; cbn [first_label]; [discriminate|].
    destruct (String.eqb x y) eqn:E; [intros [= <-]; apply String.eqb_eq in E; subst; left; reflexivity|].
    intros H. right. apply IH, H.
  Qed.
  Lemma sorted_lookup ls l x : sorted_labels ls -> In (l, x) ls -> lookup_label l ls = Some x.
  Proof.
    induction ls as [|[k y] r IH]; [intros _ []|]. cbn [sorted_labels lookup_label In]. intros [H1 H2] [E|Hin].
    - inversion E; subst. rewrite Z.eqb_refl. reflexivity.
    - rewrite Forall_forall in H1. specialize (H1 _ Hin). cbn in H1.
      replace (Z.eqb l k) with false by (symmetry; apply Z.eqb_neq; lia). apply IH; assumption.
  Qed.

  Lemma loop_first x m ls b off : (forall p, In p ls -> In p labels) -> find_member x cs = Some m ->
    select_case_loop ms labels disc x ls b off =
    match first_label x ls with
    | None => Ok (b, false)
    | Some l => do b1 <- activate_member ms labels disc m b off; do b2 <- put_label disc b1 off l; Ok (b2, true)
    end.
  Proof.
    intros Hin Hf. induction ls as [|[k y] r IH]; [reflexivity|]. cbn [select_case_loop first_label].
    destruct u_inv as (_ & _ & _ & _ & _ & _ & _ & (_ & _ & _ & HF & _) & _). rewrite Forall_forall in HF.
    destruct (find_member_exists y cs) as [a Ha]; [apply (HF (k, y)), Hin; left; reflexivity|].
    destruct (u_member _ _ Ha) as (Ha' & _ & Hn & _). unfold member_at. rewrite Ha'. cbn [bind].
    rewrite Hn, (String.eqb_sym x y). destruct (String.eqb y x) eqn:E.
    - apply String.eqb_eq in E. subst y. assert (a = m) by congruence. subst a. reflexivity.
    - apply IH. intros p Hp. apply Hin. right. exact Hp.
  Qed.

  (** operator[](name): the named member becomes (or stays) active *)
  Lemma select_case_spec x m l b off : find_member x cs = Some m -> first_label x labels = Some l -> live u b off ->
    exists b2 vd mv cur, select_case u x b off = Ok (b2, true) /\ select_for_write u x b off = Ok b2 /\
      read u b off = Ok (VUnion vd mv) /\ label_of disc vd = Some cur /\
      agree_out b b2 off s /\ live u b2 off /\ live (m_type m) b2 (off + m_off m) /\
      get_label disc b2 off = Ok l /\ live disc b2 off /\ read disc b2 off = Ok (label_bytes disc l) /\
      read (m_type m) b2 (off + m_off m) = Ok (keep_or_default (lookup_label cur labels) mv x (m_type m)) /\
      read u b2 off = Ok (VUnion (label_bytes disc l) (Some (keep_or_default (lookup_label cur labels) mv x (m_type m)))).
  Proof.
    intros Hf Hl Hlive. destruct (u_member _ _ Hf) as (Hf' & Hin & Hn & _). subst x.
    pose proof (first_label_in _ _ _ Hl) as Hli.
    destruct u_inv as (_ & _ & _ & _ & _ & Hdn & Hnd & (_ & _ & Hsort & _) & _).
    pose proof (sorted_lookup _ _ _ Hsort Hli) as Hlk.
    destruct (select_label_spec m l b off Hf Hli Hlk Hlive) as (b2 & vd & mv & cur & E & H).
    exists b2, vd, mv, cur. assert (Es : select_case u (m_name m) b off = Ok (b2, true)).
    { unfold select_case, u, ms. fold ms. rewrite (loop_first _ m); [|auto|exact Hf]. rewrite Hl. exact E. }
    split; [exact Es|]. split; [|exact H].
    unfold select_for_write. replace (String.eqb (m_name m) UNION_DISCRIMINATOR) with false; [rewrite Es; reflexivity|].
    symmetry. apply String.eqb_neq. intros E'. cbn in Hnd. inversion Hnd as [|? ? Hni]. apply Hni. cbn. rewrite Hdn, <- E'. apply in_map, Hin.
  Qed.
  Lemma select_default_spec b off : live u b off -> d <> iv ->
    exists x m b2 vd mv cur, lookup_label d labels = Some x /\ find_member x cs = Some m /\
      select_default u b off = Ok (b2, true) /\
      read u b off = Ok (VUnion vd mv) /\ label_of disc vd = Some cur /\ agree_out b b2 off s /\ live u b2 off /\
      read u b2 off = Ok (VUnion (label_bytes disc d) (Some (keep_or_default (lookup_label cur labels) mv x (m_type m)))).
  Proof.
    intros Hlive Hd. destruct u_inv as (_ & _ & _ & _ & _ & _ & _ & (_ & _ & Hsort & _ & _ & Hdd & _) & _).
    specialize (Hdd Hd). destruct (lookup_label d labels) as [x|] eqn:Ex; [|congruence].
    destruct (u_label _ _ Ex) as (m & Hf). destruct (u_member _ _ Hf) as (Hf' & Hin & Hn & _).
    destruct (select_label_spec m d b off) as (b2 & vd & mv & cur & E & H1 & H2 & H3 & H4 & _ & _ & _ & _ & _ & H5); try assumption.
    { rewrite Hn; exact Hf. } { rewrite Hn; apply lookup_in, Ex. } { rewrite Hn; exact Ex. }
    exists x, m, b2, vd, mv, cur. split; [reflexivity|]. split; [exact Hf|].
    split.
    { unfold select_default, u, ms. fold ms. replace (Z.eqb d iv) with false by (symmetry; apply Z.eqb_neq; exact Hd).
      rewrite Ex. unfold member_at. rewrite Hf'. exact E. }
    split; [exact H1|]. split; [exact H2|]. split; [exact H3|]. split; [exact H4|]. rewrite <- Hn. exact H5.
  Qed.

  (** d(value): either refused (value unchanged), or an assertion, or the discriminator is set and the
      active member keeps its value -- provided a member is active *)
  Lemma select_disc_spec v b off : live u b off -> forall vd w, read u b off = Ok (VUnion vd (Some w)) ->
    (exists b2 x, select_disc u v b off = Ok (b2, true) /\ lookup_label v labels = Some x /\ agree_out b b2 off s /\ live u b2 off /\
       read u b2 off = Ok (VUnion (label_bytes disc v) (Some w))) \/
    (select_disc u v b off = Ok (b, false) /\ lookup_label v labels = None) \/
    (select_disc u v b off = Fail Throw /\ lookup_label v labels = None) \/
    (select_disc u v b off = Fail Assert /\ exists x cur y, lookup_label v labels = Some x /\
       label_of disc vd = Some cur /\ lookup_label cur labels = Some y /\ x <> y).
  Proof.
    intros Hl vd w Hr. destruct (union_state _ _ Hl) as (Ha & Hd & bs & l & Hrd & Hgl & Hlo & Hst).
    destruct u_inv as (Hgd & Hc & Hlw & Hiv & Hs & _).
    destruct (lookup_label l labels) as [y|] eqn:Ey; [|congruence].
    destruct Hst as (m & w' & Hf & Lm & Rm & Ru).
    assert (w' = w /\ VBytes bs = vd) as [-> <-] by (split; congruence).
    destruct (u_member _ _ Hf) as (Hf' & Him & Hn & Ho & Hrg & Hgm).
    unfold select_disc, u, ms. destruct (lookup_label v labels) as [x|] eqn:Ex.
    - rewrite Hgl. cbn [bind]. rewrite Ey. destruct (String.eqb y x) eqn:E.
      + apply String.eqb_eq in E. subst x y. left.
        destruct (put_label_spec disc b off v (proj1 Hgd) Hc Hlw (u_label_shrunk _ _ (lookup_in _ _ _ Ex))) as (b2 & E2 & A2 & L2 & G2 & R2).
        { intros i Hi. apply Ha. lia. }
        exists b2, (m_name m). rewrite E2. cbn [bind]. split; [reflexivity|]. split; [reflexivity|].
        assert (S : same b (off + m_off m) b2 (off + m_off m) (msize (m_type m))) by (eapply agree_out_same; [exact A2|right; lia]).
        assert (Al2 : alloc b2 off s).
        { intros i Hi. destruct (i <? msize disc) eqn:Ei; [apply N.ltb_lt in Ei|apply N.ltb_ge in Ei].
          - apply (live_alloc _ (proj1 Hgd) _ _ L2 i Ei).
          - rewrite A2 by lia. apply Ha, Hi. }
        split; [intros j Hj; apply A2; lia|].
        apply (union_intro b2 off v _ m w _ Al2 L2 R2 G2 Ex Hf); [eapply live_local; eassumption|].
        rewrite (read_local _ _ _ _ _ Hgm S). exact Rm.
      + right. right. right. split; [reflexivity|]. exists x, l, y. split; [reflexivity|]. split; [exact Hlo|]. split; [exact Ey|].
        apply String.eqb_neq in E. congruence.
    - destruct (Z.eqb d iv); [right; left; split; reflexivity|]. rewrite Hgl. cbn [bind]. rewrite Ey. right. right. left. split; reflexivity.
  Qed.
End Union.
