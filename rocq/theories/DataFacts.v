(** Facts about whole DynamicData objects. *)
From Verif Require Import Base Types TypeBuild TypeSpec Mem MemSpec TyInd Layout CompatFacts2 MemEqns MemFacts
  EnumFacts ConstructFacts CopyFacts DestroyFacts TightFacts CompareFacts MoveFacts Ops OpsSpec UnionFacts SeqFacts CollectFacts Compat CompatFacts
  Hash HashSpec HashFacts MapOps MapSpec MapValue MapFacts PathFacts Realize Prog ProgSpec ProgFacts ValueSpec ValueFacts DataSpec NumFacts.

Lemma holds_good d v : holds d v -> good (d_type d).
Proof. intros (H1 & H2 & _). split; assumption. Qed.
Lemma default_rget t : default_value (rget t) = default_value t.
Proof. induction t using ty_ind'; try reflexivity. exact IHt. Qed.

(** ** Default values *)
Lemma blank_struct nm s ms l : blank (TStruct nm s ms) (VNode l) <-> Forall2 (fun m x => blank (m_type m) x) ms l.
Proof.
  cbn [blank]. revert l; induction ms as [|[[n o] t] ms IH]; intros [|x l]; try (split; [tauto|intros H; inversion H]).
  - split; auto.
  - rewrite IH. split; [intros [H1 H2]; constructor; assumption|intros H; inversion H; subst; auto].
Qed.
Lemma default_wf t : good t -> wf_value t (default_value t).
Proof.
  intros Hg. destruct (construct_spec t Hg (fresh (msize t)) 0 (fresh_alloc _)) as (b & _ & _ & L & R). eapply live_wf_value; eassumption.
Qed.
Lemma zero_default n : zero_bytes (default_bytes n).
Proof. cbn. apply Forall_forall. intros x H. apply repeat_spec in H. exact H. Qed.
Lemma default_blank t : good t -> blank t (default_value t).
Proof.
  induction t as [p|nm sz vals|k bd|nm c n IHc|c bd IHc|k w bd IHk IHw|x y IHx IHy|nm s ms IHms|nm s ms labels dv iv d IHms|nm a IHa]
    using ty_ind'; intros Hg.
  - apply zero_default.
  - apply zero_default.
  - reflexivity.
  - cbn [blank default_value]. split; [apply repeat_length|]. apply Forall_forall. intros x H. apply repeat_spec in H. subst x. apply IHc. eapply good_arr, Hg.
  - reflexivity.
  - reflexivity.
  - destruct (good_pair _ _ Hg). cbn [blank default_value]. split; auto.
  - rewrite default_struct. apply blank_struct. rewrite Forall_forall in IHms.
    assert (H : forall m, In m ms -> blank (m_type m) (default_value (m_type m))).
    { intros m Hm. apply IHms; [exact Hm|eapply good_struct; eassumption]. }
    clear IHms Hg. induction ms as [|m ms IH]; [constructor|]. cbn [map]. constructor; [apply H; left; reflexivity|apply IH; intros m' Hm'; apply H; right; exact Hm'].
  - destruct (good_union_inv _ _ _ _ _ _ _ Hg) as (dn & disc & cs & -> & Gd & Hc & _ & Hiv & _ & _ & _ & _ & Hl).
    assert (Hd : label_of disc (label_bytes disc d) = Some d).
    { unfold label_of, label_bytes. rewrite label_roundtrip by (apply disc_sizes; [apply Gd|exact Hc]).
      f_equal. eapply default_shrunk; [apply Gd|exact Hc|exact Hl]. }
    rewrite default_union. cbn [blank]. destruct (Z.eqb d iv) eqn:Ed.
    { apply Z.eqb_eq in Ed. subst iv. exists d. auto. }
    destruct (lookup_label d labels) as [x|] eqn:Ex; [|exists d; auto].
    unfold with_member. destruct (union_case _ _ _ _ _ _ _ _ _ Hg Ex) as (dn' & disc' & cs' & m & _ & Hf & _). rewrite Hf.
    exists d, x. split; [exact Hd|]. split; [exact Ex|].
    apply (pick_member (fun t => blank t (default_value (m_type m))) x m _ Hf).
    apply find_member_in in Hf as [Hin _]. rewrite Forall_forall in IHms. apply (IHms m Hin). eapply good_union; eassumption.
  - cbn [blank default_value]. apply IHa. eapply good_alias, Hg.
Qed.
Lemma new_holds t : api_type t -> ok_ty t -> exists d, new_data t = Ok d /\ d_type d = rget t /\ holds d (default_value t) /\ tight (rget t) (d_mem d) 0.
Proof.
  intros Ha Ho. assert (Hg : good t) by (split; [apply api_type_wf, Ha|exact Ho]). pose proof (good_rget _ Hg) as Hgr.
  destruct (construct_spec (rget t) Hgr (fresh (msize t)) 0) as (b & E & A & L & R); [rewrite msize_rget; apply fresh_alloc|].
  destruct (construct_tight (rget t) Hgr (fresh (msize t)) 0) as (b' & E' & _ & _ & T); [rewrite msize_rget; apply fresh_alloc| |].
  { intros i Hi. cbn [fresh at_]. destruct (_ <? _); reflexivity. }
  rewrite E in E'. injection E' as <-. exists (mkData (rget t) b). unfold new_data. rewrite E. cbn [bind d_type d_mem].
  split; [reflexivity|]. split; [reflexivity|]. split; [|exact T]. destruct Hgr as [G1 G2]. unfold holds. cbn [d_type d_mem]. rewrite <- default_rget.
  repeat split; try assumption. apply rget_idem.
Qed.

(** ** Copy, move, assignment, comparison, destruction *)
Section FC.
  Variable fc : prim -> prim -> list N -> list N.
  Lemma copy_holds d v : holds d v -> copy_ok (d_type d) -> vselected (d_type d) v ->
    exists d', copy_data fc d = Ok d' /\ d_type d' = d_type d /\ holds d' v.
  Proof.
    intros Hh Hc Hs. pose proof (holds_good _ _ Hh) as Hg. destruct Hh as (G1 & G2 & Hr & L & R).
    destruct (copy_spec fc _ Hg Hc (d_mem d) 0 (fresh (msize (d_type d))) 0 L (selected_value _ Hg _ _ _ L R Hs) (fresh_alloc _)) as (b' & E & A & L' & R').
    exists (mkData (d_type d) b'). unfold copy_data. rewrite E. split; [reflexivity|]. split; [reflexivity|].
    unfold holds. cbn [d_type d_mem]. repeat split; try assumption. congruence.
  Qed.
  Lemma move_holds d v : holds d v -> copy_ok (d_type d) ->
    exists d', move_data fc d = Ok d' /\ d_type d' = d_type d /\ holds d' v.
  Proof.
    intros Hh Hc. pose proof (holds_good _ _ Hh) as Hg. destruct Hh as (G1 & G2 & Hr & L & R).
    assert (Hft : forall P : Prop, false = true -> P) by (intros P H; discriminate H).
    destruct (move_spec fc _ Hg Hc (d_mem d) 0 (fresh (msize (d_type d))) 0 false (Hft _) L (conj (fresh_alloc _) (Hft _))) as (b' & E & A & L' & R').
    exists (mkData (d_type d) b'). unfold move_data. rewrite E. split; [reflexivity|]. split; [reflexivity|].
    unfold holds. cbn [d_type d_mem]. repeat split; try assumption. congruence.
  Qed.
  Lemma assign_holds x y v w : holds x v -> holds y w -> d_type x = d_type y -> copy_ok (d_type x) -> vselected (d_type x) w ->
    exists x', assign_data fc x y = Ok x' /\ d_type x' = d_type x /\ holds x' w.
  Proof.
    intros Hx Hy Ht Hc Hs. pose proof (holds_good _ _ Hx) as Hg. destruct Hx as (G1 & G2 & Hr & L & R). destruct Hy as (_ & _ & _ & L' & R').
    rewrite <- Ht in L', R'. destruct (assign_realizes fc _ (d_mem y) 0 w Hg Hc L' R' Hs (d_mem x) 0 v w L R eq_refl) as (b' & E & A & L2 & R2).
    exists (mkData (d_type x) b'). unfold assign_data. rewrite <- Ht, compat_refl. cbn [bind]. rewrite N.eqb_refl, E. split; [reflexivity|].
    split; [reflexivity|]. unfold holds. cbn [d_type d_mem]. repeat split; assumption.
  Qed.
End FC.
Lemma eq_holds x y v w : holds x v -> holds y w -> d_type x = d_type y ->
  exists r, data_eq x y = Ok r /\ (nofloat (d_type x) -> (r = true <-> v = w)).
Proof.
  intros Hx Hy Ht. pose proof (holds_good _ _ Hx) as Hg. destruct Hx as (_ & _ & _ & L & R). destruct Hy as (_ & _ & _ & L' & R').
  rewrite <- Ht in L', R'. destruct (compare_spec _ Hg (d_mem x) 0 (d_mem y) 0 L L') as (r & E & Hr). exists r. split.
  - unfold data_eq. rewrite <- Ht. destruct (d_type x); try exact E. cbn [tname]. rewrite String.eqb_refl. exact E.
  - intros Hn. specialize (Hr Hn). rewrite Hr, R, R'. split; congruence.
Qed.
Lemma destroy_holds d v : holds d v -> exists b, destroy_data d = Ok b /\ (tight (d_type d) (d_mem d) 0 -> clean b 0 (msize (d_type d))).
Proof.
  intros Hh. pose proof (holds_good _ _ Hh) as Hg. destruct Hh as (_ & _ & _ & L & R).
  destruct (destroy_spec _ _ _ Hg L) as (b & E & _ & _ & T). exists b. split; [exact E|exact T].
Qed.
Lemma union_free_tight t : good t -> union_free t -> forall b off, live t b off -> tight t b off.
Proof.
  induction t as [p|nm sz vals|k bd|nm c n IHc|c bd IHc|k w bd IHk IHw|x y IHx IHy|nm s ms IHms|nm s ms labels dv iv d IHms|nm a IHa]
    using ty_ind'; intros Hg Hu b off L; try exact I.
  - cbn [tight live] in *. intros i Hi. apply IHc; [eapply good_arr, Hg|exact Hu|apply L, Hi].
  - cbn [live] in L. destruct L as (cap & size & m & [Ho _] & _ & _ & _ & _ & L). cbn [tight]. rewrite Ho.
    intros i Hi. apply IHc; [eapply good_seq, Hg|exact Hu|apply L, Hi].
  - cbn [live] in L. destruct L as (cap & size & m & [Ho _] & _ & _ & _ & _ & L). cbn [tight]. rewrite Ho.
    destruct (good_map _ _ _ Hg). destruct Hu. intros i Hi. destruct (L i Hi). split; [apply IHk|apply IHw]; assumption.
  - destruct (good_pair _ _ Hg). destruct Hu, L. cbn [tight]. split; [apply IHx|apply IHy]; assumption.
  - apply tight_struct. rewrite live_struct in L. rewrite Forall_forall in *.
    assert (Hu' : all_members union_free ms) by (apply all_members_iff, Hu). unfold all_members in Hu'. rewrite Forall_forall in Hu'.
    intros m Hm. apply IHms; [exact Hm|eapply good_struct; eassumption|apply Hu', Hm|apply L, Hm].
  - contradiction Hu.
  - cbn [tight live] in *. apply IHa; [eapply good_alias, Hg|exact Hu|exact L].
Qed.

(** ** A statement on a reference *)
Lemma run_on_holds {A} fc strhash d v p q T (f : ty -> block -> N -> res (A * block)) g a v' : holds d v ->
  path_rel p q (d_type d) -> path_ty q (d_type d) = Some T -> does T f g ->
  vmod strhash q g (d_type d) v = Some (a, v') ->
  exists d', run_on fc strhash d p f = Ok (a, d') /\ d_type d' = d_type d /\ holds d' v'.
Proof.
  intros Hh Hp HT Hd Hm. pose proof (holds_good _ _ Hh) as Hg. destruct Hh as (G1 & G2 & Hr & L & R).
  destruct (path_spec fc strhash p f g q _ T Hg Hp HT Hd (d_mem d) 0 v a v' L R Hm) as (b' & E & Ag & L' & R').
  exists (mkData (d_type d) b'). unfold run_on. rewrite E. cbn [bind fst snd]. split; [reflexivity|]. split; [reflexivity|].
  unfold holds. cbn [d_type d_mem]. repeat split; assumption.
Qed.
Lemma plain_rel fs T : forall t, path_ty (map fstep_vstep fs) t = Some T -> path_rel (map fstep_step fs) (map fstep_vstep fs) t.
Proof.
  induction fs as [|s fs IH]; intros t H; [exact I|].
  destruct s as [nm|nm|i]; cbn [map fstep_step fstep_vstep path_ty path_rel] in *; (split; [reflexivity|]).
  - destruct (rget t); try discriminate H; (destruct (find_member nm ms); [apply IH, H|discriminate H]).
  - destruct (rget t); try discriminate H; (destruct (find_member nm ms); [apply IH, H|discriminate H]).
  - destruct (rget t); try discriminate H; try (apply IH, H).
    + destruct (i =? 0); apply IH, H.
    + destruct (nth_error ms (N.to_nat i)); [apply IH, H|discriminate H].
Qed.

(** ** Variables *)
Lemma rep_holds vs st x t v : rep vs st -> nth_error vs x = Some (VLive t v) -> var_holds st x t v.
Proof.
  intros Hr Hx. destruct (rep_live _ _ _ _ _ Hr Hx) as (id & b & _ & Hv & Hb & [G1 G2] & Hrg & L & R).
  exists (mkVar t id true), b. cbn [v_ty v_init v_id]. repeat (split; [first [assumption|reflexivity]|]). unfold holds. cbn [d_type d_mem].
  repeat split; assumption.
Qed.

(** The heap only changes at the blocks of the variables a statement names, and at new blocks. *)
Definition untouched (xs : list nat) (st st' : state) : Prop :=
  forall u y, nth_error (vars st) y = Some (Some u) -> ~ In y xs ->
    (forall x w, In x xs -> nth_error (vars st) x = Some (Some w) -> v_id w <> v_id u) ->
    (v_id u < List.length (heap st))%nat ->
    nth_error (vars st') y = Some (Some u) /\ nth_error (heap st') (v_id u) = nth_error (heap st) (v_id u).
Section Frame.
  Variable fc : prim -> prim -> list N -> list N.
  Variable strhash : skind -> list N -> N.

  Lemma lookup_ok st x v : lookup st x = Ok v <-> nth_error (vars st) x = Some (Some v).
  Proof. unfold lookup. destruct (nth_error (vars st) x) as [[u|]|]; split; congruence. Qed.
  (** [st'] is [st] with other contents in the blocks of the variables [xs]. *)
  Definition upd_of (xs : list nat) (st st' : state) : Prop :=
    vars st' = vars st /\ List.length (heap st') = List.length (heap st) /\
    forall id, (forall x w, In x xs -> nth_error (vars st) x = Some (Some w) -> v_id w <> id) -> nth_error (heap st') id = nth_error (heap st) id.
  Lemma upd_of_refl xs st : upd_of xs st st.
  Proof. repeat split. Qed.
  Lemma upd_of_trans xs ys st st1 st2 : upd_of xs st st1 -> upd_of ys st1 st2 -> upd_of (xs ++ ys) st st2.
  Proof.
    intros (V1 & L1 & H1) (V2 & L2 & H2). split; [congruence|]. split; [congruence|]. intros id Hid. rewrite H2, H1; [reflexivity| |].
    - intros x w Hx. apply Hid. apply in_or_app. auto.
    - intros x w Hx. rewrite V1. apply Hid. apply in_or_app. auto.
  Qed.
  Lemma upd_put st x v b : lookup st x = Ok v -> upd_of [x] st (put_block st v b).
  Proof.
    intros Hv. apply lookup_ok in Hv. split; [reflexivity|]. cbn [put_block heap]. split; [apply set_nth_length|]. intros id Hid. apply set_nth_other.
    apply (Hid x v); [left; reflexivity|exact Hv].
  Qed.
  Lemma fetch_frame st y p r st' : fetch_path fc strhash st y p = Ok (r, st') -> upd_of [y] st st'.
  Proof.
    unfold fetch_path. intros H. apply bind_ok in H as (v & Hv & H). apply bind_ok in H as (b & Hb & H). apply bind_ok in H as (x & Hx & H).
    injection H as _ <-. apply upd_put, Hv.
  Qed.
  Lemma resolve_frame p : forall st q st', resolve fc strhash st p = Ok (q, st') -> upd_of (map fst (flat_map step_uses p)) st st'.
  Proof.
    induction p as [|s p IH]; intros st q st' H; cbn [resolve] in H.
    - injection H as _ <-. apply upd_of_refl.
    - destruct s as [f|k|k].
      + apply bind_ok in H as ([q1 st1] & H1 & H). injection H as _ <-. cbn [flat_map step_uses app]. eapply IH, H1.
      + apply bind_ok in H as ([r st1] & H1 & H). apply bind_ok in H as ([q1 st2] & H2 & H). injection H as _ <-. cbn [snd] in *.
        cbn [flat_map step_uses app map fst]. apply (upd_of_trans [fst k] _ st st1 st2); [eapply fetch_frame, H1|eapply IH, H2].
      + apply bind_ok in H as ([r st1] & H1 & H). apply bind_ok in H as ([q1 st2] & H2 & H). injection H as _ <-. cbn [snd] in *.
        cbn [flat_map step_uses app map fst]. apply (upd_of_trans [fst k] _ st st1 st2); [eapply fetch_frame, H1|eapply IH, H2].
  Qed.
  Lemma source_frame st y r st' : fetch_source fc strhash st y = Ok (r, st') -> upd_of (map fst (source_uses y)) st st'.
  Proof.
    unfold fetch_source, source_uses. intros H. apply bind_ok in H as ([q st1] & H1 & H). cbn [fst snd] in H. rewrite map_app.
    eapply upd_of_trans; [eapply resolve_frame, H1|]. eapply fetch_frame, H.
  Qed.
  Lemma op_frame st top o f st' : op_fun fc strhash st top o = Ok (f, st') -> upd_of (map fst (op_uses o)) st st'.
  Proof.
    destruct o; cbn [op_fun op_uses]; intros H;
      try (injection H as _ <-; apply upd_of_refl);
      (apply bind_ok in H as ([r st1] & H1 & H); injection H as _ <-; cbn [snd]; eapply source_frame, H1).
  Qed.
  Lemma upd_untouched xs st st' : upd_of xs st st' -> untouched xs st st'.
  Proof.
    intros (V & L & H) u y Hu Hy Hd Hlt. rewrite V. split; [exact Hu|]. apply H. exact Hd.
  Qed.
  Lemma add_untouched xs st t b : untouched xs st (add_var st t b).
  Proof.
    intros u y Hu _ _ Hlt. cbn [add_var vars heap]. rewrite !nth_error_app1; [auto|exact Hlt|eapply nth_error_lt, Hu].
  Qed.
  Lemma add_after xs st st1 t b : vars st1 = vars st \/ (exists x z, In x xs /\ vars st1 = set_nth x z (vars st)) -> heap st1 = heap st ->
    untouched xs st (add_var st1 t b).
  Proof.
    intros Hv Hh u y Hu Hy Hd Hlt. cbn [add_var vars heap]. rewrite Hh. rewrite (nth_error_app1 (heap st)) by exact Hlt. split; [|reflexivity].
    apply nth_error_grow. destruct Hv as [->|(x & z & Hx & ->)]; [exact Hu|]. rewrite set_nth_other; [exact Hu|]. intros ->. contradiction.
  Qed.
  Lemma stmt_untouched st s a st' : run_stmt fc strhash st s = Ok (a, st') -> untouched (mentions s) st st'.
  Proof.
    destruct s as [t|y|y|y t|y|x|x y|x p o]; cbn [run_stmt mentions]; intros H.
    - apply bind_ok in H as (d & _ & H). injection H as _ <-. apply add_untouched.
    - apply bind_ok in H as (v & _ & H). apply bind_ok in H as (b & _ & H). apply bind_ok in H as (d & _ & H). injection H as _ <-. apply add_untouched.
    - apply bind_ok in H as (v & _ & H). apply bind_ok in H as (b & _ & H). apply bind_ok in H as (d & _ & H). injection H as _ <-.
      apply add_after; [right; exists y; eexists; split; [left; reflexivity|reflexivity]|reflexivity].
    - apply bind_ok in H as (v & _ & H). apply bind_ok in H as (b & _ & H). apply bind_ok in H as (d & _ & H). injection H as _ <-. apply add_untouched.
    - apply bind_ok in H as (v & _ & H). injection H as _ <-. intros u z Hu _ _ _. cbn [vars heap]. split; [apply nth_error_grow, Hu|reflexivity].
    - apply bind_ok in H as (v & Hv & H). apply bind_ok in H as (b & _ & H). apply bind_ok in H as (d & _ & H). injection H as _ <-.
      apply lookup_ok in Hv. intros u z Hu Hz Hd _. cbn [vars heap]. rewrite !set_nth_other; [auto| |].
      + apply (Hd x v); [left; reflexivity|exact Hv].
      + intros ->. apply Hz. left. reflexivity.
    - apply bind_ok in H as (v & Hv & H). apply bind_ok in H as (b & _ & H). apply bind_ok in H as (w & _ & H). apply bind_ok in H as (c & _ & H).
      apply bind_ok in H as (d & _ & H). injection H as _ <-. intros u z Hu Hz Hd Hlt.
      apply (upd_untouched [x] _ _ (upd_put _ _ _ (d_mem d) Hv) u z Hu); [|intros x' w' [<-|[]]; apply Hd; left; reflexivity|exact Hlt].
      intros [<-|[]]. apply Hz. left. reflexivity.
    - destruct (separate _ _ _); [|discriminate H].
      apply bind_ok in H as ([q st1] & H1 & H). apply bind_ok in H as ([f st2] & H2 & H). cbn [fst snd] in *.
      apply bind_ok in H as (v & Hv & H). apply bind_ok in H as (b & _ & H). apply bind_ok in H as (r & _ & H). injection H as _ <-.
      apply upd_untouched. pose proof (upd_of_trans _ _ _ _ _ (resolve_frame _ _ _ _ H1) (op_frame _ _ _ _ _ H2)) as U.
      pose proof (upd_of_trans _ _ _ _ _ U (upd_put _ _ _ (d_mem (snd r)) Hv)) as (V & L & F). split; [exact V|]. split; [exact L|].
      intros id Hid. apply F. intros x' w' Hx'. apply Hid. apply in_app_or in Hx' as [Hx'|[<-|[]]]; [right; rewrite map_app; exact Hx'|left; reflexivity].
  Qed.

  (** Variables of a later state: an earlier one with the same block, a new block, or another reference to a named one. *)
  Lemma upd_vars xs st st' : upd_of xs st st' -> vars st' = vars st.
  Proof. intros H. apply H. Qed.
  Lemma stmt_ids st s a st' : run_stmt fc strhash st s = Ok (a, st') ->
    (List.length (heap st) <= List.length (heap st'))%nat /\
    forall z w, nth_error (vars st') z = Some (Some w) ->
      (exists w', nth_error (vars st) z = Some (Some w') /\ v_id w' = v_id w) \/ v_id w = List.length (heap st) \/
      (exists x w', In x (mentions s) /\ nth_error (vars st) x = Some (Some w') /\ v_id w' = v_id w).
  Proof.
    assert (Hadd : forall st1 t b, heap st1 = heap st -> (forall z w, nth_error (vars st1) z = Some (Some w) -> exists w', nth_error (vars st) z = Some (Some w') /\ v_id w' = v_id w) ->
      (List.length (heap st) <= List.length (heap (add_var st1 t b)))%nat /\
      forall z w, nth_error (vars (add_var st1 t b)) z = Some (Some w) ->
      (exists w', nth_error (vars st) z = Some (Some w') /\ v_id w' = v_id w) \/ v_id w = List.length (heap st) \/
      (exists x w', In x (mentions s) /\ nth_error (vars st) x = Some (Some w') /\ v_id w' = v_id w)).
    { intros st1 t b Hh Hv. cbn [add_var heap vars]. split; [rewrite app_length, Hh; lia|]. intros z w Hz. apply nth_error_snoc in Hz as [Hz|[_ [= ->]]]; [left; auto|].
      right. left. cbn. rewrite Hh. reflexivity. }
    destruct s as [t|y|y|y t|y|x|x y|x p o]; cbn [run_stmt mentions] in *; intros H.
    - apply bind_ok in H as (d & _ & H). injection H as _ <-. apply Hadd; [reflexivity|eauto].
    - apply bind_ok in H as (v & _ & H). apply bind_ok in H as (b & _ & H). apply bind_ok in H as (d & _ & H). injection H as _ <-. apply Hadd; [reflexivity|eauto].
    - apply bind_ok in H as (v & Hv & H). apply bind_ok in H as (b & _ & H). apply bind_ok in H as (d & _ & H). injection H as _ <-. apply lookup_ok in Hv.
      apply Hadd; [reflexivity|]. cbn [vars]. intros z w Hz. destruct (Nat.eq_dec y z) as [<-|Hn].
      + rewrite set_nth_same in Hz by (eapply nth_error_lt, Hv). injection Hz as <-. eauto.
      + rewrite set_nth_other in Hz by exact Hn. eauto.
    - apply bind_ok in H as (v & _ & H). apply bind_ok in H as (b & _ & H). apply bind_ok in H as (d & _ & H). injection H as _ <-. apply Hadd; [reflexivity|eauto].
    - apply bind_ok in H as (v & Hv & H). injection H as _ <-. apply lookup_ok in Hv. cbn [heap vars]. split; [lia|]. intros z w Hz.
      apply nth_error_snoc in Hz as [Hz|[_ [= ->]]]; [left; eauto|]. right. right. exists y, v. split; [left; reflexivity|]. auto.
    - apply bind_ok in H as (v & Hv & H). apply bind_ok in H as (b & _ & H). apply bind_ok in H as (d & _ & H). injection H as _ <-. cbn [heap vars].
      rewrite set_nth_length. split; [lia|]. intros z w Hz. left. apply lookup_ok in Hv. destruct (Nat.eq_dec x z) as [<-|Hn].
      + rewrite set_nth_same in Hz by (eapply nth_error_lt, Hv). discriminate Hz.
      + rewrite set_nth_other in Hz by exact Hn. eauto.
    - apply bind_ok in H as (v & Hv & H). apply bind_ok in H as (b & _ & H). apply bind_ok in H as (w & _ & H). apply bind_ok in H as (c & _ & H).
      apply bind_ok in H as (d & _ & H). injection H as _ <-. cbn [put_block heap vars]. rewrite set_nth_length. split; [lia|]. eauto.
    - destruct (separate _ _ _); [|discriminate H].
      apply bind_ok in H as ([q st1] & H1 & H). apply bind_ok in H as ([f st2] & H2 & H). cbn [fst snd] in *.
      apply bind_ok in H as (v & Hv & H). apply bind_ok in H as (b & _ & H). apply bind_ok in H as (r & _ & H). injection H as _ <-.
      pose proof (upd_of_trans _ _ _ _ _ (resolve_frame _ _ _ _ H1) (op_frame _ _ _ _ _ H2)) as U.
      pose proof (upd_of_trans _ _ _ _ _ U (upd_put _ _ _ (d_mem (snd r)) Hv)) as (V & L & F). rewrite V, L. split; [lia|]. eauto.
  Qed.
  (** A variable that is not named and whose block no other variable uses keeps its block. *)
  Lemma run_untouched prog : forall st l st' y u, run fc strhash st prog = Ok (l, st') ->
    (forall s, In s prog -> ~ In y (mentions s)) -> nth_error (vars st) y = Some (Some u) ->
    (forall x w, x <> y -> nth_error (vars st) x = Some (Some w) -> v_id w <> v_id u) ->
    (v_id u < List.length (heap st))%nat ->
    nth_error (vars st') y = Some (Some u) /\ nth_error (heap st') (v_id u) = nth_error (heap st) (v_id u).
  Proof.
    induction prog as [|s prog IH]; intros st l st' y u H Hm Hu Hd Hlt; cbn [run] in H.
    - injection H as _ <-. auto.
    - apply bind_ok in H as ([a st1] & H1 & H). apply bind_ok in H as ([l2 st2] & H2 & H). injection H as _ <-. cbn [fst snd] in *.
      assert (Hy : ~ In y (mentions s)) by (apply Hm; left; reflexivity).
      destruct (stmt_untouched _ _ _ _ H1 u y Hu Hy) as [Hu1 Hh1]; [intros x w Hx; apply Hd; intros ->; contradiction|exact Hlt|].
      destruct (stmt_ids _ _ _ _ H1) as [Hlen Hids].
      destruct (IH st1 l2 st2 y u H2) as [Hu2 Hh2]; [intros s' Hs'; apply Hm; right; exact Hs'|exact Hu1| |lia|].
      + intros x w Hx Hw. destruct (Hids x w Hw) as [(w' & Hw' & <-)|[->|(x' & w' & Hx' & Hw' & <-)]].
        * apply (Hd x w' Hx Hw').
        * lia.
        * apply (Hd x' w'); [intros ->; contradiction|exact Hw'].
      + split; [exact Hu2|]. congruence.
  Qed.
End Frame.

(** ** Paths *)
Lemma vmod_rget {A} strhash q (g : value -> option (A * value)) t v : q <> [] -> vmod strhash q g (rget t) v = vmod strhash q g t v.
Proof. destruct q as [|[nm|nm|i|kv|kv] q]; intros H; [congruence| | | | |]; cbn [vmod]; rewrite rget_idem; reflexivity. Qed.
Lemma vmod_app {A} strhash (g : value -> option (A * value)) q2 q1 : forall t T v, position q1 t <> None -> path_ty q1 t = Some T ->
  vmod strhash (q1 ++ q2) g t v = vmod strhash q1 (vmod strhash q2 g T) t v.
Proof.
  assert (Hm : forall (P : Prop) (o : option (list nat)) k, option_map (cons k) o <> None -> (o <> None -> P) -> P).
  { intros P [o|] k H H'; apply H'; [discriminate|]. cbn in H. congruence. }
  induction q1 as [|s q1 IH]; intros t T v Hp HT.
  - cbn [app vmod]. cbn [path_ty] in HT. injection HT as <-. destruct q2 as [|s q2]; [reflexivity|].
    symmetry. apply vmod_rget. discriminate.
  - destruct s as [nm|nm|i|kv|kv]; cbn [app vmod position path_ty] in *.
    + destruct (rget t); try congruence. destruct (find_member nm ms) as [m|]; [|discriminate HT]. destruct (member_index nm ms) as [k|]; [|congruence].
      apply (Hm _ _ _ Hp). intros Hp'. apply at_index_ext. intros x. apply IH; assumption.
    + destruct (rget t); try congruence. destruct (find_member nm ms) as [m|]; [|discriminate HT]. destruct (member_index nm ms) as [k|]; [|congruence].
      apply (Hm _ _ _ Hp). intros Hp'. apply at_index_ext. intros x. apply IH; assumption.
    + destruct (rget t); try congruence.
      * apply (Hm _ _ _ Hp). intros Hp'. apply at_index_ext. intros x. apply IH; assumption.
      * apply (Hm _ _ _ Hp). intros Hp'. apply at_index_ext. intros x. apply IH; assumption.
      * destruct (i =? 0) eqn:E0.
        -- apply (Hm _ _ _ Hp). intros Hp'. apply at_index_ext. intros x. apply IH; assumption.
        -- destruct (i =? 1); [|congruence]. apply (Hm _ _ _ Hp). intros Hp'. apply at_index_ext. intros x. apply IH; assumption.
      * destruct (nth_error ms (N.to_nat i)) as [m|]; [|discriminate HT].
        apply (Hm _ _ _ Hp). intros Hp'. apply at_index_ext. intros x. apply IH; assumption.
    + congruence.
    + congruence.
Qed.
Lemma path_ty_app q1 q2 : forall t T, path_ty (q1 ++ q2) t = Some T -> exists T1, path_ty q1 t = Some T1.
Proof.
  induction q1 as [|s q1 IH]; intros t T H; [eexists; reflexivity|].
  destruct s as [nm|nm|i|kv|kv]; cbn [app path_ty] in *.
  - destruct (rget t); try discriminate H; (destruct (find_member nm ms) as [m|]; [|discriminate H]); eapply IH, H.
  - destruct (rget t); try discriminate H; (destruct (find_member nm ms) as [m|]; [|discriminate H]); eapply IH, H.
  - destruct (rget t); try discriminate H; try (eapply IH, H).
    + destruct (i =? 0); eapply IH, H.
    + destruct (nth_error ms (N.to_nat i)) as [m|]; [|discriminate H]. eapply IH, H.
  - destruct (rget t); try discriminate H. eapply IH, H.
  - destruct (rget t); try discriminate H. eapply IH, H.
Qed.

(** The target of a statement is not changed by the evaluation of its operands. *)
Lemma vfetch_other strhash vs y q T w vs' x : vfetch_path strhash vs y q T w vs' -> x <> y -> nth_error vs' x = nth_error vs x.
Proof. intros H Hn. inversion H; subst. apply set_nth_other. congruence. Qed.
Lemma separate_in x us y w : separate Nat.eqb x us = true -> In (y, w) us -> x <> y.
Proof.
  induction us as [|[z w'] us IH]; intros H Hin; [contradiction Hin|]. cbn [separate] in H. apply andb_true_iff in H as [H H2]. apply andb_true_iff in H as [H1 _].
  destruct Hin as [[= -> ->]|Hin]; [|apply IH; assumption]. apply negb_true_iff, Nat.eqb_neq in H1. exact H1.
Qed.
Lemma vresolve_other strhash vs p q vs' : vresolve strhash vs p q vs' -> forall x, (forall y w, In (y, w) (flat_map step_uses p) -> x <> y) ->
  nth_error vs' x = nth_error vs x.
Proof.
  induction 1 as [vs|vs s r q vs' _ IH|vs k r T kv vs1 q vs' Hf _ IH|vs k r T kv vs1 q vs' Hf _ IH]; intros x Hx; [reflexivity|apply IH, Hx| |];
    (rewrite IH; [eapply vfetch_other; [exact Hf|]; eapply Hx; left; reflexivity|]; intros y w Hin; eapply Hx; right; exact Hin).
Qed.
Lemma vsource_other strhash vs y T w vs' x : vsource strhash vs y T w vs' -> (forall z u, In (z, u) (source_uses y) -> x <> z) -> nth_error vs' x = nth_error vs x.
Proof.
  intros H Hx. inversion H as [vs0 y0 p q vs1 T0 w0 vs2 Hq Hf]; subst. rewrite (vfetch_other _ _ _ _ _ _ _ x Hf).
  - eapply vresolve_other; [exact Hq|]. intros z u Hin. apply (Hx z u). apply in_or_app. left. exact Hin.
  - eapply Hx. apply in_or_app. right. left. reflexivity.
Qed.
Lemma vop_other strhash vs o r vs' x : vop strhash vs o r vs' -> (forall z u, In (z, u) (op_uses o) -> x <> z) -> nth_error vs' x = nth_error vs x.
Proof. destruct 1; intros Hx; try reflexivity; eapply vsource_other; eassumption. Qed.
(** What a statement does to its target. *)
Lemma exec_do_inv fc strhash vs x p o a vs' t v : exec fc strhash vs (Do x p o) a vs' -> nth_error vs x = Some (VLive t v) ->
  exists q vs1 r vs2 T v', vresolve strhash vs p q vs1 /\ vop strhash vs1 o r vs2 /\ keys_fit q t /\ path_ty (map erase q) t = Some T /\ op_ok T r /\
    vmod strhash (map erase q) (op_value strhash T r) t v = Some (a, v') /\ nth_error vs' x = Some (VLive t v').
Proof.
  intros He Hx. inversion He as [| | | | | | |vs0 x0 p0 o0 q vs1 r vs2 t0 v0 T a0 v' us Lx Lu Hsep Hq Hop Hx2 Hk HT Hok Hm]; subst.
  assert (Hn : nth_error vs2 x = nth_error vs x).
  { rewrite (vop_other _ _ _ _ _ x Hop), (vresolve_other _ _ _ _ _ Hq x); [reflexivity| |];
      intros z u Hin; eapply separate_in; try exact Hsep; apply in_or_app; [left|right]; exact Hin. }
  rewrite Hn, Hx in Hx2. injection Hx2 as <- <-. exists q, vs1, r, vs2, T, v'. repeat (split; [assumption|]).
  apply set_nth_same. eapply nth_error_lt. rewrite Hn. exact Hx.
Qed.
Lemma vresolve_plain strhash fs : forall vs p q vs', vresolve strhash vs (map PF fs ++ p) q vs' -> exists q2, q = map RF fs ++ q2 /\ vresolve strhash vs p q2 vs'.
Proof.
  induction fs as [|f fs IH]; intros vs p q vs' H; [exists q; auto|].
  cbn [map app] in H. inversion H; subst. destruct (IH _ _ _ _ H5) as (q2 & -> & H'). exists q2. auto.
Qed.
(** Everything outside the element reached by a plain prefix of the path is unchanged. *)
Lemma exec_confined fc strhash vs x fs p o a vs' t v ns : exec fc strhash vs (Do x (map PF fs ++ p) o) a vs' -> nth_error vs x = Some (VLive t v) ->
  position (map fstep_vstep fs) t = Some ns ->
  exists v', nth_error vs' x = Some (VLive t v') /\ forall ms, disjoint_pos ns ms -> elem ms v' = elem ms v.
Proof.
  intros He Hx Hp. destruct (exec_do_inv _ _ _ _ _ _ _ _ _ _ He Hx) as (q & vs1 & r & vs2 & T & v' & Hq & _ & _ & HT & _ & Hm & Hn).
  exists v'. split; [exact Hn|]. destruct (vresolve_plain _ _ _ _ _ _ Hq) as (q2 & -> & _).
  rewrite map_app, map_map in HT, Hm. change (fun x : fstep => erase (RF x)) with fstep_vstep in HT, Hm.
  destruct (path_ty_app _ _ _ _ HT) as (T1 & HT1). rewrite (vmod_app _ _ _ _ _ T1) in Hm by (rewrite ?Hp; congruence).
  rewrite (vmod_pos _ _ _ _ _ Hp) in Hm. destruct (at_pos_inv _ _ _ _ _ Hm) as (x0 & y0 & _ & _ & _ & H). exact H.
Qed.

(** ** Types without objects *)
Lemma concat_down_nil {A} n f : (forall i, i < N.of_nat n -> f i = Ok (@nil A)) -> concat_down n f = Ok [].
Proof.
  induction n as [|n IH]; intros H; [reflexivity|]. cbn [concat_down]. rewrite H by lia. cbn [bind]. rewrite IH; [reflexivity|]. intros i Hi. apply H. lia.
Qed.
Lemma scalar_dlist t : scalar_only t -> forall b off, dlist b t off = Ok [].
Proof.
  induction t as [p|nm sz vals|k bd|nm c n IHc|c bd IHc|k w bd IHk IHw|x y IHx IHy|nm s ms IHms|nm s ms labels dv iv d IHms|nm a IHa]
    using ty_ind'; intros Hs b off; try contradiction Hs.
  - apply dlist_prim.
  - apply dlist_enum.
  - rewrite dlist_arr. destruct (is_constructed_type c); [|reflexivity]. apply concat_down_nil. intros i _. apply IHc, Hs.
  - destruct Hs. rewrite dlist_pair, IHx, IHy by assumption. reflexivity.
  - rewrite dlist_struct. assert (H : all_members scalar_only ms) by (apply all_members_iff, Hs). unfold all_members in H.
    rewrite Forall_forall in *. assert (H' : forall m, In m ms -> dlist b (m_type m) (off + m_off m) = Ok []) by (intros m Hm; apply IHms; [exact Hm|apply H, Hm]).
    clear - H'. induction ms as [|m ms IH]; [reflexivity|]. cbn [dl_members]. rewrite IH, H'; [reflexivity|left; reflexivity|]. intros m' Hm'. apply H'. right. exact Hm'.
  - rewrite dlist_alias. apply IHa, Hs.
Qed.
Lemma scalar_copy_ok t : scalar_only t -> copy_ok t.
Proof.
  induction t as [p|nm sz vals|k bd|nm c n IHc|c bd IHc|k w bd IHk IHw|x y IHx IHy|nm s ms IHms|nm s ms labels dv iv d IHms|nm a IHa]
    using ty_ind'; intros Hs; try contradiction Hs; try exact I; cbn [copy_ok].
  - apply IHc, Hs.
  - destruct Hs. split; auto.
  - assert (H : all_members scalar_only ms) by (apply all_members_iff, Hs). change (copy_ok (TStruct nm s ms)). apply copy_ok_struct. unfold all_members in *. rewrite Forall_forall in *. auto.
  - apply IHa, Hs.
Qed.
Lemma scalar_selected t : good t -> scalar_only t -> forall b off, selected t b off.
Proof.
  induction t as [p|nm sz vals|k bd|nm c n IHc|c bd IHc|k w bd IHk IHw|x y IHx IHy|nm s ms IHms|nm s ms labels dv iv d IHms|nm a IHa]
    using ty_ind'; intros Hg Hs b off; try contradiction Hs; try exact I.
  - cbn [selected]. intros i _. apply IHc; [eapply good_arr, Hg|exact Hs].
  - destruct Hs, (good_pair _ _ Hg). cbn [selected]. split; auto.
  - apply selected_struct. assert (H : all_members scalar_only ms) by (apply all_members_iff, Hs). unfold all_members in *. rewrite Forall_forall in *.
    intros m Hm. apply IHms; [exact Hm|eapply good_struct; eassumption|apply H, Hm].
  - cbn [selected]. apply IHa; [eapply good_alias, Hg|exact Hs].
Qed.
Lemma self_assign_scalar fc d v : holds d v -> scalar_only (d_type d) -> exists d', assign_self fc d = Ok d' /\ d_type d' = d_type d /\ holds d' v.
Proof.
  intros Hh Hs. pose proof (holds_good _ _ Hh) as Hg. destruct Hh as (G1 & G2 & Hr & L & R).
  destruct (copy_spec fc _ Hg (scalar_copy_ok _ Hs) (d_mem d) 0 (d_mem d) 0 L (scalar_selected _ Hg Hs _ _) (live_alloc _ G1 _ _ L)) as (b' & E & A & L' & R').
  exists (mkData (d_type d) b'). unfold assign_self, destroy. rewrite (scalar_dlist _ Hs). cbn [bind kill_all]. rewrite E. cbn [bind]. split; [reflexivity|]. split; [reflexivity|].
  unfold holds. cbn [d_type d_mem]. repeat split; try assumption. congruence.
Qed.

(** ** Reading an element *)
Lemma get_elem fc strhash d v fs ns T w x o : holds d v -> position (map fstep_vstep fs) (d_type d) = Some ns ->
  path_ty (map fstep_vstep fs) (d_type d) = Some T -> elem ns v = Some w -> read_value T x w = Some o ->
  exists d', run_on fc strhash d (map fstep_step fs) (reading (get_scalar x)) = Ok (o, d') /\ d_type d' = d_type d /\ holds d' v.
Proof.
  intros Hh Hp HT He Hx. destruct (path_good _ _ _ (holds_good _ _ Hh) HT) as [HgT HrT].
  destruct (at_pos_def ns (asking (read_value T x)) v w o w He) as (v' & Hv); [unfold asking; rewrite Hx; reflexivity|].
  assert (v' = v) as ->.
  { clear - Hv. revert o v v' Hv; induction ns as [|i ns IH]; intros o v v' Hv; cbn [at_pos] in Hv.
    - unfold asking in Hv. destruct (read_value T x v); [|discriminate Hv]. injection Hv as _ <-. reflexivity.
    - unfold at_index in Hv. destruct v as [| |l|]; try discriminate Hv. destruct (nth_error l i) as [y|] eqn:Ey; [|discriminate Hv].
      destruct (at_pos ns (asking (read_value T x)) y) as [[a y']|] eqn:E; [|discriminate Hv]. cbn in Hv. injection Hv as _ <-. apply IH in E. subst y'.
      f_equal. clear - Ey. revert i Ey; induction l as [|z l IH]; intros [|i] H; try discriminate H; cbn in *; [congruence|]. f_equal. apply IH, H. }
  eapply run_on_holds; [exact Hh|eapply plain_rel, HT|exact HT|apply get_does, HrT|]. rewrite (vmod_pos _ _ _ _ _ Hp). exact Hv.
Qed.
Lemma set_elem fc strhash d v fs ns T w x : holds d v -> position (map fstep_vstep fs) (d_type d) = Some ns ->
  path_ty (map fstep_vstep fs) (d_type d) = Some T -> elem ns v = Some w -> scalar_ok T x ->
  exists d' v', run_on fc strhash d (map fstep_step fs) (writing (set_value fc x)) = Ok (ONone, d') /\ d_type d' = d_type d /\ holds d' v' /\
    elem ns v' = Some (scalar_value T x) /\ forall ms, disjoint_pos ns ms -> elem ms v' = elem ms v.
Proof.
  intros Hh Hp HT He Hx. destruct (path_good _ _ _ (holds_good _ _ Hh) HT) as [HgT HrT].
  set (g := fun _ : value => option_map (fun v' => (ONone, v')) (Some (scalar_value T x))).
  destruct (at_pos_def ns g v w ONone (scalar_value T x) He eq_refl) as (v' & Hv).
  destruct (run_on_holds fc strhash d v (map fstep_step fs) _ T (writing (set_value fc x)) g ONone v' Hh (plain_rel _ _ _ HT) HT) as (d' & E & Ht & H').
  - apply realizes_does with (g := fun _ => Some (scalar_value T x)). apply set_realizes; assumption.
  - rewrite (vmod_pos _ _ _ _ _ Hp). exact Hv.
  - exists d', v'. split; [exact E|]. split; [exact Ht|]. split; [exact H'|]. destruct (at_pos_inv _ _ _ _ _ Hv) as (x0 & y0 & _ & Hg & He' & Hd).
    injection Hg as <-. split; [exact He'|exact Hd].
Qed.

