(** Programs compute what the specification says. *)
From Verif Require Import Base Types TypeBuild TypeSpec Mem MemSpec TyInd Layout CompatFacts2 MemEqns MemFacts
  EnumFacts ConstructFacts CopyFacts DestroyFacts CompareFacts MoveFacts Ops OpsSpec UnionFacts SeqFacts CollectFacts Compat CompatFacts
  Hash HashSpec HashFacts MapOps MapSpec MapValue MapFacts PathFacts Realize Prog ProgSpec ConvSpec ConvFacts.

Lemma set_nth_same {A} n (x : A) l : (n < List.length l)%nat -> nth_error (set_nth n x l) n = Some x.
Proof. revert n; induction l as [|y l IH]; intros [|n] H; cbn in *; try lia; [reflexivity|apply IH; lia]. Qed.
Lemma set_nth_other {A} n m (x : A) l : n <> m -> nth_error (set_nth n x l) m = nth_error l m.
Proof. revert n m; induction l as [|y l IH]; intros [|n] [|m] H; cbn; try reflexivity; try congruence. apply IH. congruence. Qed.
Lemma set_nth_length {A} n (x : A) l : List.length (set_nth n x l) = List.length l.
Proof. revert n; induction l as [|y l IH]; intros [|n]; cbn; try reflexivity. rewrite IH. reflexivity. Qed.
Lemma nth_error_lt {A} (l : list A) n x : nth_error l n = Some x -> (n < List.length l)%nat.
Proof. intros H. apply nth_error_Some. congruence. Qed.

(** ** States *)
Definition rep_var (w : vvar) (h : list (option block)) (v : option var) : Prop :=
  match w with
  | VDead => v = None
  | VMoved => exists t id b, v = Some (mkVar t id false) /\ nth_error h id = Some (Some b)
  | VLive t x => exists id b, v = Some (mkVar t id true) /\ nth_error h id = Some (Some b) /\ good t /\ rget t = t /\
      live t b 0 /\ read t b 0 = Ok x
  end.
Definition rep (vs : vstate) (st : state) : Prop :=
  List.length vs = List.length (vars st) /\
  (forall x w v, nth_error vs x = Some w -> nth_error (vars st) x = Some v -> rep_var w (heap st) v) /\
  (forall x y v w, nth_error (vars st) x = Some (Some v) -> nth_error (vars st) y = Some (Some w) -> v_id v = v_id w -> x = y).

Lemma rep_get vs st x w : rep vs st -> nth_error vs x = Some w -> exists v, nth_error (vars st) x = Some v /\ rep_var w (heap st) v.
Proof.
  intros (Hl & Hr & _) Hx. destruct (nth_error (vars st) x) as [v|] eqn:E.
  - exists v. split; [reflexivity|]. eapply Hr; eassumption.
  - apply nth_error_None in E. apply nth_error_lt in Hx. lia.
Qed.
Lemma rep_live vs st x t v : rep vs st -> nth_error vs x = Some (VLive t v) ->
  exists id b, lookup st x = Ok (mkVar t id true) /\ nth_error (vars st) x = Some (Some (mkVar t id true)) /\
    nth_error (heap st) id = Some (Some b) /\ good t /\ rget t = t /\ live t b 0 /\ read t b 0 = Ok v.
Proof.
  intros Hr Hx. destruct (rep_get _ _ _ _ Hr Hx) as (u & Hu & id & b & -> & H). exists id, b. unfold lookup. rewrite Hu. auto.
Qed.
Lemma rep_block h w id b v : (forall u, v = Some u -> v_id u <> id) -> rep_var w h v -> rep_var w (set_nth id b h) v.
Proof.
  intros Hn. destruct w as [| |t x]; cbn [rep_var]; intros H; [exact H| |].
  - destruct H as (t & id' & b' & -> & H). exists t, id', b'. split; [reflexivity|]. rewrite set_nth_other; [exact H|].
    specialize (Hn _ eq_refl). cbn in Hn. congruence.
  - destruct H as (id' & b' & -> & H1 & H2). exists id', b'. split; [reflexivity|]. split; [|exact H2]. rewrite set_nth_other; [exact H1|].
    specialize (Hn _ eq_refl). cbn in Hn. congruence.
Qed.
(** A new content for the block of a live variable. *)
Lemma rep_put vs st x t id v b v' b0 : rep vs st -> nth_error vs x = Some (VLive t v) ->
  nth_error (vars st) x = Some (Some (mkVar t id true)) -> nth_error (heap st) id = Some (Some b0) ->
  live t b 0 -> read t b 0 = Ok v' -> rep (set_nth x (VLive t v') vs) (put_block st (mkVar t id true) b).
Proof.
  intros Hr Hx Hv Hh L R. pose proof (rep_live _ _ _ _ _ Hr Hx) as (id' & b' & _ & Hv' & _ & Hg & Hrg & _).
  rewrite Hv in Hv'. injection Hv' as <-. pose proof Hr as (H1 & H2 & H3).
  split; [rewrite set_nth_length; exact H1|]. cbn [put_block heap vars v_id]. split; [|exact H3].
  intros y w u Hw Hu. destruct (Nat.eq_dec x y) as [<-|Hn].
  - rewrite set_nth_same in Hw by (eapply nth_error_lt, Hx). injection Hw as <-. rewrite Hv in Hu. injection Hu as <-.
    exists id, b. split; [reflexivity|]. rewrite set_nth_same by (eapply nth_error_lt, Hh). auto.
  - rewrite set_nth_other in Hw by exact Hn. apply rep_block; [|eapply H2; eassumption].
    intros u' -> He. apply Hn. apply (H3 x y _ _ Hv Hu). cbn. congruence.
Qed.
Lemma nth_error_snoc {A} (l : list A) x n y : nth_error (l ++ [x]) n = Some y ->
  nth_error l n = Some y \/ n = List.length l /\ y = x.
Proof.
  intros H. destruct (Nat.lt_ge_cases n (List.length l)).
  - rewrite nth_error_app1 in H by assumption. auto.
  - rewrite nth_error_app2 in H by assumption. right. destruct (n - List.length l)%nat as [|k] eqn:E; cbn in H; [|destruct k; discriminate H].
    split; [lia|congruence].
Qed.
Lemma nth_error_grow {A} (l : list A) x n y : nth_error l n = Some y -> nth_error (l ++ [x]) n = Some y.
Proof. intros H. rewrite nth_error_app1; [exact H|eapply nth_error_lt, H]. Qed.
Lemma rep_id_lt vs st x v : rep vs st -> nth_error (vars st) x = Some (Some v) -> (v_id v < List.length (heap st))%nat.
Proof.
  intros (H1 & H2 & _) Hv. destruct (nth_error vs x) as [w|] eqn:E.
  - specialize (H2 _ _ _ E Hv). destruct w as [| |t y]; cbn in H2.
    + discriminate H2.
    + destruct H2 as (t & id & b & [= ->] & H). cbn. eapply nth_error_lt, H.
    + destruct H2 as (id & b & [= ->] & H & _). cbn. eapply nth_error_lt, H.
  - apply nth_error_None in E. apply nth_error_lt in Hv. lia.
Qed.
Lemma rep_add vs st t v b : rep vs st -> good t -> rget t = t -> live t b 0 -> read t b 0 = Ok v ->
  rep (vs ++ [VLive t v]) (add_var st t b).
Proof.
  intros Hr Hg Hrg L R. pose proof Hr as (H1 & H2 & H3). split; [cbn; rewrite !app_length; cbn; lia|]. cbn [add_var heap vars]. split.
  - intros x w u Hw Hu. apply nth_error_snoc in Hw as [Hw|[-> ->]].
    + apply nth_error_snoc in Hu as [Hu|[-> ->]]; [|apply nth_error_lt in Hw; lia].
      specialize (H2 _ _ _ Hw Hu). destruct w as [| |t' y]; cbn in *.
      * exact H2.
      * destruct H2 as (t' & id & b' & -> & H). exists t', id, b'. split; [reflexivity|apply nth_error_grow, H].
      * destruct H2 as (id & b' & -> & H & H'). exists id, b'. split; [reflexivity|]. split; [apply nth_error_grow, H|exact H'].
    + apply nth_error_snoc in Hu as [Hu|[_ ->]]; [apply nth_error_lt in Hu; lia|].
      exists (List.length (heap st)), b. split; [reflexivity|]. split; [rewrite nth_error_app2, Nat.sub_diag by lia; reflexivity|auto].
  - intros x y u w Hu Hw He. apply nth_error_snoc in Hu as [Hu|[-> [= ->]]]; apply nth_error_snoc in Hw as [Hw|[-> [= ->]]].
    + eapply H3; eassumption.
    + apply (rep_id_lt _ _ _ _ Hr) in Hu. cbn in He. lia.
    + apply (rep_id_lt _ _ _ _ Hr) in Hw. cbn in He. lia.
    + reflexivity.
Qed.

Lemma rep_dead vs st x w u id b : rep vs st -> nth_error vs x = Some w -> nth_error (vars st) x = Some (Some u) -> v_id u = id ->
  nth_error (heap st) id = Some (Some b) -> rep (set_nth x VDead vs) (mkSt (set_nth id None (heap st)) (set_nth x None (vars st))).
Proof.
  intros Hr Hx Hu Hid Hb. pose proof Hr as (H1 & H2 & H3). split; [cbn; rewrite !set_nth_length; exact H1|]. cbn [heap vars]. split.
  - intros y w' u' Hw Hu'. destruct (Nat.eq_dec x y) as [<-|Hn].
    + rewrite set_nth_same in Hw by (eapply nth_error_lt, Hx). rewrite set_nth_same in Hu' by (eapply nth_error_lt, Hu).
      injection Hw as <-. injection Hu' as <-. reflexivity.
    + rewrite set_nth_other in Hw by exact Hn. rewrite set_nth_other in Hu' by exact Hn. apply rep_block; [|eapply H2; eassumption].
      intros u0 -> He. apply Hn. eapply H3; [exact Hu|exact Hu'|congruence].
  - intros y z v0 w0 Hv Hw E. destruct (Nat.eq_dec x y) as [<-|Hy].
    { rewrite set_nth_same in Hv by (eapply nth_error_lt, Hu). discriminate Hv. }
    destruct (Nat.eq_dec x z) as [<-|Hz].
    { rewrite set_nth_same in Hw by (eapply nth_error_lt, Hu). discriminate Hw. }
    rewrite set_nth_other in Hv by assumption. rewrite set_nth_other in Hw by assumption. eapply H3; eassumption.
Qed.

Section Sim.
  Variable fc : prim -> prim -> list N -> list N.
  Variable strhash : skind -> list N -> N.

  (** ** References *)
  Definition step_rel (s : step) (r : rstep) : Prop :=
    match r with
    | RF f => s = fstep_step f
    | RKey T kv => exists kb ko, s = SKey kb ko /\ live T kb ko /\ read T kb ko = Ok kv
    | RAt T kv => exists kb ko, s = SAt kb ko /\ live T kb ko /\ read T kb ko = Ok kv
    end.
  Lemma keys_fit_rel p q : Forall2 step_rel p q -> forall t, keys_fit q t -> path_rel p (map erase q) t.
  Proof.
    induction 1 as [|s r p q Hs _ IH]; intros t Hk; [exact I|].
    destruct r as [[nm|nm|i]|T kv|T kv]; cbn [step_rel] in Hs.
    - subst s. cbn [map erase fstep_vstep fstep_step path_rel keys_fit] in *. split; [reflexivity|].
      destruct (rget t); try exact Hk; (destruct (find_member nm ms) as [m|]; [apply IH, Hk|exact Hk]).
    - subst s. cbn [map erase fstep_vstep fstep_step path_rel keys_fit] in *. split; [reflexivity|].
      destruct (rget t); try exact Hk; (destruct (find_member nm ms) as [m|]; [apply IH, Hk|exact Hk]).
    - subst s. cbn [map erase fstep_vstep fstep_step path_rel keys_fit] in *. split; [reflexivity|].
      destruct (rget t); try exact Hk; try (apply IH, Hk).
      + destruct (i =? 0); apply IH, Hk.
      + destruct (nth_error ms (N.to_nat i)) as [m|]; [apply IH, Hk|exact Hk].
    - destruct Hs as (kb & ko & -> & L & R). cbn [map erase path_rel keys_fit] in *. destruct (rget t); try contradiction Hk.
      destruct Hk as (-> & Hv & He & Hk). split; [|split; [exact He|apply IH, Hk]].
      rewrite <- live_rget in L. rewrite <- read_rget in R. repeat split; assumption.
    - destruct Hs as (kb & ko & -> & L & R). cbn [map erase path_rel keys_fit] in *. destruct (rget t); try contradiction Hk.
      destruct Hk as (-> & Hv & He & Hk). split; [|split; [exact He|apply IH, Hk]].
      rewrite <- live_rget in L. rewrite <- read_rget in R. repeat split; assumption.
  Qed.
  Lemma path_good q : forall t T, good t -> path_ty q t = Some T -> good T /\ rget T = T.
  Proof.
    induction q as [|s q IH]; intros t T Hg HT; cbn [path_ty] in HT.
    - injection HT as <-. split; [apply good_rget, Hg|apply rget_idem].
    - pose proof (good_rget _ Hg) as Hgr.
      assert (Hm : forall nm, match rget t with
                              | TStruct _ _ ms | TUnion _ _ ms _ _ _ _ =>
                                  match find_member nm ms with Some m => path_ty q (m_type m) | None => None end
                              | _ => None
                              end = Some T -> good T /\ rget T = T).
      { intros nm H. destruct (rget t) as [| | | | | | |sn s0 ms|un s0 ms labels dv iv d|]; try discriminate H;
        (destruct (find_member nm ms) as [m|] eqn:Ef; [|discriminate H]); (eapply IH; [|exact H]); apply find_member_in in Ef as [Hin _].
        - eapply good_struct; eassumption.
        - eapply good_union; eassumption. }
      destruct s as [nm|nm|i|kv|kv]; [apply (Hm nm HT)|apply (Hm nm HT)| | |].
      + destruct (rget t) as [| | |an c n|c bd| |x y|sn s0 ms| |]; try discriminate HT.
        * eapply IH; [eapply good_arr, Hgr|exact HT].
        * eapply IH; [eapply good_seq, Hgr|exact HT].
        * destruct (good_pair _ _ Hgr) as [G1 G2]. destruct (i =? 0); eapply IH; [exact G1|exact HT|exact G2|exact HT].
        * destruct (nth_error ms (N.to_nat i)) as [m|] eqn:E; [|discriminate HT]. eapply IH; [|exact HT].
          eapply good_struct; [exact Hgr|eapply nth_error_In, E].
      + destruct (rget t) as [| | | | |k w bd| | | |]; try discriminate HT. eapply IH; [eapply good_map, Hgr|exact HT].
      + destruct (rget t) as [| | | | |k w bd| | | |]; try discriminate HT. eapply IH; [eapply good_map, Hgr|exact HT].
  Qed.

  Definition points (T : ty) (w : value) (r : ty * block * N) : Prop :=
    exists m o, r = (T, m, o) /\ live T m o /\ read T m o = Ok w.
  Lemma fetch_sim vs st y p q T w vs' : rep vs st -> Forall2 step_rel p q -> vfetch_path strhash vs y q T w vs' ->
    exists r st', fetch_path fc strhash st y p = Ok (r, st') /\ points T w r /\ good T /\ rget T = T /\ rep vs' st' /\ vars st' = vars st.
  Proof.
    intros Hr Hp Hf. inversion Hf as [vs0 y0 q0 t v T0 w0 v' Hy Hk HT Hm]; subst.
    destruct (rep_live _ _ _ _ _ Hr Hy) as (id & b & El & Ev & Eb & Hg & Hrg & L & R).
    destruct (path_good _ _ _ Hg HT) as [HgT HrT].
    assert (P : updr (fun r w => points T w r) w t v' b 0 (on_path fc strhash p (fun t m off => Ok ((t, m, off), m)) t b 0)).
    { eapply path_spec_rel; [exact Hg|apply keys_fit_rel; eassumption|exact HT| |exact L|exact R|exact Hm].
      intros b0 o0 v0 a0 v0' L0 R0 [= <- <-]. exists (T, b0, o0), b0. split; [reflexivity|]. split; [exists b0, o0; auto|].
      split; [intros j _; reflexivity|auto]. }
    destruct P as (r & b' & E & Pr & A & L' & R').
    exists r, (put_block st (mkVar t id true) b'). unfold fetch_path. rewrite El. cbn [bind]. unfold block_of. cbn [v_id v_ty]. rewrite Eb.
    cbn [bind]. rewrite E. cbn [bind fst snd]. split; [reflexivity|]. split; [exact Pr|]. split; [exact HgT|]. split; [exact HrT|].
    split; [eapply rep_put; eassumption|reflexivity].
  Qed.
  Lemma plain_steps fs : Forall2 step_rel (map fstep_step fs) (map RF fs).
  Proof. induction fs; constructor; [reflexivity|assumption]. Qed.
  Lemma resolve_sim vs p q vs' : vresolve strhash vs p q vs' -> forall st, rep vs st ->
    exists ss st', resolve fc strhash st p = Ok (ss, st') /\ Forall2 step_rel ss q /\ rep vs' st' /\ vars st' = vars st.
  Proof.
    induction 1 as [vs|vs s r q vs' _ IH|vs k r T kv vs1 q vs' Hf _ IH|vs k r T kv vs1 q vs' Hf _ IH]; intros st Hr.
    - exists [], st. split; [reflexivity|]. auto.
    - destruct (IH st Hr) as (ss & st' & E & F & R & V). exists (fstep_step s :: ss), st'. cbn [resolve]. rewrite E. cbn [bind fst snd].
      split; [reflexivity|]. split; [constructor; [reflexivity|exact F]|auto].
    - destruct (fetch_sim _ _ _ _ _ _ _ _ Hr (plain_steps (snd k)) Hf) as (x & st1 & E1 & (m & o & -> & L & Rd) & _ & _ & R1 & V1).
      destruct (IH st1 R1) as (ss & st' & E & F & R & V). exists (SKey m o :: ss), st'. cbn [resolve]. unfold fetch. rewrite E1. cbn [bind fst snd].
      rewrite E. cbn [bind fst snd]. split; [reflexivity|]. split; [constructor; [exists m, o; auto|exact F]|]. split; [exact R|congruence].
    - destruct (fetch_sim _ _ _ _ _ _ _ _ Hr (plain_steps (snd k)) Hf) as (x & st1 & E1 & (m & o & -> & L & Rd) & _ & _ & R1 & V1).
      destruct (IH st1 R1) as (ss & st' & E & F & R & V). exists (SAt m o :: ss), st'. cbn [resolve]. unfold fetch. rewrite E1. cbn [bind fst snd].
      rewrite E. cbn [bind fst snd]. split; [reflexivity|]. split; [constructor; [exists m, o; auto|exact F]|]. split; [exact R|congruence].
  Qed.
  Lemma source_sim vs y T w vs' st : vsource strhash vs y T w vs' -> rep vs st ->
    exists m o st', fetch_source fc strhash st y = Ok ((T, m, o), st') /\ live T m o /\ read T m o = Ok w /\ good T /\ rget T = T /\
      rep vs' st' /\ vars st' = vars st.
  Proof.
    intros Hs Hr. inversion Hs as [vs0 y0 p q vs1 T0 w0 vs2 Hq Hf]; subst.
    destruct (resolve_sim _ _ _ _ Hq st Hr) as (ss & st1 & E1 & F & R1 & V1).
    destruct (fetch_sim _ _ _ _ _ _ _ _ R1 F Hf) as (x & st2 & E2 & (m & o & -> & L & Rd) & G & Hrg & R2 & V2).
    exists m, o, st2. unfold fetch_source. cbn [fst snd]. rewrite E1. cbn [bind fst snd]. split; [exact E2|].
    repeat (split; [assumption|]). congruence.
  Qed.

  (** ** Operations *)
  Lemma op_sim vs o r vs' st top : vop strhash vs o r vs' -> rep vs st ->
    exists f st', op_fun fc strhash st top o = Ok (f, st') /\ rep vs' st' /\ vars st' = vars st /\
      forall T, good T -> rget T = T -> op_ok T r -> does T f (op_value strhash T r).
  Proof.
    intros Hop Hr. destruct Hop as [vs x|vs n|vs x|vs y T w vs' Hs|vs y T w vs' Hs|vs l|vs y T w vs' Hs|vs x|vs|vs|vs y T w vs' Hs|vs y T w vs' Hs];
      cbn [op_fun]; try (destruct (source_sim _ _ _ _ _ _ Hs Hr) as (m & o & st' & E & L & R & G & Hrg & Hr' & V); rewrite E; cbn [bind fst snd]);
      eexists; eexists; (split; [reflexivity|]; split; [eassumption|]; split; [auto|]); intros T' Hg Hrt Hok; cbn [op_ok op_value] in *.
    - apply realizes_does with (g := fun _ => Some (scalar_value T' x)). apply set_realizes; assumption.
    - destruct T' as [| | | |c bd| | | | |]; try contradiction Hok. destruct Hok as [H1 H2].
      apply realizes_does with (g := resize_value c bd n). apply resize_realizes; assumption.
    - destruct T' as [| | | |c bd| | | | |]; try contradiction Hok.
      apply realizes_does with (g := push_value c bd (scalar_value c x)). apply push_scalar_realizes; assumption.
    - destruct T' as [| | | |c bd| | | | |]; try contradiction Hok. destruct Hok as (-> & H1 & H2 & H3).
      apply realizes_does with (g := push_value c bd w). rewrite <- live_rget in L. rewrite <- read_rget in R. apply push_realizes; assumption.
    - destruct Hok as (-> & H1 & H2). apply realizes_does with (g := fun _ => Some w).
      pose proof (assign_realizes fc T' m o w Hg H1 L R H2) as HA. intros b off v v' Lb Rb Hv.
      destruct (HA b off v v' Lb Rb Hv) as (b' & E' & H'). exists b'. split; [|exact H'].
      cbn [assign_op]. rewrite compat_refl. cbn [bind]. rewrite N.eqb_refl. destruct top; exact E'.
    - apply realizes_does with (g := disc_value T' l). apply disc_realizes; assumption.
    - destruct T' as [| | | | |k x bd| | | |]; try contradiction Hok. destruct Hok as (-> & H1 & H2).
      cbn [live read] in L, R. destruct L as [L1 L2]. apply bind_ok in R as (a & Ra & R). apply bind_ok in R as (c & Rc & R). injection R as <-.
      apply insert_does with (kv := a); [exact Hg|exact H1|split; [exact L1|split; [exact Ra|exact H2]]|reflexivity].
    - apply get_does, Hrt.
    - apply size_does; assumption.
    - apply case_does; assumption.
    - destruct Hok as (-> & H1). apply eq_does; assumption.
    - destruct T' as [| | | | |k x bd| | | |]; try contradiction Hok. destruct Hok as (-> & H1 & H2).
      apply has_key_does; [exact Hg|apply rget_idem|exact H1|]. rewrite <- live_rget in L. rewrite <- read_rget in R. split; [exact L|split; [exact R|exact H2]].
  Qed.

  (** ** Statements *)
  Lemma live_var vs st x : rep vs st -> is_live vs x = true -> exists v, nth_error (vars st) x = Some (Some v).
  Proof.
    intros Hr H. unfold is_live in H. destruct (nth_error vs x) as [[| |t v]|] eqn:E; try discriminate H.
    destruct (rep_live _ _ _ _ _ Hr E) as (id & b & _ & Ev & _). eauto.
  Qed.
  Lemma id_eqb vs st x y : rep vs st -> is_live vs x = true -> is_live vs y = true -> opt_eqb (id_of st x) (id_of st y) = Nat.eqb x y.
  Proof.
    intros Hr Hx Hy. destruct (live_var _ _ _ Hr Hx) as (u & Eu). destruct (live_var _ _ _ Hr Hy) as (w & Ew).
    unfold id_of. rewrite Eu, Ew. cbn [opt_eqb]. destruct Hr as (_ & _ & H3).
    destruct (Nat.eqb x y) eqn:E.
    - apply Nat.eqb_eq in E. subst y. rewrite Eu in Ew. injection Ew as <-. apply Nat.eqb_refl.
    - apply Nat.eqb_neq in E. apply Nat.eqb_neq. intros H. apply E. eapply H3; eassumption.
  Qed.
  Lemma separate_ids vs st x us : rep vs st -> is_live vs x = true -> forallb (fun u => is_live vs (fst u)) us = true ->
    separate opt_eqb (id_of st x) (map (fun u : nat * bool => (id_of st (fst u), snd u)) us) = separate Nat.eqb x us.
  Proof.
    intros Hr Hx. induction us as [|[y w] us IH]; intros H; [reflexivity|]. cbn [forallb map separate fst snd] in *.
    apply andb_true_iff in H as [Hy H]. rewrite (id_eqb _ _ _ _ Hr Hx Hy), IH by exact H. f_equal. f_equal.
    clear IH. induction us as [|[z w'] us IH]; [reflexivity|]. cbn [forallb map fst snd] in *. apply andb_true_iff in H as [Hz H].
    rewrite (id_eqb _ _ _ _ Hr Hy Hz), IH by exact H. reflexivity.
  Qed.
  Lemma fresh_alloc n : alloc (fresh n) 0 n.
  Proof. intros i Hi. cbn [fresh at_ N.add]. apply N.ltb_lt in Hi. rewrite Hi. discriminate. Qed.

  Lemma vselected_rget t v : vselected t v <-> vselected (rget t) v.
  Proof. induction t using ty_ind'; try reflexivity. cbn [rget vselected]. exact IHt. Qed.

  Lemma stmt_sim vs s a vs' st : exec fc strhash vs s a vs' -> rep vs st ->
    exists st', run_stmt fc strhash st s = Ok (a, st') /\ rep vs' st'.
  Proof.
    intros He Hr. destruct He as [vs t Ha Ho|vs y t v Hy Hc Hs|vs y t v Hy Hc|vs x t v Hx|vs x Hx|vs x y t v w Hn Hx Hy Hc Hs|vs y o v t v' c Hy Ha Ho Ec Hc Hv|
      vs x p o q vs1 r vs2 t v T a v' us Lx Lu Hsep Hq Hop Hx Hk HT Hok Hm].
    - assert (Hg : good t) by (split; [apply api_type_wf, Ha|exact Ho]). pose proof (good_rget _ Hg) as Hgr.
      destruct (construct_spec (rget t) Hgr (fresh (msize t)) 0) as (b & E & A & L & R).
      { rewrite msize_rget. apply fresh_alloc. }
      unfold run_stmt, new_data. rewrite E. cbn [bind d_type d_mem]. eexists. split; [reflexivity|].
      apply rep_add; try assumption; [apply rget_idem|]. rewrite R. f_equal. clear. induction t using ty_ind'; try reflexivity. exact IHt.
    - destruct (rep_live _ _ _ _ _ Hr Hy) as (id & b & El & Ev & Eb & Hg & Hrg & L & R).
      destruct (copy_spec fc t Hg Hc b 0 (fresh (msize t)) 0 L (selected_value _ Hg _ _ _ L R Hs) (fresh_alloc _)) as (b' & E & A & L' & R').
      cbn [run_stmt]. rewrite El. cbn [bind]. unfold block_of. cbn [v_id v_ty]. rewrite Eb. cbn [bind]. unfold copy_data. cbn [d_type d_mem].
      rewrite E. cbn [bind d_type d_mem]. eexists. split; [reflexivity|]. apply rep_add; try assumption. congruence.
    - destruct (rep_live _ _ _ _ _ Hr Hy) as (id & b & El & Ev & Eb & Hg & Hrg & L & R).
      assert (Hft : forall P : Prop, false = true -> P) by (intros P H; discriminate H).
      destruct (move_spec fc t Hg Hc b 0 (fresh (msize t)) 0 false (Hft _) L (conj (fresh_alloc _) (Hft _))) as (b' & E & A & L' & R').
      cbn [run_stmt]. rewrite El. cbn [bind]. unfold block_of. cbn [v_id v_ty]. rewrite Eb. cbn [bind]. unfold move_data. cbn [d_type d_mem].
      rewrite E. cbn [bind d_type d_mem]. eexists. split; [reflexivity|]. apply rep_add; try assumption; [|congruence].
      pose proof Hr as (H1 & H2 & H3). split; [cbn; rewrite !set_nth_length; exact H1|]. cbn [heap vars]. split.
      + intros x w u Hw Hu. destruct (Nat.eq_dec y x) as [<-|Hn].
        * rewrite set_nth_same in Hw by (eapply nth_error_lt, Hy). rewrite set_nth_same in Hu by (eapply nth_error_lt, Ev).
          injection Hw as <-. injection Hu as <-. exists t, id, b. auto.
        * rewrite set_nth_other in Hw by exact Hn. rewrite set_nth_other in Hu by exact Hn. eapply H2; eassumption.
      + assert (Hid : forall x u, nth_error (set_nth y (Some (mkVar t id false)) (vars st)) x = Some (Some u) ->
          exists u', nth_error (vars st) x = Some (Some u') /\ v_id u' = v_id u).
        { intros x u Hu. destruct (Nat.eq_dec y x) as [<-|Hn].
          - rewrite set_nth_same in Hu by (eapply nth_error_lt, Ev). injection Hu as <-. eauto.
          - rewrite set_nth_other in Hu by exact Hn. eauto. }
        intros x z u w Hu Hw E'. apply Hid in Hu as (u' & Hu & E1). apply Hid in Hw as (w' & Hw & E2). eapply H3; [exact Hu|exact Hw|congruence].
    - destruct (rep_live _ _ _ _ _ Hr Hx) as (id & b & El & Ev & Eb & Hg & Hrg & L & R).
      destruct (destroy_spec t b 0 Hg L) as (b' & E & _).
      cbn [run_stmt]. rewrite El. cbn [bind]. unfold block_of. cbn [v_id v_ty v_init]. rewrite Eb. cbn [bind]. unfold destroy_data. cbn [d_type d_mem].
      rewrite E. cbn [bind]. eexists. split; [reflexivity|]. eapply rep_dead; try eassumption; reflexivity.
    - destruct (rep_get _ _ _ _ Hr Hx) as (u & Eu & t & id & b & -> & Eb).
      cbn [run_stmt]. unfold lookup. rewrite Eu. cbn [bind]. unfold block_of. cbn [v_id v_ty v_init]. rewrite Eb. cbn [bind].
      eexists. split; [reflexivity|]. eapply rep_dead; try eassumption; reflexivity.
    - destruct (rep_live _ _ _ _ _ Hr Hx) as (id & b & El & Ev & Eb & Hg & Hrg & L & R).
      destruct (rep_live _ _ _ _ _ Hr Hy) as (id' & c & El' & Ev' & Eb' & _ & _ & L' & R').
      cbn [run_stmt]. rewrite El. cbn [bind]. unfold block_of. cbn [v_id v_ty]. rewrite Eb. cbn [bind]. rewrite El'. cbn [bind]. cbn [v_id v_ty]. rewrite Eb'. cbn [bind].
      destruct (Nat.eqb id id') eqn:Eid.
      { apply Nat.eqb_eq in Eid. subst id'. destruct Hr as (_ & _ & H3). contradiction Hn. eapply H3; [exact Ev|exact Ev'|reflexivity]. }
      unfold assign_data. cbn [d_type d_mem]. rewrite compat_refl. cbn [bind]. rewrite N.eqb_refl.
      destruct (assign_realizes fc t c 0 w Hg Hc L' R' Hs b 0 v w L R eq_refl) as (b' & E & A & L2 & R2).
      rewrite E. cbn [bind d_type d_mem]. eexists. split; [reflexivity|]. eapply rep_put; eassumption.
    - destruct (rep_live _ _ _ _ _ Hr Hy) as (id & b & El & Ev & Eb & Hg & Hrg & L & R).
      assert (Hgt : good (rget t)) by (apply good_rget; split; [apply api_type_wf, Ha|exact Ho]).
      destruct (converts_spec fc (rget t) Hgt o b 0 v v' (fresh (msize t)) 0 Hg L R Hv) as (b' & E & A & L' & R').
      { rewrite msize_rget. apply fresh_alloc. }
      cbn [run_stmt]. rewrite El. cbn [bind]. unfold block_of. cbn [v_id v_ty]. rewrite Eb. cbn [bind]. unfold convert_data. cbn [d_type d_mem].
      rewrite Ec. cbn [bind]. apply N.eqb_neq in Hc. rewrite Hc, E. cbn [bind d_type d_mem]. eexists. split; [reflexivity|]. apply rep_add; try assumption. apply rget_idem.
    - destruct (resolve_sim _ _ _ _ Hq st Hr) as (ss & st1 & E1 & F & R1 & V1).
      destruct (op_sim _ _ _ _ st1 (whole p) Hop R1) as (f & st2 & E2 & R2 & V2 & D).
      destruct (rep_live _ _ _ _ _ R2 Hx) as (id & b & El & Ev & Eb & Hg & Hrg & L & R).
      destruct (path_good _ _ _ Hg HT) as [HgT HrT].
      destruct (path_spec fc strhash ss f _ _ t T Hg (keys_fit_rel _ _ F _ Hk) HT (D T HgT HrT Hok) b 0 v a v' L R Hm) as (b' & E & A & L' & R').
      cbn [run_stmt]. fold us. rewrite (separate_ids _ _ _ _ Hr Lx Lu), Hsep. rewrite E1. cbn [bind fst snd]. rewrite E2. cbn [bind fst snd]. rewrite El. cbn [bind].
      unfold block_of. cbn [v_id v_ty]. rewrite Eb. cbn [bind]. unfold run_on. cbn [d_type d_mem]. rewrite E. cbn [bind fst snd d_mem].
      eexists. split; [reflexivity|]. eapply rep_put; eassumption.
  Qed.
  Lemma prog_sim vs prog l vs' : execs fc strhash vs prog l vs' -> forall st, rep vs st ->
    exists st', run fc strhash st prog = Ok (l, st') /\ rep vs' st'.
  Proof.
    induction 1 as [vs|vs s a vs1 r l vs2 He _ IH]; intros st Hr; [exists st; auto|].
    destruct (stmt_sim _ _ _ _ _ He Hr) as (st1 & E1 & R1). destruct (IH st1 R1) as (st2 & E2 & R2).
    exists st2. cbn [run]. rewrite E1. cbn [bind fst snd]. rewrite E2. auto.
  Qed.
  Lemma rep_empty : rep [] no_vars.
  Proof. split; [reflexivity|]. split; intros [|x]; cbn; discriminate. Qed.
End Sim.
