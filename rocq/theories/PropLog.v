(** C35 the log. *)
From Verif Require Import Base Log.

(** ** Specification *)
(** At least as severe: error, warning, info, debug. *)
Inductive as_severe : level -> level -> Prop :=
| as_same l : as_severe l l
| as_error l : as_severe XError l
| as_warning_info : as_severe XWarning XInfo
| as_debug l : as_severe l XDebug.
(** The level configured and whether printing is on after a history. *)
Inductive configured : list log_call -> level -> bool -> Prop :=
| cf_start : configured [] XWarning false
| cf_level h l b l' : configured h l b -> configured (h ++ [CLevel l']) l' b
| cf_print h l b b' : configured h l b -> configured (h ++ [CPrint b']) l b'
| cf_log h l b k cat msg ast : configured h l b -> configured (h ++ [CLog k cat msg ast]) l b.
(** What a message looks like in the log. *)
Definition logged (l : level) (cat msg : string) (ast : option (string * N * N)) (e : entry) : Prop :=
  e_level e = l /\ e_category e = cat /\ e_message e = msg /\
  match ast with Some (p, ln, col) => e_path e = p /\ e_line e = ln /\ e_column e = col | None => e_path e = ""%string /\ e_line e = 0 /\ e_column e = 0 end.
(** [kept h es ps]: the messages to be kept after the history [h] and those among them that are printed. *)
Inductive kept : list log_call -> list entry -> list entry -> Prop :=
| kp_start : kept [] [] []
| kp_level h es ps l : kept h es ps -> kept (h ++ [CLevel l]) es ps
| kp_print h es ps b : kept h es ps -> kept (h ++ [CPrint b]) es ps
| kp_keep h es ps l b k cat msg ast e : kept h es ps -> configured h l b -> as_severe k l -> logged k cat msg ast e ->
    kept (h ++ [CLog k cat msg ast]) (es ++ [e]) (if b then ps ++ [e] else ps)
| kp_drop h es ps l b k cat msg ast : kept h es ps -> configured h l b -> ~ as_severe k l -> kept (h ++ [CLog k cat msg ast]) es ps.
(** [chosen P xs ys]: [ys] are the elements of [xs] with [P], in order. *)
Inductive chosen {A} (P : A -> Prop) : list A -> list A -> Prop :=
| ch_nil : chosen P [] []
| ch_take x xs ys : P x -> chosen P xs ys -> chosen P (x :: xs) (x :: ys)
| ch_skip x xs ys : ~ P x -> chosen P xs ys -> chosen P (x :: xs) ys.

(** ** Proofs *)
Lemma severe_rank k l : as_severe k l <-> rank k <= rank l.
Proof. split; [intros H; destruct H; try (destruct l); cbn; lia|]. destruct k, l; cbn; intros H; try (constructor; fail); try lia. Qed.
Lemma rank_eq k l : rank k = rank l <-> k = l.
Proof. split; [|congruence]. destruct k, l; cbn; intros H; congruence. Qed.
Lemma filter_chosen {A} (P : A -> Prop) f (xs : list A) : (forall x, f x = true <-> P x) -> chosen P xs (filter f xs).
Proof.
  intros H. induction xs as [|x xs IH]; [constructor|]. cbn. destruct (f x) eqn:E; [apply ch_take; [apply H, E|exact IH]|apply ch_skip; [|exact IH]].
  rewrite <- H, E. discriminate.
Qed.
Lemma chosen_unique {A} (P : A -> Prop) xs ys : chosen P xs ys -> forall zs, chosen P xs zs -> ys = zs.
Proof. induction 1; intros zs Hz; inversion Hz; subst; try contradiction; f_equal; auto. Qed.
Lemma log_run_snoc h x : log_run (h ++ [x]) = log_step (log_run h) x.
Proof. unfold log_run. rewrite fold_left_app. reflexivity. Qed.
Lemma run_configured h : configured h (lc_level (log_run h)) (lc_print (log_run h)).
Proof.
  induction h as [|x h IH] using rev_ind; [constructor|]. rewrite log_run_snoc. destruct x; cbn.
  - unfold add_log. destruct (rank l <=? rank (lc_level (log_run h))); cbn; apply cf_log, IH.
  - eapply cf_level, IH.
  - eapply cf_print, IH.
Qed.
(** After every history the log holds exactly the messages that pass the level configured when they were logged, in
    order; std::cout received exactly those logged while printing was on. *)
Theorem C35_kept : forall h, exists ps, kept h (lc_log (log_run h)) ps /\ lc_cout (log_run h) = map entry_string ps.
Proof.
  intros h. induction h as [|x h IH] using rev_ind; [exists []; split; [constructor|reflexivity]|]. destruct IH as (ps & IH & Ep). rewrite log_run_snoc. pose proof (run_configured h) as Hc. destruct x; cbn.
  - unfold add_log. destruct (rank l <=? rank (lc_level (log_run h))) eqn:E.
    + cbn. exists (if lc_print (log_run h) then ps ++ [match ast with Some (p, ln, col) => mkEntry p ln col l cat msg | None => mkEntry "" 0 0 l cat msg end] else ps). split.
      * eapply kp_keep; [exact IH|exact Hc|apply severe_rank; apply N.leb_le, E|]. unfold logged. destruct ast as [[[p ln] col]|]; cbn; auto 10.
      * destruct (lc_print (log_run h)); [rewrite map_app, Ep; reflexivity|exact Ep].
    + exists ps. split; [|exact Ep]. eapply kp_drop; [exact IH|exact Hc|]. rewrite severe_rank. apply N.leb_gt in E. lia.
  - exists ps. split; [apply kp_level, IH|exact Ep].
  - exists ps. split; [apply kp_print, IH|exact Ep].
Qed.
(** The specification determines the log. *)
Lemma snoc_inv {A} (a b : list A) x y : a ++ [x] = b ++ [y] -> a = b /\ x = y.
Proof. apply app_inj_tail. Qed.
Lemma configured_unique h l b : configured h l b -> forall l' b', configured h l' b' -> l = l' /\ b = b'.
Proof.
  induction 1; intros l2 b2 H2; inversion H2; subst;
    try match goal with E : _ ++ [_] = [] |- _ => destruct (app_cons_not_nil _ _ _ (eq_sym E)) | E : [] = _ ++ [_] |- _ => destruct (app_cons_not_nil _ _ _ E) | E : _ ++ [_] = _ ++ [_] |- _ => apply snoc_inv in E as [-> E] end; try discriminate; auto;
    match goal with E : _ = _ |- _ => injection E as -> || injection E as <- | _ => idtac end;
    match goal with H : configured ?g _ _, IH : forall _ _, configured ?g _ _ -> _ |- _ => destruct (IH _ _ H); subst; auto end.
Qed.
Lemma logged_unique l cat msg ast e e' : logged l cat msg ast e -> logged l cat msg ast e' -> e = e'.
Proof.
  intros (A1 & A2 & A3 & A4) (B1 & B2 & B3 & B4). destruct e, e'. cbn in *. destruct ast as [[[p ln] col]|]; destruct A4 as (? & ? & ?), B4 as (? & ? & ?); congruence.
Qed.
Theorem C35_determined : forall h es ps es' ps', kept h es ps -> kept h es' ps' -> es = es' /\ ps = ps'.
Proof.
  intros h es ps es' ps' H. revert es' ps'. induction H as [|h es ps l H IH|h es ps b H IH|h es ps l b k cat msg ast e H IH Hc Hs He|h es ps l b k cat msg ast H IH Hc Hs]; intros es' ps' H2; inversion H2; subst;
    try match goal with E : _ ++ [_] = [] |- _ => destruct (app_cons_not_nil _ _ _ (eq_sym E)) | E : [] = _ ++ [_] |- _ => destruct (app_cons_not_nil _ _ _ E) | E : _ ++ [_] = _ ++ [_] |- _ => apply snoc_inv in E as [-> E] end;
    try discriminate; auto.
  - match goal with E : CLog _ _ _ _ = _ |- _ => injection E as -> -> -> -> end. pose proof (configured_unique _ _ _ Hc) as UC. pose proof (fun e' => logged_unique _ _ _ _ _ e' He) as UL. clear H Hc He H2.
    match goal with C : configured h ?l2 ?b2 |- _ => destruct (UC _ _ C) as [<- <-] end. match goal with L : logged _ _ _ _ ?e2 |- _ => rewrite <- (UL _ L) end.
    match goal with K : kept h ?a ?b |- _ => destruct (IH _ _ K) as [<- <-] end. auto.
  - match goal with E : CLog _ _ _ _ = _ |- _ => injection E as -> -> -> -> end. pose proof (configured_unique _ _ _ Hc) as UC. clear Hc. match goal with C : configured h ?l2 ?b2 |- _ => destruct (UC _ _ C) as [<- <-]; contradiction end.
  - match goal with E : CLog _ _ _ _ = _ |- _ => injection E as -> -> -> -> end. pose proof (configured_unique _ _ _ Hc) as UC. clear Hc. match goal with C : configured h ?l2 ?b2 |- _ => destruct (UC _ _ C) as [<- <-]; contradiction end.
Qed.
(** Retrieval by level: strict, the messages of the level; otherwise also the more severe ones. *)
Theorem C35_strict : forall c l, chosen (fun e => e_level e = l) (lc_log c) (get_log l true c).
Proof. intros c l. apply filter_chosen. intros e. cbn. rewrite orb_false_r, N.eqb_eq. apply rank_eq. Qed.
Theorem C35_at_least : forall c l, chosen (fun e => as_severe (e_level e) l) (lc_log c) (get_log l false c).
Proof. intros c l. apply filter_chosen. intros e. cbn [negb andb]. rewrite orb_true_iff, N.eqb_eq, N.ltb_lt, severe_rank. lia. Qed.
(** Retrieval for a level does not depend on the level configured later, and the log only grows. *)
Theorem C35_grows : forall h h', exists es, lc_log (log_run (h ++ h')) = lc_log (log_run h) ++ es.
Proof.
  intros h h'. induction h' as [|x h' IH] using rev_ind; [exists []; rewrite !app_nil_r; reflexivity|]. destruct IH as (es & IH). rewrite app_assoc, log_run_snoc. destruct x; cbn; eauto.
  unfold add_log. destruct (_ <=? _); cbn; [|eauto]. rewrite IH. eexists. rewrite <- app_assoc. reflexivity.
Qed.
Example C35_nontrivial : let h := [CLog XInfo "A" "first" None; CLevel XInfo; CLog XInfo "A" "second" (Some ("f.idl"%string, 3, 4)); CPrint true; CLog XError "B" "third" None; CLog XDebug "C" "fourth" None] in
  map e_message (lc_log (log_run h)) = ["second"; "third"]%string /\ map e_message (get_log XInfo true (log_run h)) = ["second"]%string /\ lc_cout (log_run h) = ["[ERROR] B: third"]%string.
Proof. repeat split. Qed.

Print Assumptions C35_kept.
Print Assumptions C35_determined.
Print Assumptions C35_strict.
Print Assumptions C35_at_least.
Print Assumptions C35_grows.
