(** The steps on objects and the steps on values go together. *)
From Verif Require Import Base Types TypeBuild TypeSpec Compat TyInd TypeHeap TypeHeapSpec TypeHeapFacts.
From Coq Require Import Lia.

Definition root (l : list (option nat)) (k : nat) : Prop := In (Some k) l.

Definition var_rel (h : heap) (x : option nat) (y : option value) : Prop :=
  match x, y with
  | None, None => True
  | Some a, Some v =>
      exists c, get h a = Some c /\ managed c = pointer v /\ next_of c = next v /\ den h a (type_of v)
  | _, _ => False
  end.
Definition data_rel (h : heap) (xs : list (option nat)) (ys : list (option value)) (d : nat) (x : dtype) : Prop :=
  match x with
  | Own t => den h d t /\ kid_ok h (root xs) d
  | Follows i => nth_error xs i = Some (Some d) /\ exists v, nth_error ys i = Some (Some v) /\ pointer v = true
  end.
Record rel (s : st) (v : vst) : Prop := {
  r_vars : Forall2 (var_rel (the_heap s)) (vars s) (vvars v);
  r_inv : inv (the_heap s) (root (vars s));
  r_dist : forall i j a c, i <> j -> nth_error (vars s) i = Some (Some a) -> nth_error (vars s) j = Some (Some a) ->
    get (the_heap s) a = Some c -> is_prim (lab_of c) = true /\ managed c = true;
  r_data : Forall2 (data_rel (the_heap s) (vars s) (vvars v)) (datas s) (vdatas v) }.

Lemma Forall2_nth {A B} (R : A -> B -> Prop) l m : Forall2 R l m -> forall i,
  match nth_error l i, nth_error m i with Some x, Some y => R x y | None, None => True | _, _ => False end.
Proof.
  intros F. induction F as [|x y l m H F IH]; intros [|i]; cbn; auto. apply IH.
Qed.
Lemma Forall2_of_nth {A B} (R : A -> B -> Prop) l m : (forall i,
  match nth_error l i, nth_error m i with Some x, Some y => R x y | None, None => True | _, _ => False end) -> Forall2 R l m.
Proof.
  revert m. induction l as [|x l IH]; intros [|y m] H; [constructor|specialize (H O); contradiction|specialize (H O); contradiction|].
  constructor; [exact (H O)|]. apply IH. intros i. exact (H (S i)).
Qed.

Lemma var_at s v i : rel s v ->
  match vvar v i with
  | Some w => exists a c, nth_error (vars s) i = Some (Some a) /\ nth_error (vvars v) i = Some (Some w) /\
      get (the_heap s) a = Some c /\ managed c = pointer w /\ next_of c = next w /\ den (the_heap s) a (type_of w)
  | None => match nth_error (vars s) i with Some (Some _) => False | _ => True end
  end.
Proof.
  intros R. pose proof (Forall2_nth _ _ _ (r_vars _ _ R) i) as F. unfold vvar.
  destruct (nth_error (vars s) i) as [[a|]|], (nth_error (vvars v) i) as [[w|]|]; cbn in F; auto; try contradiction.
  destruct F as (c & G & M & Nx & D). exists a, c. auto 10.
Qed.

Lemma rel_below s v : rel s v -> below (root (vars s)) (the_heap s).
Proof.
  intros R k I. apply In_nth_error in I as [i E]. pose proof (Forall2_nth _ _ _ (r_vars _ _ R) i) as F. rewrite E in F.
  destruct (nth_error (vvars v) i) as [[w|]|]; try contradiction. destruct F as (c & G & _). eapply get_lt, G.
Qed.

Lemma obj_at s v o : rel s v ->
  match vobj v o with
  | Some t => exists a, at_obj s o = Some a /\ den (the_heap s) a t /\
      (snd o = [] /\ (exists w c, vvar v (fst o) = Some w /\ t = type_of w /\ nth_error (vars s) (fst o) = Some (Some a) /\
         nth_error (vvars v) (fst o) = Some (Some w) /\
         get (the_heap s) a = Some c /\ managed c = pointer w /\ next_of c = next w)
       \/ snd o <> [] /\ kid_ok (the_heap s) (root (vars s)) a)
  | None => at_obj s o = None
  end.
Proof.
  intros R. destruct o as [i p]. unfold vobj, at_obj. cbn [fst snd]. pose proof (var_at s v i R) as V.
  destruct (vvar v i) as [w|].
  - destruct V as (a & c & Ea & Ev & G & M & Nx & D). rewrite Ea.
    pose proof (follow_spec _ _ p (r_inv _ _ R) _ _ D) as F. destruct (part (type_of w) p) as [u|] eqn:Pu; [|exact F].
    destruct F as (b & Fb & Db & [[-> ->]|[Np K]]); exists b || exists a.
    + split; [exact Fb|]. split; [exact Db|]. left. split; [reflexivity|]. cbn in Pu. inversion Pu; subst u. exists w, c. auto 10.
    + split; [exact Fb|]. split; [exact Db|]. right. now split.
  - destruct (nth_error (vars s) i) as [[a|]|]; [contradiction|reflexivity|reflexivity].
Qed.

Lemma objs_at s v os : rel s v ->
  match all_some (map (vobj v) os) with
  | Some ts => exists l, all_some (map (at_obj s) os) = Some l /\ Forall2 (den (the_heap s)) l ts
  | None => all_some (map (at_obj s) os) = None
  end.
Proof.
  intros R. induction os as [|o os IH]; cbn.
  - exists []. split; [reflexivity|constructor].
  - pose proof (obj_at s v o R) as O. destruct (vobj v o) as [t|]; [|now rewrite O].
    destruct O as (a & -> & D & _). destruct (all_some (map (vobj v) os)) as [ts|]; [|now rewrite IH].
    destruct IH as (l & -> & F). exists (a :: l). split; [reflexivity|now constructor].
Qed.

(** A new variable. *)
Lemma kid_ok_more h h' (Rt : nat -> Prop) b d : ext h h' -> kid_ok h Rt d ->
  ((List.length h <= b)%nat \/ exists c, get h' b = Some c /\ is_prim (lab_of c) = true) ->
  kid_ok h' (fun k => Rt k \/ k = b) d.
Proof.
  intros X (e & G & M & P) B. exists e. split; [eapply ext_get; eassumption|]. split; [exact M|].
  intros [r| ->]; [auto|]. destruct B as [L|(c & Gc & Pc)]; [apply get_lt in G; lia|].
  rewrite (ext_get _ _ _ _ X G) in Gc. inversion Gc; now subst.
Qed.

Lemma root_app l b k : root (l ++ [Some b]) k -> root l k \/ k = b.
Proof. intros I. apply in_app_or in I as [I|[E|[]]]; [now left|right; congruence]. Qed.

Lemma rel_new s v h' b t c p nx : rel s v -> ext (the_heap s) h' ->
  inv h' (fun k => root (vars s) k \/ k = b) -> den h' b t ->
  get h' b = Some c -> managed c = p -> next_of c = nx ->
  ((List.length (the_heap s) <= b)%nat \/ exists c, get h' b = Some c /\ is_prim (lab_of c) = true /\ managed c = true) ->
  rel (St h' (vars s ++ [Some b]) (datas s)) (Vst (vvars v ++ [Some (Value p nx t)]) (vdatas v)).
Proof.
  intros R X I D G M Nx B. split; cbn [the_heap vars datas vvars vdatas].
  - apply Forall2_app.
    + eapply Forall2_impl; [|exact (r_vars _ _ R)]. intros [a|] [w|]; cbn; auto.
      intros (d & Gd & Md & Nd & Dd). exists d. split; [eapply ext_get; eassumption|]. split; [exact Md|]. split; [exact Nd|].
      eapply ext_den; eassumption.
    + constructor; [|constructor]. cbn. exists c. auto.
  - eapply inv_less; [|exact I]. intros k. apply root_app.
  - assert (Last : forall i a, nth_error (vars s ++ [Some b]) i = Some (Some a) ->
       nth_error (vars s) i = Some (Some a) \/ i = List.length (vars s) /\ a = b).
    { intros i a E. destruct (Nat.lt_ge_cases i (List.length (vars s))) as [L|L].
      - rewrite nth_error_app1 in E by exact L. now left.
      - rewrite nth_error_app2 in E by exact L. right. destruct (i - List.length (vars s))%nat as [|k] eqn:Ei; cbn in E.
        + inversion E. split; [lia|reflexivity].
        + destruct k; discriminate. }
    assert (Old : forall i a, nth_error (vars s) i = Some (Some a) -> (a < List.length (the_heap s))%nat).
    { intros i a E. eapply rel_below; [exact R|]. eapply nth_error_In, E. }
    assert (Mix : forall i d, nth_error (vars s) i = Some (Some b) -> get h' b = Some d -> is_prim (lab_of d) = true /\ managed d = true).
    { intros i d E Gd. apply Old in E. destruct B as [L|(e & Ge & Pe & Me)]; [lia|]. rewrite Gd in Ge. inversion Ge; now subst. }
    intros i j a d N Ei Ej Gd. apply Last in Ei, Ej. destruct Ei as [Ei|[Ei ->]], Ej as [Ej|[Ej Eb]]; subst; try (eapply Mix; eassumption).
    + eapply (r_dist _ _ R i j a d N Ei Ej). rewrite <- Gd. symmetry. apply ext_get_lt; [exact X|eapply Old, Ei].
    + lia.
  - eapply Forall2_impl; [|exact (r_data _ _ R)]. intros d [u|i]; cbn.
    + intros [Dd K]. split; [eapply ext_den; eassumption|]. eapply kid_ok_less; [|eapply kid_ok_more; [exact X|exact K|]; destruct B as [B|(e & Ge & Pe & _)]; [left; exact B|right; eauto]].
      intros k. apply root_app.
    + intros [E (w & Ew & Pw)]. split; [rewrite nth_error_app1; [exact E|apply nth_error_Some; congruence]|].
      exists w. split; [rewrite nth_error_app1; [exact Ew|apply nth_error_Some; congruence]|exact Pw].
Qed.

(** A changed variable. *)
Lemma set_nth_nth {A} (l : list A) i x j :
  nth_error (set_nth l i x) j = if Nat.eqb j i then match nth_error l i with Some _ => Some x | None => None end else nth_error l j.
Proof.
  revert i j. induction l as [|y l IH]; intros i j.
  - unfold set_nth. rewrite firstn_nil, skipn_nil. cbn. destruct (Nat.eqb j i), i, j; reflexivity.
  - destruct i as [|i].
    + unfold set_nth. cbn. destruct j; reflexivity.
    + change (set_nth (y :: l) (S i) x) with (y :: set_nth l i x). destruct j as [|j]; [reflexivity|]. cbn. apply IH.
Qed.
Lemma set_nth_same {A} (l : list A) i x : nth_error l i = Some x -> set_nth l i x = l.
Proof.
  revert i. induction l as [|y l IH]; intros [|i] E; cbn in E; try discriminate.
  - inversion E. reflexivity.
  - change (set_nth (y :: l) (S i) x) with (y :: set_nth l i x). now rewrite IH.
Qed.

Lemma rel_put s v i a c w h' nx t ks : rel s v ->
  nth_error (vars s) i = Some (Some a) -> nth_error (vvars v) i = Some (Some w) ->
  get (the_heap s) a = Some c -> is_prim (lab_of c) = false -> managed c = pointer w ->
  ext (the_heap s) h' -> inv h' (root (vars s)) -> (managed c = true -> nx = None) ->
  Forall (kid_ok h' (root (vars s))) ks -> Forall2 (den h') ks (kids t) ->
  rel (St (put h' a (Some (Cell (managed c) nx (label t) ks))) (vars s) (datas s))
      (Vst (set_nth (vvars v) i (Some (Value (pointer w) nx t))) (vdatas v)).
Proof.
  intros R Ei Ev G P M X I NxM KS D.
  assert (Ra : root (vars s) a) by (eapply nth_error_In, Ei).
  pose proof (ext_get _ _ _ _ X G) as G'. pose proof (get_lt _ _ _ G') as La.
  pose proof (root_no_kid h' _ a c I Ra G' (or_introl P)) as NK.
  set (c' := Cell (managed c) nx (label t) ks).
  assert (Other : forall b u, b <> a -> den (the_heap s) b u -> den (put h' a (Some c')) b u).
  { intros b u Nb Du. apply put_den; [exact La|exact NK|exact Nb|]. eapply ext_den; eassumption. }
  assert (Ga : get (put h' a (Some c')) a = Some c') by (rewrite get_put, Nat.eqb_refl by exact La; reflexivity).
  assert (Na : forall k, kid_ok h' (root (vars s)) k -> k <> a).
  { intros k (e & Ge & _ & Pe) ->. rewrite G' in Ge. inversion Ge; subst e. rewrite (Pe Ra) in P. discriminate. }
  assert (Da : den (put h' a (Some c')) a t).
  { apply (Den _ a t c' Ga eq_refl). change (kids_of c') with ks. clear Ga Other. clearbody c'. clear -D KS Na La NK. revert KS.
    induction D as [|k u ks ts Dk D IHD]; intros KS; constructor; inversion KS as [|? ? K1 K2]; subst.
    - apply put_den; [exact La|exact NK|now apply Na|exact Dk].
    - now apply IHD. }
  assert (K : forall k, kid_ok (the_heap s) (root (vars s)) k -> kid_ok (put h' a (Some c')) (root (vars s)) k).
  { intros k Kk. apply (kid_ok_ext _ _ _ _ X) in Kk. pose proof (Na k Kk) as Nk. destruct Kk as (e & Ge & Me & Pe).
    exists e. split; [|now split]. rewrite get_put by exact La. destruct (Nat.eqb_spec k a); [contradiction|exact Ge]. }
  split; cbn [the_heap vars datas vvars vdatas].
  - apply Forall2_of_nth. intros j. rewrite set_nth_nth. pose proof (Forall2_nth _ _ _ (r_vars _ _ R) j) as F.
    destruct (Nat.eqb_spec j i) as [->|Nj].
    + rewrite Ei, Ev. cbn. exists c'. split; [exact Ga|]. cbn. auto.
    + destruct (nth_error (vars s) j) as [[b|]|] eqn:Ej, (nth_error (vvars v) j) as [[w'|]|]; cbn in F |- *; auto.
      destruct F as (e & Ge & Me & Ne & De). destruct (Nat.eq_dec b a) as [->|Nb].
      * exfalso. destruct (r_dist _ _ R j i a c Nj Ej Ei G) as [P' _]. congruence.
      * exists e. split; [rewrite get_put by exact La; destruct (Nat.eqb_spec b a); [contradiction|eapply ext_get; eassumption]|].
        split; [exact Me|]. split; [exact Ne|]. now apply Other.
  - eapply inv_put; [exact I|exact Ra|exact G'|now left|]. intros d Ed. inversion Ed; subst d. split; [exact NxM|exact KS].
  - intros j k b d N Ej Ek Gd. destruct (Nat.eq_dec b a) as [->|Nb].
    + exfalso. destruct (r_dist _ _ R j k a c N Ej Ek G) as [P' _]. congruence.
    + eapply (r_dist _ _ R j k b d N Ej Ek). rewrite get_put in Gd by exact La.
      destruct (Nat.eqb_spec b a); [contradiction|]. rewrite <- Gd. symmetry. apply ext_get_lt; [exact X|].
      eapply rel_below; [exact R|]. eapply nth_error_In, Ej.
  - eapply Forall2_impl; [|exact (r_data _ _ R)]. intros d [u|j]; cbn.
    + intros [Dd Kd]. split; [|now apply K]. apply Other; [|exact Dd]. apply Na. eapply kid_ok_ext; eassumption.
    + intros [Ej (w' & Ew & Pw)]. split; [exact Ej|]. rewrite set_nth_nth. destruct (Nat.eqb_spec j i) as [->|Nj].
      * rewrite Ev. eexists. split; [reflexivity|]. cbn. congruence.
      * eauto.
Qed.

(** * What the changes do to the parts of a type *)

Lemma changed_prim c t mt : is_prim (label t) = true -> fst (changed c t mt) = t.
Proof. destruct t; cbn; try discriminate. destruct c; reflexivity. Qed.
Lemma changed_kids c t mt : kids (fst (changed c t mt)) = kids t \/ kids (fst (changed c t mt)) = (kids t ++ [mt])%list.
Proof.
  destruct c as [x|ls x d]; cbn [changed].
  - destruct t; cbn [add_member fst kids]; auto. destruct (has_member x ms); cbn [fst kids]; [now left|]. right. now rewrite map_app.
  - destruct t as [| | | | | | | |n s [|[[dn doff] disc] cases] labels dv iv dd|]; cbn [add_case_member fst kids]; auto.
    repeat match goal with
           | |- context [let (_, _) := ?e in _] => destruct e
           | |- context [fst (if ?b then _ else _)] => destruct b; cbn [fst kids]; [now left|]
           | |- context [fst (match check_labels ?a ?b ?c ?d with _ => _ end)] => destruct (check_labels a b c d); [|now left]
           end.
    all: try (now left).
    all: repeat match goal with |- context [fst (if ?b then _ else _)] => destruct b end; cbn [fst kids]; right; rewrite map_app; reflexivity.
Qed.
Lemma altered_prim c t nx : is_prim (label t) = true -> fst (altered c t nx) = (t, nx).
Proof. destruct t; cbn; try discriminate. destruct c; reflexivity. Qed.
Lemma altered_kids c t nx : kids (fst (fst (altered c t nx))) = kids t.
Proof.
  destruct c as [x|x v], t; cbn; try reflexivity. destruct nx as [k|]; cbn; [|reflexivity].
  destruct (add_enumerator _ x _) as [e r]. reflexivity.
Qed.
Lemma altered_next c t : snd (fst (altered c t None)) = None.
Proof. destruct c, t; reflexivity. Qed.

Lemma build_kids k ts t : build k ts = Ok t ->
  kids t = match k, ts with MChild _, [p] => kids p | _, _ => ts end.
Proof.
  destruct k; cbn; destruct ts as [|x [|y [|z l]]]; intros E; inversion E; subst; try reflexivity.
  - destruct x; inversion E; subst. reflexivity.
  - unfold union_new in E. destruct (assert_ (check_discriminator x)); [|discriminate]. cbn in E. inversion E; subst. reflexivity.
Qed.

(** * One step *)

Lemma rel_ext_data s v h' d t : rel s v -> ext (the_heap s) h' -> inv h' (root (vars s)) -> den h' d t ->
  kid_ok h' (root (vars s)) d ->
  rel (St h' (vars s) (datas s ++ [d])) (Vst (vvars v) (vdatas v ++ [Own t])).
Proof.
  intros R X I D K. split; cbn [the_heap vars datas vvars vdatas].
  - eapply Forall2_impl; [|exact (r_vars _ _ R)]. intros [a|] [w|]; cbn; auto.
    intros (e & Ge & Me & Ne & De). exists e. split; [eapply ext_get; eassumption|]. split; [exact Me|]. split; [exact Ne|].
    eapply ext_den; eassumption.
  - exact I.
  - intros i j a c N Ei Ej Gc. apply (r_dist _ _ R i j a c N Ei Ej). rewrite <- Gc. symmetry. apply ext_get_lt; [exact X|].
    eapply rel_below; [exact R|]. eapply nth_error_In, Ei.
  - apply Forall2_app; [|constructor; [now split|constructor]].
    eapply Forall2_impl; [|exact (r_data _ _ R)]. intros e [u|i]; cbn; auto.
    intros [De Ke]. split; [eapply ext_den; eassumption|eapply kid_ok_ext; eassumption].
Qed.

Lemma looks h l ts : Forall2 (den h) l ts -> all_some (map (look_type h) l) = Some ts.
Proof. intros F. apply all_some_Forall2. eapply Forall2_impl; [|exact F]. intros x y D. now apply den_look. Qed.

Lemma at_var s i : at_obj s (i, []) = match nth_error (vars s) i with Some (Some a) => Some a | _ => None end.
Proof. reflexivity. Qed.

Lemma step_rel s v o : rel s v -> snd (step s o) = snd (vstep v o) /\ rel (fst (step s o)) (fst (vstep v o)).
Proof.
  intros R. destruct s as [h xs ds]. pose proof (rel_below _ _ R) as B. cbn [the_heap vars] in B.
  destruct o as [k args|o|o|i c o|i c|i|o]; cbn [step vstep the_heap vars datas].
  - (* New *)
    pose proof (objs_at _ _ args R) as O. destruct (all_some (map (vobj v) args)) as [ts|]; [|rewrite O; now split].
    destruct O as (l & -> & F). cbn [the_heap] in F. rewrite (looks _ _ _ F).
    destruct (build k ts) as [t|e] eqn:Bd; [|now split].
    set (from := match k, l with MChild _, [a] => match get h a with Some c => kids_of c | None => [] end | _, _ => l end).
    assert (FD : Forall2 (den h) from (kids t)).
    { rewrite (build_kids _ _ _ Bd). subst from. destruct k; try exact F. inversion F as [|a u l' ts' D F' E1 E2]; subst; [constructor|].
      destruct F' as [|? ? ? ? D' F'']; [|constructor; [exact D|constructor; assumption]].
      apply den_inv in D as (c & -> & _ & K). exact K. }
    destruct (each_spec h from (kids t) (root xs) FD (r_inv _ _ R) B) as (h' & ks & -> & X & I & K & D).
    split; [reflexivity|]. cbn [fst].
    set (c := Cell false (match k with MEnum _ _ => Some 0 | _ => None end) (label t) ks).
    assert (Gc : get (h' ++ [Some c]) (List.length h') = Some c) by (rewrite get_snoc, Nat.eqb_refl; reflexivity).
    apply (rel_new (St h xs ds) v (h' ++ [Some c]) (List.length h') t c); cbn [the_heap vars datas]; try reflexivity; auto.
    + eapply ext_trans; [exact X|eexists; reflexivity].
    + apply inv_fresh; [exact I|]. split; [discriminate|exact K].
    + apply (Den _ _ t c Gc eq_refl). eapply ext_den_all; [eexists; reflexivity|exact D].
    + left. now apply ext_len.
  - (* Copy *)
    pose proof (obj_at _ _ o R) as O. destruct (vobj v o) as [t|]; [|rewrite O; now split].
    destruct O as (a & -> & D & K). cbn [the_heap vars] in D, K.
    destruct (den_inv _ _ _ D) as (c & G & _). pose proof (proj1 (den_look _ _ _) D) as V.
    destruct (clone_spec h _ _ _ _ V G h false (root xs) (ext_refl h) (r_inv _ _ R) B) as (h' & b & -> & CL).
    split; [reflexivity|]. cbn [fst]. destruct (cloned_get _ _ _ _ _ _ _ CL) as [ks Gb].
    apply (rel_new (St h xs ds) v h' b t _ _ _ R (cloned_ext _ _ _ _ _ _ _ CL) (cloned_root _ _ _ _ _ _ _ CL)
             (cloned_den _ _ _ _ _ _ _ CL) Gb eq_refl); [|left; exact (cloned_new _ _ _ _ _ _ _ CL)].
    cbn [next_of]. unfold vnext. destruct K as [[-> (w & c' & -> & _ & _ & _ & Gc & _ & Nx)]|[Np (d & Gd & Md & _)]].
    + rewrite G in Gc. inversion Gc; now subst.
    + rewrite G in Gd. inversion Gd; subst d. destruct (r_inv _ _ R a c G) as [Nx _]. rewrite (Nx Md).
      destruct (snd o); [contradiction|]. now destruct (vvar v (fst o)).
  - (* Point *)
    pose proof (obj_at _ _ o R) as O. destruct (vobj v o) as [t|]; [|rewrite O; now split].
    destruct O as (a & -> & D & K). cbn [the_heap vars] in D, K. destruct (den_inv _ _ _ D) as (c & G & _).
    destruct (ptr_spec h a t c (root xs) D G (r_inv _ _ R) B) as (h' & b & -> & [(-> & -> & P & M)|CL]);
      (split; [reflexivity|]); cbn [fst].
    + apply (rel_new (St h xs ds) v h a t c _ _ R (ext_refl h)); auto.
      * eapply inv_prim; [exact (r_inv _ _ R)|exact G|exact P].
      * now apply (r_inv _ _ R a c G).
      * right. eauto.
    + destruct (cloned_get _ _ _ _ _ _ _ CL) as [ks Gb].
      apply (rel_new (St h xs ds) v h' b t _ _ _ R (cloned_ext _ _ _ _ _ _ _ CL) (cloned_root _ _ _ _ _ _ _ CL)
             (cloned_den _ _ _ _ _ _ _ CL) Gb eq_refl eq_refl). left; exact (cloned_new _ _ _ _ _ _ _ CL).
  - (* Change *)
    pose proof (var_at _ _ i R) as Vi. rewrite at_var. cbn [vars].
    destruct (vvar v i) as [w|].
    2:{ cbn [vars] in Vi. destruct (nth_error xs i) as [[a|]|]; [contradiction|now split|now split]. }
    destruct Vi as (a & x & Ei & Ev & G & M & Nx & D). cbn [vars the_heap] in *. rewrite Ei.
    pose proof (obj_at _ _ o R) as O. destruct (vobj v o) as [mt|]; [|rewrite O; now split].
    destruct O as (b & -> & Db & _). cbn [the_heap] in Db.
    rewrite G, (proj1 (den_look _ _ _) D), (proj1 (den_look _ _ _) Db).
    destruct (den_inv _ _ _ D) as (x' & G' & L & KD). rewrite G in G'. inversion G'; subst x'.
    pose proof (changed_kids c (type_of w) mt) as CK. pose proof (changed_prim c (type_of w) mt) as CP.
    destruct (changed c (type_of w) mt) as [t' r]. cbn [fst] in CK, CP.
    destruct (is_prim (label (type_of w))) eqn:P.
    + rewrite (CP eq_refl), Nat.eqb_refl. split; [reflexivity|]. cbn [fst].
      rewrite <- L. destruct x as [m nx l ks]; cbn [managed next_of lab_of kids_of] in *. rewrite (put_same h a _ G).
      rewrite set_nth_same; [destruct v; exact R|]. rewrite Ev. now destruct w.
    + assert (KS : Forall (kid_ok h (root xs)) (kids_of x)) by exact (proj2 (r_inv _ _ R a x G)).
      assert (NN : managed x = true -> next w = None) by (rewrite <- Nx; exact (proj1 (r_inv _ _ R a x G))).
      rewrite <- L in P. rewrite Nx.
      destruct (Nat.eqb_spec (List.length (kids t')) (List.length (kids (type_of w)))) as [Le|Le].
      * split; [reflexivity|]. cbn [fst]. apply (rel_put (St h xs ds) v i a x w h); auto using ext_refl.
        -- exact (r_inv _ _ R).
        -- destruct CK as [->|CK]; [exact KD|]. rewrite CK, app_length in Le. cbn in Le. lia.
      * destruct (ptr_pointed h b mt (root xs) Db (r_inv _ _ R) B) as (h' & k & -> & X & I & Dk & Kk).
        split; [reflexivity|]. cbn [fst]. apply (rel_put (St h xs ds) v i a x w h'); auto.
        -- apply Forall_app. split; [eapply kids_ok_ext; eassumption|now constructor].
        -- destruct CK as [CK| ->]; [rewrite CK in Le; lia|]. apply Forall2_app; [eapply ext_den_all; eassumption|now constructor].
  - (* Alter *)
    pose proof (var_at _ _ i R) as Vi. rewrite at_var. cbn [vars].
    destruct (vvar v i) as [w|].
    2:{ cbn [vars] in Vi. destruct (nth_error xs i) as [[a|]|]; [contradiction|now split|now split]. }
    destruct Vi as (a & x & Ei & Ev & G & M & Nx & D). cbn [vars the_heap] in *. rewrite Ei.
    rewrite G, (proj1 (den_look _ _ _) D), Nx.
    destruct (den_inv _ _ _ D) as (x' & G' & L & KD). rewrite G in G'. inversion G'; subst x'.
    pose proof (altered_kids c (type_of w) (next w)) as CK. pose proof (altered_prim c (type_of w) (next w)) as CP.
    pose proof (altered_next c (type_of w)) as CN.
    assert (NN : managed x = true -> snd (fst (altered c (type_of w) (next w))) = None).
    { intros E. rewrite <- Nx. rewrite (proj1 (r_inv _ _ R a x G) E). exact CN. }
    destruct (altered c (type_of w) (next w)) as [[t' nx] r]. cbn [fst snd] in CK, CP, NN.
    split; [reflexivity|]. cbn [fst].
    destruct (is_prim (label (type_of w))) eqn:P.
    + specialize (CP eq_refl). inversion CP; subst t' nx. rewrite <- L, <- Nx.
      destruct x as [m nx l ks]; cbn [managed next_of lab_of kids_of] in *. rewrite (put_same h a _ G).
      rewrite set_nth_same; [destruct v; exact R|]. rewrite Ev, Nx. now destruct w.
    + rewrite <- L in P. apply (rel_put (St h xs ds) v i a x w h); auto using ext_refl.
      * exact (r_inv _ _ R).
      * exact (proj2 (r_inv _ _ R a x G)).
      * rewrite CK. exact KD.
  - (* Drop *)
    pose proof (var_at _ _ i R) as Vi. rewrite at_var. cbn [vars].
    destruct (vvar v i) as [w|].
    2:{ cbn [vars] in Vi. destruct (nth_error xs i) as [[a|]|]; [contradiction|now split|now split]. }
    destruct Vi as (a & x & Ei & Ev & G & M & Nx & D). cbn [vars the_heap] in *. rewrite Ei, G.
    split; [reflexivity|]. cbn [fst].
    assert (Ra : root xs a) by (eapply nth_error_In, Ei).
    assert (Sub : forall k, root (set_nth xs i None) k -> root xs k).
    { intros k I. apply In_nth_error in I as [j E]. rewrite set_nth_nth in E. destruct (Nat.eqb j i); [rewrite Ei in E; discriminate|]. eapply nth_error_In, E. }
    pose proof (get_lt _ _ _ G) as La.
    set (h' := if managed x then h else put h a None).
    assert (GS : forall b d, (managed x = true \/ b <> a) -> get h b = Some d -> get h' b = Some d).
    { intros b d N Gb. subst h'. destruct (managed x) eqn:Mx; [exact Gb|]. rewrite get_put by exact La.
      destruct (Nat.eqb_spec b a); [destruct N; [discriminate|contradiction]|exact Gb]. }
    assert (GB : forall b d, get h' b = Some d -> get h b = Some d).
    { intros b d Gb. subst h'. destruct (managed x); [exact Gb|]. rewrite get_put in Gb by exact La.
      destruct (Nat.eqb_spec b a); [discriminate|exact Gb]. }
    assert (DS : forall b u, (managed x = true \/ b <> a) -> den h b u -> den h' b u).
    { intros b u N Du. subst h'. destruct (managed x) eqn:Mx; [exact Du|]. destruct N as [N|N]; [discriminate|].
      apply put_den; [exact La| |exact N|exact Du]. eapply root_no_kid; [exact (r_inv _ _ R)|exact Ra|exact G|now right]. }
    assert (KN : forall k, kid_ok h (root xs) k -> managed x = true \/ k <> a).
    { intros k (e & Ge & Me & _). destruct (Nat.eq_dec k a) as [->|]; [|now right]. left. rewrite G in Ge. inversion Ge; now subst. }
    assert (KO : forall k, kid_ok h (root xs) k -> kid_ok h' (root (set_nth xs i None)) k).
    { intros k K. pose proof (KN k K) as N. destruct K as (e & Ge & Me & Pe). exists e. split; [now apply GS|]. split; [exact Me|]. auto. }
    assert (Unm : forall j b, j <> i -> nth_error xs j = Some (Some b) -> managed x = true \/ b <> a).
    { intros j b Nj Ej. destruct (Nat.eq_dec b a) as [->|]; [|now right]. left.
      exact (proj2 (r_dist _ _ R j i a x Nj Ej Ei G)). }
    split; cbn [the_heap vars datas vvars vdatas].
    + apply Forall2_of_nth. intros j. rewrite !set_nth_nth. pose proof (Forall2_nth _ _ _ (r_vars _ _ R) j) as F. cbn [vars the_heap] in F.
      destruct (Nat.eqb_spec j i) as [->|Nj]; [now rewrite Ei, Ev|].
      destruct (nth_error xs j) as [[b|]|] eqn:Ej, (nth_error (vvars v) j) as [[w'|]|]; cbn in F |- *; auto.
      destruct F as (e & Ge & Me & Ne & De). pose proof (Unm j b Nj Ej) as N. exists e. auto.
    + intros b d Gb. apply GB in Gb. destruct (r_inv _ _ R b d Gb) as [A C]. split; [exact A|].
      eapply Forall_impl; [|exact C]. exact KO.
    + intros j k b d N Ej Ek Gd. rewrite set_nth_nth in Ej, Ek.
      destruct (Nat.eqb j i); [rewrite Ei in Ej; discriminate|]. destruct (Nat.eqb k i); [rewrite Ei in Ek; discriminate|].
      exact (r_dist _ _ R j k b d N Ej Ek (GB _ _ Gd)).
    + pose proof (r_data _ _ R) as F. cbn [vars the_heap datas] in F. pose proof (r_dist _ _ R) as Dist. cbn [vars the_heap] in Dist. clear -F KO KN DS Ei Ev D M Ra G Sub GS Dist.
      induction F as [|d y ds ys Hd F IHF]; cbn; constructor; [|apply IHF].
      * destruct y as [u|j]; cbn in Hd |- *.
        -- destruct Hd as [Dd Kd]. split; [apply DS; [now apply KN|exact Dd]|now apply KO].
        -- destruct Hd as [Ej (w' & Ew & Pw)]. destruct (Nat.eqb_spec j i) as [->|Nj]; cbn.
           ++ rewrite Ei in Ej. inversion Ej; subst d. rewrite Ev in Ew. inversion Ew; subst w'.
              assert (Mx : managed x = true) by congruence.
              split; [apply DS; [now left|exact D]|]. exists x. split; [apply GS; [now left|exact G]|]. split; [exact Mx|].
              intros I. apply In_nth_error in I as [k Ek]. rewrite set_nth_nth in Ek.
              destruct (Nat.eqb_spec k i) as [Eq|Nk]; [rewrite Ei in Ek; discriminate|].
              exact (proj1 (Dist k i a x Nk Ek Ei G)).
           ++ rewrite !set_nth_nth. destruct (Nat.eqb_spec j i); [contradiction|]. eauto.
  - (* Data *)
    pose proof (obj_at _ _ o R) as O. destruct (vobj v o) as [t|]; [|rewrite O; now split].
    destruct O as (a & -> & D & K). cbn [the_heap vars] in D, K. pose proof (proj1 (den_look _ _ _) D) as V.
    destruct (rget_spec h (root xs) _ (r_inv _ _ R) t a V) as (b & -> & Db & KB).
    destruct (den_inv _ _ _ Db) as (c & Gb & _). rewrite Gb.
    assert (Case : kid_ok h (root xs) b /\ vdata v o t = Own (rget t)
      \/ (managed c = false /\ vdata v o t = Own (rget t))
      \/ (managed c = true /\ is_alias t = false /\ b = a /\ exists w, vvar v (fst o) = Some w /\ pointer w = true /\ snd o = [] /\
           nth_error xs (fst o) = Some (Some a) /\ nth_error (vvars v) (fst o) = Some (Some w))).
    { unfold vdata. destruct K as [[-> (w & c' & Ew & _ & Ea & Ev & Gc & M & _)]|[Np K]].
      - rewrite Ew. destruct KB as [[Al ->]|[Al KB]]; rewrite Al.
        + rewrite Gb in Gc. inversion Gc; subst c'. rewrite <- M, andb_true_r. destruct (managed c) eqn:Mc.
          * right. right. split; [reflexivity|]. split; [reflexivity|]. split; [reflexivity|]. exists w. auto 10.
          * right. left. auto.
        + left. split; [exact KB|]. now rewrite andb_false_r.
      - left. destruct (snd o); [contradiction|]. split; [|now destruct (vvar v (fst o))].
        destruct KB as [[_ ->]|[_ KB]]; assumption. }
    destruct Case as [[Kb ->]|[[Mc ->]|(Mc & Al & -> & w & Ew & Pw & So & Ea & Ev)]].
    + destruct Kb as (d & Gd & Md & Pd). rewrite Gb in Gd. inversion Gd; subst d. rewrite Md. split; [reflexivity|]. cbn [fst].
      apply (rel_ext_data (St h xs ds) v h b (rget t) R (ext_refl h) (r_inv _ _ R) Db). exists c. auto.
    + rewrite Mc. pose proof (proj1 (den_look _ _ _) Db) as Vb.
      destruct (clone_spec h _ _ _ _ Vb Gb h true (root xs) (ext_refl h) (r_inv _ _ R) B) as (h' & d & -> & CL).
      split; [reflexivity|]. cbn [fst].
      apply (rel_ext_data (St h xs ds) v h' d (rget t) R (cloned_ext _ _ _ _ _ _ _ CL) (cloned_inv _ _ _ _ _ _ _ CL) (cloned_den _ _ _ _ _ _ _ CL)).
      eapply cloned_kid; [exact B|exact CL].
    + rewrite Mc. split; [reflexivity|]. cbn [fst]. unfold vdata. rewrite So, Ew, Pw, Al. cbn [andb negb].
      destruct R as [R1 R2 R3 R4]. split; cbn [the_heap vars datas vvars vdatas] in *; auto.
      apply Forall2_app; [exact R4|]. constructor; [|constructor]. cbn. split; [exact Ea|]. eauto.
Qed.

Lemma rel0 : rel st0 vst0.
Proof.
  split; cbn; [constructor| | |constructor].
  - intros a c G. unfold get in G. destruct a; discriminate.
  - intros i j a c _ E. destruct i; discriminate.
Qed.

Lemma run_rel p : forall s v, rel s v -> snd (run s p) = snd (vrun v p) /\ rel (fst (run s p)) (fst (vrun v p)).
Proof.
  induction p as [|o p IH]; intros s v R; cbn [run vrun]; [now split|].
  destruct (step_rel s v o R) as [E R1]. destruct (step s o) as [s1 x], (vstep v o) as [v1 y]. cbn [fst snd] in *.
  destruct (IH s1 v1 R1) as [E2 R2]. destruct (run s1 p) as [s2 xs], (vrun v1 p) as [v2 ys]. cbn [fst snd] in *.
  split; [now subst|exact R2].
Qed.

Lemma rel_var s v i : rel s v -> var_type s i = vvar_type v i.
Proof.
  intros R. pose proof (var_at s v i R) as V. unfold var_type, vvar_type. destruct (vvar v i) as [w|]; cbn.
  - destruct V as (a & c & -> & _ & _ & _ & _ & D). now apply den_look.
  - destruct (nth_error (vars s) i) as [[a|]|]; [contradiction|reflexivity|reflexivity].
Qed.
Lemma rel_datum s v d : rel s v -> data_type s d = vdata_type v d.
Proof.
  intros R. pose proof (Forall2_nth _ _ _ (r_data _ _ R) d) as F. unfold data_type, vdata_type.
  destruct (nth_error (datas s) d) as [a|], (nth_error (vdatas v) d) as [[t|i]|]; cbn in F; try contradiction; [| |reflexivity].
  - now apply den_look.
  - destruct F as [E _]. rewrite <- (rel_var s v i R). unfold var_type. now rewrite E.
Qed.
