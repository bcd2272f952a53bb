(** Facts about walking a tree of modules. *)
From Verif Require Import Base Types TypeBuild TypeSpec Mem Ops Module ModuleSpec ModuleFacts ModList ModListSpec.

Lemma modl_ind2 (P : modl -> Prop) : (forall n t i, (forall c x, In (c, Some x) i -> P x) -> P (Mod n t i)) -> forall m, P m.
Proof.
  intros H. fix IH 1. intros [n t i]. apply H. induction i as [|[c' [y|]] r IHr]; intros c x Hin.
  - contradiction Hin.
  - destruct Hin as [E|Hin]; [injection E as _ <-; apply IH|exact (IHr c x Hin)].
  - destruct Hin as [E|Hin]; [discriminate E|exact (IHr c x Hin)].
Qed.

(** The modules below [m], in the order of the walk. *)
Fixpoint below (p : place) (m : modl) {struct m} : list (place * modl) :=
  match m with
  | Mod _ _ inner =>
      (fix go (l : list (string * option modl)) : list (place * modl) :=
         match l with
         | [] => []
         | (_, None) :: r => go r
         | (c, Some x) :: r => (c :: p, x) :: below (c :: p) x ++ go r
         end) inner
  end.
Fixpoint below_list (p : place) (l : list (string * option modl)) : list (place * modl) :=
  match l with
  | [] => []
  | (_, None) :: r => below_list p r
  | (c, Some x) :: r => (c :: p, x) :: below (c :: p) x ++ below_list p r
  end.
Lemma below_eq p n t i : below p (Mod n t i) = below_list p i.
Proof. cbn [below]. induction i as [|[c [x|]] r IH]; [reflexivity| |exact IH]. cbn [below_list]. rewrite <- IH. reflexivity. Qed.

Fixpoint nulls_free (m : modl) : Prop :=
  match m with
  | Mod _ _ inner =>
      (fix go (l : list (string * option modl)) : Prop :=
         match l with [] => True | (_, None) :: _ => False | (_, Some x) :: r => nulls_free x /\ go r end) inner
  end.
Lemma nulls_free_in n t i : nulls_free (Mod n t i) <-> (forall c, ~ In (c, None) i) /\ forall c x, In (c, Some x) i -> nulls_free x.
Proof.
  cbn [nulls_free]. induction i as [|[c [x|]] r IH].
  - split; [intros _; split; [intros c []|intros c x []]|trivial].
  - rewrite IH. split.
    + intros (H1 & H2 & H3). split; [intros c' [E|E]; [discriminate E|exact (H2 _ E)]|]. intros c' x' [E|E]; [injection E as <- <-; exact H1|exact (H3 _ _ E)].
    + intros [H1 H2]. split; [apply (H2 c); left; reflexivity|]. split; [intros c' E; apply (H1 c'); right; exact E|intros c' x' E; apply (H2 c'); right; exact E].
  - split; [intros []|]. intros [H _]. apply (H c). left. reflexivity.
Qed.
Lemma fold_res_app {S} (f : S -> place * modl -> S) a b s : fold_left f (a ++ b) s = fold_left f b (fold_left f a s).
Proof. apply fold_left_app. Qed.
Lemma walk_spec {S} (v : S -> place -> modl -> S) : forall m, nulls_free m -> forall p s,
  for_each_submodule v p m true s = Ok (fold_left (fun s e => v s (fst e) (snd e)) (below p m) s).
Proof.
  intros m. induction m as [n t i IH] using modl_ind2. intros Hn p s. apply nulls_free_in in Hn as [H1 H2]. rewrite below_eq. cbn [for_each_submodule]. revert s.
  induction i as [|[c [x|]] r IHr]; intros s; [reflexivity| |exfalso; apply (H1 c); left; reflexivity].
  rewrite (IH c x ltac:(left; reflexivity) (H2 c x ltac:(left; reflexivity))). cbn [bind below_list fold_left fst snd]. rewrite fold_left_app.
  apply IHr; [intros c' x' E; apply (IH c'); right; exact E|intros c' E; apply (H1 c'); right; exact E|intros c' x' E; apply (H2 c'); right; exact E].
Qed.
Lemma children_spec {S} (v : S -> place -> modl -> S) n t i p : nulls_free (Mod n t i) -> forall s,
  for_each_submodule v p (Mod n t i) false s = Ok (fold_left (fun s e => match snd e with Some x => v s (fst e :: p) x | None => s end) i s).
Proof.
  intros Hn. apply nulls_free_in in Hn as [H1 H2]. cbn [for_each_submodule]. induction i as [|[c [x|]] r IHr]; intros s; [reflexivity| |exfalso; apply (H1 c); left; reflexivity].
  cbn [bind fold_left fst snd]. apply IHr; [intros c' E; apply (H1 c'); right; exact E|intros c' x' E; apply (H2 c'); right; exact E].
Qed.

(** The modules of a tree are the places below. *)
Fixpoint down (m : modl) (qs : list string) : option modl :=
  match qs with [] => Some m | c :: r => match assoc c (m_inner m) with Some (Some x) => down x r | _ => None end end.
Lemma mod_at_app root qs : forall p, mod_at root (rev qs ++ p) = match mod_at root p with Some m => down m qs | None => None end.
Proof.
  induction qs as [|c qs IH]; intros p; [cbn; destruct (mod_at root p); reflexivity|].
  cbn [rev]. rewrite <- app_assoc. cbn [app]. rewrite (IH (c :: p)). cbn [mod_at down]. destruct (mod_at root p) as [m|]; [|reflexivity]. destruct (assoc c (m_inner m)) as [[x|]|]; reflexivity.
Qed.
Definition once (m : modl) : Prop := forall qs x, down m qs = Some x -> NoDup (map fst (m_inner x)).
Lemma once_child n t i c x : once (Mod n t i) -> assoc c i = Some (Some x) -> once x.
Proof. intros H E qs y D. apply (H (c :: qs)). cbn [down m_inner]. rewrite E. exact D. Qed.
Lemma assoc_of_in {A} c (x : A) l : NoDup (map fst l) -> In (c, x) l -> assoc c l = Some x.
Proof.
  induction l as [|[k v] r IH]; intros Hn; [intros []|]. intros [E|E]; [injection E as -> ->; cbn; rewrite String.eqb_refl; reflexivity|]. cbn in *. inversion Hn as [|? ? H1 H2]; subst.
  destruct (String.eqb_spec c k); [subst; exfalso; apply H1; apply (in_map fst) in E; exact E|]. exact (IH H2 E).
Qed.
Lemma assoc_is_in {A} c (x : A) l : assoc c l = Some x -> In (c, x) l.
Proof. induction l as [|[k v] r IH]; [discriminate|]. cbn. destruct (String.eqb_spec c k); [intros [= <-]; subst; left; reflexivity|right; auto]. Qed.
Lemma in_below_list p l q x : In (q, x) (below_list p l) <-> exists c y, In (c, Some y) l /\ (q = c :: p /\ x = y \/ In (q, x) (below (c :: p) y)).
Proof.
  induction l as [|[c [y|]] r IH]; cbn [below_list].
  - split; [intros []|]. intros (c & y & [] & _).
  - cbn [In]. rewrite in_app_iff, IH. split.
    + intros [E|[E|(c' & y' & H1 & H2)]]; [injection E as <- <-; exists c, y; split; [left; reflexivity|left; split; reflexivity]|exists c, y; split; [left; reflexivity|right; exact E]|exists c', y'; split; [right; exact H1|exact H2]].
    + intros (c' & y' & [E|E] & H); [injection E as -> ->; destruct H as [[-> ->]|H]; [left; reflexivity|right; left; exact H]|right; right; exists c', y'; auto].
  - rewrite IH. split; intros (c' & y' & H1 & H2); exists c', y'; (split; [|exact H2]); [right; exact H1|]. destruct H1 as [E|E]; [discriminate E|exact E].
Qed.
Lemma in_below : forall m, once m -> forall p q x, In (q, x) (below p m) <-> exists qs, qs <> [] /\ q = rev qs ++ p /\ down m qs = Some x.
Proof.
  intros m. induction m as [n t i IH] using modl_ind2. intros Ho p q x. rewrite below_eq, in_below_list.
  pose proof (Ho [] _ eq_refl) as Hn. cbn [m_inner] in Hn. split.
  - intros (c & y & Hin & H). pose proof (assoc_of_in _ _ _ Hn Hin) as Ha. destruct H as [[-> ->]|H].
    + exists [c]. split; [discriminate|]. split; [reflexivity|]. cbn [down m_inner]. rewrite Ha. reflexivity.
    + apply (IH c y Hin (once_child _ _ _ _ _ Ho Ha)) in H as (qs & _ & -> & D). exists (c :: qs). split; [discriminate|]. split; [cbn [rev]; rewrite <- app_assoc; reflexivity|].
      cbn [down m_inner]. rewrite Ha. exact D.
  - intros ([|c qs] & Hne & -> & D); [congruence|]. cbn [down m_inner] in D. destruct (assoc c i) as [[y|]|] eqn:Ha; try discriminate D. exists c, y. split; [apply assoc_is_in, Ha|].
    destruct qs as [|d qs]; [left; injection D as <-; split; reflexivity|right]. apply (IH c y (assoc_is_in _ _ _ Ha) (once_child _ _ _ _ _ Ho Ha)). exists (d :: qs).
    split; [discriminate|]. split; [|exact D]. cbn [rev]. rewrite <- !app_assoc. reflexivity.
Qed.
Lemma below_nodup : forall m, once m -> forall p, NoDup (map fst (below p m)).
Proof.
  intros m. induction m as [n t i IH] using modl_ind2. intros Ho p. rewrite below_eq.
  pose proof (Ho [] _ eq_refl) as Hn. cbn [m_inner] in Hn.
  assert (Hc : forall c x, In (c, Some x) i -> once x) by (intros c x Hin; exact (once_child _ _ _ _ _ Ho (assoc_of_in _ _ _ Hn Hin))).
  clear Ho. induction i as [|[c [x|]] r IHr]; [constructor| |apply IHr; [intros c' x' E; apply (IH c'); right; exact E|inversion Hn; assumption|intros c' x' E; apply (Hc c'); right; exact E]].
  cbn [below_list map fst]. inversion Hn as [|? ? Hn1 Hn2]; subst. rewrite map_app.
  assert (Hx : forall q, In q (map fst (below (c :: p) x)) -> exists qs, qs <> [] /\ q = rev qs ++ c :: p).
  { intros q Hq. apply in_map_iff in Hq as ([q' y] & <- & Hq). apply (in_below x (Hc c x ltac:(left; reflexivity))) in Hq as (qs & H1 & H2 & _). exists qs. split; assumption. }
  assert (Hr : forall q, In q (map fst (below_list p r)) -> exists d qs, In d (map fst r) /\ q = rev qs ++ d :: p).
  { intros q Hq. apply in_map_iff in Hq as ([q' y] & <- & Hq). apply in_below_list in Hq as (d & z & H1 & [[-> ->]|H2]).
    - exists d, []. split; [apply (in_map fst) in H1; exact H1|reflexivity].
    - apply (in_below z (Hc d z ltac:(right; exact H1))) in H2 as (qs & _ & -> & _). exists d, qs. split; [apply (in_map fst) in H1; exact H1|reflexivity]. }
  assert (Hd : forall qs d, In d (map fst r) -> forall qs', rev qs ++ c :: p <> rev qs' ++ d :: p).
  { intros qs d Hin qs' E. assert (Ec : c = d); [|subst; contradiction].
    replace (rev qs ++ c :: p) with ((rev qs ++ [c]) ++ p) in E by (rewrite <- app_assoc; reflexivity). replace (rev qs' ++ d :: p) with ((rev qs' ++ [d]) ++ p) in E by (rewrite <- app_assoc; reflexivity).
    apply app_inv_tail in E. apply app_inj_tail in E as [_ E]. exact E. }
  constructor.
  - rewrite in_app_iff. intros [H|H]; [apply Hx in H as (qs & H1 & H2)|apply Hr in H as (d & qs & H1 & H2)].
    + apply (f_equal (@List.length _)) in H2. rewrite app_length, rev_length in H2. destruct qs; [congruence|cbn in H2; lia].
    + exact (Hd [] d H1 qs H2).
  - assert (Q : forall (A B : list place), NoDup A -> NoDup B -> (forall q, In q A -> ~ In q B) -> NoDup (A ++ B)).
    { induction A as [|a A IHA]; intros B HA HB HD; [exact HB|]. cbn. inversion HA; subst. constructor; [rewrite in_app_iff; intros [H|H]; [contradiction|exact (HD a ltac:(left; reflexivity) H)]|].
      apply IHA; try assumption. intros q Hq. apply HD. right. exact Hq. }
    apply Q.
    + apply (IH c x ltac:(left; reflexivity)). apply (Hc c x). left. reflexivity.
    + apply IHr; [intros c' x' E; apply (IH c'); right; exact E|exact Hn2|intros c' x' E; apply (Hc c'); right; exact E].
    + intros q H1 H2. apply Hx in H1 as (qs & _ & ->). apply Hr in H2 as (d & qs' & H3 & E). exact (Hd qs d H3 qs' E).
Qed.
(** A module comes after the module that contains it. *)
Lemma below_order : forall m, forall p l1 q x l2, below p m = l1 ++ (q, x) :: l2 -> exists c o, q = c :: o /\ (o = p \/ In o (map fst l1)).
Proof.
  intros m. induction m as [n t i IH] using modl_ind2. intros p l1 q x l2 E. rewrite below_eq in E. revert l1 E.
  induction i as [|[c [y|]] r IHr]; intros l1 E; [destruct l1; discriminate E| |apply IHr; [intros c' x' H; apply (IH c'); right; exact H|exact E]].
  cbn [below_list] in E. destruct l1 as [|e l1]; [injection E as <- _ _; exists c, p; split; [reflexivity|left; reflexivity]|]. cbn [app] in E. injection E as <- E.
  assert (Q : (exists l3, l1 = below (c :: p) y ++ l3 /\ below_list p r = l3 ++ (q, x) :: l2) \/ (exists l3, below (c :: p) y = l1 ++ (q, x) :: l3)).
  { clear - E. revert l1 E. generalize (below (c :: p) y) as A. intros A. induction A as [|a A IHA]; intros l1 E; [left; exists l1; split; [reflexivity|exact E]|].
    destruct l1 as [|b l1]; cbn [app] in E; injection E as -> E; [right; exists A; reflexivity|]. destruct (IHA l1 E) as [(l3 & -> & E')|(l3 & ->)]; [left; exists l3; split; [reflexivity|exact E']|right; exists l3; reflexivity]. }
  destruct Q as [(l3 & -> & E')|(l3 & E')].
  - destruct (IHr (fun c' x' H => IH c' x' (or_intror H)) l3 E') as (c' & o & -> & [Eo|H]); exists c', o; (split; [reflexivity|]); [left; exact Eo|].
    right. cbn [map fst]. right. rewrite map_app, in_app_iff. right. exact H.
  - destruct (IH c y ltac:(left; reflexivity) _ _ _ _ _ E') as (c' & o & -> & [Eo|H]); exists c', o; (split; [reflexivity|right]); [left; symmetry; exact Eo|right; exact H].
Qed.

(** ** get_all_types *)
Lemma put_all_assoc pre l : forall acc k, assoc k (put_all pre l acc) = match assoc k acc with Some t => Some t | None => assoc k (map (fun e => ((pre ++ fst e)%string, snd e)) l) end.
Proof.
  unfold put_all. induction l as [|[x t] l IH]; intros acc k; [cbn; destruct (assoc k acc); reflexivity|]. cbn [fold_left fst snd map]. rewrite IH, emplace_assoc. cbn [assoc].
  destruct (String.eqb_spec k (pre ++ x)); [|reflexivity]. subst. destruct (assoc (pre ++ x)%string acc); reflexivity.
Qed.
Definition own (tab : tables) : list (string * ty) := structs tab ++ unions tab ++ aliases tab ++ enums tab.
Definition prefix_of (add : bool) (p : place) : string := let n := if add then scope p else ""%string in if String.eqb n "" then n else (n ++ "::")%string.
Definition keyed_own (add : bool) (e : place * modl) : list (string * ty) := map (fun y => ((prefix_of add (fst e) ++ fst y)%string, snd y)) (own (m_tab (snd e))).
Lemma assoc_app {A} k (a b : list (string * A)) : assoc k (a ++ b) = match assoc k a with Some t => Some t | None => assoc k b end.
Proof. induction a as [|[x t] a IH]; [reflexivity|]. cbn. destruct (String.eqb k x); [reflexivity|exact IH]. Qed.
Lemma assoc_flat {A} k (f : place * modl -> list (string * A)) e a b :
  assoc k (flat_map f (e :: a ++ b)) = match assoc k (flat_map f (e :: a)) with Some t => Some t | None => assoc k (flat_map f b) end.
Proof. cbn [flat_map]. rewrite flat_map_app, !assoc_app. destruct (assoc k (f e)); reflexivity. Qed.
Lemma fill_spec add : forall m, nulls_free m -> forall p acc, exists r, fill_all_types add p m acc = Ok r /\
  forall k, assoc k r = match assoc k acc with Some t => Some t | None => assoc k (flat_map (keyed_own add) ((p, m) :: below p m)) end.
Proof.
  intros m. induction m as [n tab i IH] using modl_ind2. intros Hn p acc. apply nulls_free_in in Hn as [H1 H2].
  cbn [fill_all_types]. fold (prefix_of add p). set (pre := prefix_of add p).
  set (a0 := put_all pre (enums tab) (put_all pre (aliases tab) (put_all pre (unions tab) (put_all pre (structs tab) acc)))).
  assert (E0 : forall k, assoc k a0 = match assoc k acc with Some t => Some t | None => assoc k (keyed_own add (p, Mod n tab i)) end).
  { intros k. unfold a0. rewrite !put_all_assoc. unfold keyed_own, own. cbn [fst snd m_tab]. rewrite !map_app, !assoc_app. fold pre. destruct (assoc k acc); [reflexivity|].
    destruct (assoc k (map _ (structs tab))); [reflexivity|]. destruct (assoc k (map _ (unions tab))); [reflexivity|]. destruct (assoc k (map _ (aliases tab))); reflexivity. }
  rewrite below_eq. clearbody a0.
  assert (Q : forall acc, exists r, (fix go (l : list (string * option modl)) (acc : list (string * ty)) : res (list (string * ty)) :=
         match l with
         | [] => Ok acc
         | (_, None) :: _ => Fail UB
         | (c, Some x) :: r => do acc <- fill_all_types add (c :: p) x acc; go r acc
         end) i acc = Ok r /\ forall k, assoc k r = match assoc k acc with Some t => Some t | None => assoc k (flat_map (keyed_own add) (below_list p i)) end).
  { clear E0 a0 acc. induction i as [|[c [x|]] r IHr]; intros acc; [exists acc; split; [reflexivity|intros k; cbn; destruct (assoc k acc); reflexivity]| |exfalso; apply (H1 c); left; reflexivity].
    destruct (IH c x ltac:(left; reflexivity) (H2 c x ltac:(left; reflexivity)) (c :: p) acc) as (r1 & E1 & K1). rewrite E1. cbn [bind].
    destruct (IHr ltac:(intros c' x' E; apply (IH c'); right; exact E) ltac:(intros c' E; apply (H1 c'); right; exact E) ltac:(intros c' x' E; apply (H2 c'); right; exact E) r1) as (r2 & E2 & K2).
    exists r2. split; [exact E2|]. intros k. rewrite K2, K1. destruct (assoc k acc); [reflexivity|]. cbn [below_list]. symmetry. apply assoc_flat. }
  destruct (Q a0) as (r & E & K). exists r. split; [exact E|]. intros k. rewrite K, E0. cbn [flat_map]. rewrite assoc_app. destruct (assoc k acc); reflexivity.
Qed.
Lemma prefix_key p x : Forall ident p -> (prefix_of true p ++ x)%string = qualified (rev p) x.
Proof.
  assert (Hs : forall p, Forall ident p -> p <> [] -> scope p <> ""%string /\ forall x, (scope p ++ "::" ++ x)%string = qualified (rev p) x).
  { clear. induction p as [|c o IH]; intros H Hne; [congruence|]. inversion H as [|? ? [Hc _] Ho]; subst. cbn [scope].
    assert (Hq : forall qs z x, qualified (qs ++ [z]) x = qualified qs (z ++ "::" ++ x)%string) by (induction qs as [|q qs IHq]; intros z x; [reflexivity|cbn [app qualified]; rewrite IHq; reflexivity]).
    destruct o as [|d o]; [cbn; split; [exact Hc|intros x; reflexivity]|].
    destruct (IH Ho ltac:(discriminate)) as [H1 H2]. destruct (String.eqb_spec (scope (d :: o)) ""); [congruence|]. split; [destruct (scope (d :: o)); [congruence|discriminate]|].
    intros x. cbn [rev]. cbn [rev] in H2. rewrite Hq, <- H2.
    generalize (scope (d :: o)) as s. clear. induction s as [|a s IH]; [cbn; induction c as [|b c IHc]; [reflexivity|cbn; cbn in IHc; congruence]|cbn; cbn in IH; congruence]. }
  intros H. unfold prefix_of. destruct p as [|c o]; [reflexivity|]. destruct (Hs (c :: o) H ltac:(discriminate)) as [H1 H2]. destruct (String.eqb_spec (scope (c :: o)) ""); [congruence|].
  rewrite <- H2. generalize (scope (c :: o)) as s. clear. induction s as [|a s IH]; [reflexivity|cbn; cbn in IH; congruence].
Qed.
