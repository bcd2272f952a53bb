(** Proofs about types built with the API: layout of structures, unions and enumerations. *)
From Verif Require Import Base Types TypeBuild TypeSpec Compat TyInd.

(** ** Structures *)
Lemma laid_out_app o a b :
  laid_out o (a ++ b) <-> laid_out o a /\ laid_out (o + total_size a) b.
Proof.
  revert o. induction a as [|m r IH]; intros o; cbn [app laid_out total_size fold_right].
  - rewrite N.add_0_r. tauto.
  - rewrite IH. unfold total_size. rewrite <- N.add_assoc. tauto.
Qed.
Lemma total_size_app a b : total_size (a ++ b) = total_size a + total_size b.
Proof. unfold total_size. induction a as [|m r IH]; cbn; [lia|]. rewrite IH. lia. Qed.

Lemma find_member_none nm ms : find_member nm ms = None <-> ~ In nm (map m_name ms).
Proof.
  induction ms as [|m r IH]; cbn; [tauto|].
  destruct (String.eqb nm (m_name m)) eqn:E.
  - apply String.eqb_eq in E. subst. split; [discriminate|tauto].
  - apply String.eqb_neq in E. rewrite IH. split; intros H; intuition congruence.
Qed.
Lemma find_member_some nm ms m : find_member nm ms = Some m -> In m ms /\ m_name m = nm.
Proof.
  induction ms as [|x r IH]; cbn; [discriminate|].
  destruct (String.eqb nm (m_name x)) eqn:E.
  - intros [= ->]. apply String.eqb_eq in E. auto.
  - intros H. apply IH in H as [H1 H2]. auto.
Qed.
Lemma has_member_false nm ms : has_member nm ms = false <-> ~ In nm (map m_name ms).
Proof. unfold has_member. rewrite <- find_member_none. destruct (find_member nm ms); intuition congruence. Qed.
Lemma NoDup_snoc {A} (l : list A) a : NoDup (l ++ [a]) <-> NoDup l /\ ~ In a l.
Proof.
  split.
  - intros H. apply NoDup_remove in H. rewrite app_nil_r in H. exact H.
  - intros [H1 H2]. apply NoDup_rev in H1. rewrite <- (rev_involutive (l ++ [a])). apply NoDup_rev.
    rewrite rev_app_distr. cbn. constructor; [rewrite <- in_rev; exact H2|exact H1].
Qed.

Lemma add_member_ok n s ms nm mt t' :
  add_member (TStruct n s ms) nm mt = (t', Ok tt) ->
  ~ In nm (map m_name ms) /\ t' = TStruct n (s + msize mt) (ms ++ [(nm, s, mt)]).
Proof.
  cbn [add_member]. destruct (has_member nm ms) eqn:E; [discriminate|].
  intros [= <-]. apply has_member_false in E. auto.
Qed.
Lemma add_member_wf t nm mt t' : wf_ty t -> wf_ty mt -> add_member t nm mt = (t', Ok tt) -> wf_ty t'.
Proof.
  destruct t; try discriminate. intros Hw Hm H. apply add_member_ok in H as [Hn ->].
  apply wf_struct_iff in Hw as (H1 & -> & H3 & H4). apply wf_struct_iff. repeat split.
  - apply laid_out_app. cbn. auto.
  - rewrite total_size_app. cbn. unfold m_type; cbn. lia.
  - rewrite map_app. cbn. apply NoDup_snoc. auto.
  - apply Forall_app. split; [exact H4|]. constructor; [exact Hm|constructor].
Qed.

(** ** Arrays *)
Lemma mk_array_dims_wf c dims t : wf_ty c -> Forall (fun n => n < 4294967296) dims ->
  mk_array_dims c dims = Ok t -> wf_ty t.
Proof.
  intros Hc. revert t. induction dims as [|n r IH]; intros t HF; [discriminate|].
  apply Forall_cons_iff in HF as [Hn HF]. destruct r as [|n2 r].
  - intros H. injection H as <-. cbn. auto.
  - change (mk_array_dims c (n :: n2 :: r)) with
      (do inner <- mk_array_dims c (n2 :: r);
       Ok (TArr ("array_" ++ to_string n ++ "_" ++ tname c)%string inner n)).
    destruct (mk_array_dims c (n2 :: r)) as [inner|] eqn:E; intros H; cbn [bind] in H; [|discriminate H].
    injection H as <-. cbn. split; [apply IH; auto|exact Hn].
Qed.

(** ** Enumerations *)
Lemma emplace_name_in {A} nm (v : A) l p : In p (emplace_name nm v l) -> p = (nm, v) \/ In p l.
Proof.
  induction l as [|[k w] r IH]; cbn; [intros [<-|[]]; auto|].
  destruct (String.compare nm k); cbn; intuition auto.
Qed.
Lemma enum_built_size e es : enum_built e es -> es_size es = es_size e.
Proof.
  induction 1 as [|e e1 nm v e2 H IH Hv Hs]; [reflexivity|]. subst e2. unfold add_enumerator.
  destruct (v <? es_next e1); [exact IH|]. destruct (has_enumerator _ _); exact IH.
Qed.
Lemma enum_built_range e es : enum_built e es -> es_vals e = [] ->
  Forall (fun p => snd p < 2 ^ (8 * es_size es)) (es_vals es).
Proof.
  induction 1 as [e|e e1 nm v e2 H IH Hv Hs]; intros He; [rewrite He; constructor|].
  specialize (IH He). subst e2. unfold add_enumerator.
  destruct (v <? es_next e1); [exact IH|]. destruct (has_enumerator _ _); [exact IH|].
  cbn [fst es_vals es_size]. apply Forall_forall. intros p Hp. apply emplace_name_in in Hp as [->|Hp]; [exact Hv|].
  rewrite Forall_forall in IH. apply IH, Hp.
Qed.

(** ** Unions *)
Lemma lookup_set_label l l' nm ls : sorted_labels ls ->
  lookup_label l (set_label l' nm ls) = if Z.eqb l l' then Some nm else lookup_label l ls.
Proof.
  induction ls as [|[k s] r IH]; cbn [set_label lookup_label sorted_labels]; intros Hs; [reflexivity|].
  destruct Hs as [Hf Hs].
  destruct (Z.ltb l' k) eqn:E1; cbn [lookup_label]; [reflexivity|].
  destruct (Z.eqb l' k) eqn:E2; cbn [lookup_label].
  - apply Z.eqb_eq in E2. subst k. destruct (Z.eqb l l'); reflexivity.
  - rewrite (IH Hs). destruct (Z.eqb l k) eqn:E3; [|reflexivity].
    apply Z.eqb_eq in E3. subst k. rewrite Z.eqb_sym, E2. reflexivity.
Qed.
Lemma set_label_in p l nm ls : In p (set_label l nm ls) -> p = (l, nm) \/ In p ls.
Proof.
  induction ls as [|[k s] r IH]; cbn [set_label]; [intros [<-|[]]; auto|].
  destruct (Z.ltb l k); [intros [<-|H]; auto|]. destruct (Z.eqb l k).
  - intros [<-|H]; [auto|right; right; exact H].
  - intros [<-|H]; [right; left; reflexivity|]. apply IH in H as [->|H]; [auto|right; right; exact H].
Qed.
Lemma set_label_sorted l nm ls : sorted_labels ls -> sorted_labels (set_label l nm ls).
Proof.
  induction ls as [|[k s] r IH]; cbn [set_label sorted_labels]; intros Hs; [auto|].
  destruct Hs as [Hf Hs]. destruct (Z.ltb l k) eqn:E1.
  - apply Z.ltb_lt in E1. cbn [sorted_labels]. repeat split; [|exact Hf|exact Hs].
    constructor; [exact E1|]. eapply Forall_impl; [|exact Hf]. cbn. intros; lia.
  - apply Z.ltb_ge in E1. destruct (Z.eqb l k) eqn:E2.
    + apply Z.eqb_eq in E2. subst. cbn. auto.
    + apply Z.eqb_neq in E2. cbn [sorted_labels]. split; [|apply IH, Hs].
      apply Forall_forall. intros p Hp. apply set_label_in in Hp as [->|Hp]; [cbn; lia|].
      rewrite Forall_forall in Hf. apply Hf, Hp.
Qed.
Lemma lookup_in l nm ls : lookup_label l ls = Some nm -> In (l, nm) ls.
Proof.
  induction ls as [|[k s] r IH]; cbn; [discriminate|].
  destruct (Z.eqb l k) eqn:E; [apply Z.eqb_eq in E; intros [= ->]; subst; auto|intros H; right; apply IH, H].
Qed.
Lemma in_lookup l nm ls : sorted_labels ls -> In (l, nm) ls -> lookup_label l ls = Some nm.
Proof.
  induction ls as [|[k s] r IH]; cbn; [tauto|]. intros [Hf Hs] [H|H].
  - injection H as <- <-. rewrite Z.eqb_refl. reflexivity.
  - rewrite Forall_forall in Hf. specialize (Hf _ H). cbn in Hf.
    replace (Z.eqb l k) with false by (symmetry; apply Z.eqb_neq; lia). apply IH; assumption.
Qed.

Lemma disc_sizes t : wf_ty t -> check_discriminator t = true ->
  msize t = 1 \/ msize t = 2 \/ msize t = 4 \/ msize t = 8.
Proof.
  intros Hw Hc. unfold check_discriminator in Hc. rewrite <- msize_rget.
  assert (Hw' : wf_ty (rget t)).
  { clear Hc. induction t using ty_ind'; cbn [rget wf_ty] in *; try exact Hw. apply IHt, Hw. }
  destruct (rget t) as [p|nm sz vals| | | | | | | |]; try discriminate Hc.
  - destruct p; try discriminate Hc; cbn; tauto.
  - cbn in *. tauto.
Qed.

Lemma land_ones_mask (x : Z) (k : Z) : (0 <= x)%Z -> (0 <= k)%Z -> Z.land x (Z.ones k) = (x mod 2 ^ k)%Z.
Proof. intros _ Hk. apply Z.land_ones, Hk. Qed.
Lemma shrink_label_eq x sz : sz = 1 \/ sz = 2 \/ sz = 4 \/ sz = 8 ->
  shrink_label x sz = to_i64 (x mod 2 ^ (8 * Z.of_N sz)).
Proof.
  intros H. unfold shrink_label.
  assert (E : Z.shiftr 18446744073709551615 (8 * (8 - Z.of_N sz)) = Z.ones (8 * Z.of_N sz)).
  { destruct H as [->|[->|[->| ->]]]; reflexivity. }
  rewrite E, Z.land_ones by lia. f_equal.
  symmetry. apply Znumtheory.Zmod_div_mod; [apply Z.pow_pos_nonneg; lia|reflexivity|].
  exists (2 ^ (64 - 8 * Z.of_N sz))%Z. destruct H as [->|[->|[->| ->]]]; reflexivity.
Qed.
Lemma to_i64_mod x k : (0 <= k <= 64)%Z -> (to_i64 x mod 2 ^ k = x mod 2 ^ k)%Z.
Proof.
  intros Hk. unfold to_i64.
  assert (E : (18446744073709551616 = 2 ^ k * 2 ^ (64 - k))%Z).
  { rewrite <- Z.pow_add_r by lia. replace (k + (64 - k))%Z with 64%Z by lia. reflexivity. }
  assert (Hp : (0 < 2 ^ k)%Z) by (apply Z.pow_pos_nonneg; lia).
  assert (Hq : (0 < 2 ^ (64 - k))%Z) by (apply Z.pow_pos_nonneg; lia).
  assert (H1 : ((x mod 18446744073709551616) mod 2 ^ k = x mod 2 ^ k)%Z).
  { symmetry. apply Znumtheory.Zmod_div_mod; [exact Hp|reflexivity|].
    exists (2 ^ (64 - k))%Z. rewrite E. ring. }
  cbv zeta. destruct (_ <? _)%Z; [exact H1|].
  rewrite E at 2. rewrite <- H1. set (m := (x mod 18446744073709551616)%Z).
  replace (m - 2 ^ k * 2 ^ (64 - k))%Z with (m + (- 2 ^ (64 - k)) * 2 ^ k)%Z by ring.
  rewrite Z.mod_add by lia. reflexivity.
Qed.
Lemma shrink_label_idem x sz : sz = 1 \/ sz = 2 \/ sz = 4 \/ sz = 8 ->
  shrink_label (shrink_label x sz) sz = shrink_label x sz.
Proof.
  intros H. rewrite !(shrink_label_eq _ _ H). rewrite to_i64_mod by (destruct H as [->|[->|[->| ->]]]; cbn; lia).
  rewrite Z.mod_mod; [reflexivity|]. destruct H as [->|[->|[->| ->]]]; discriminate.
Qed.

Lemma max_size_app a m : max_size (a ++ [m]) = N.max (max_size a) (msize (m_type m)).
Proof. unfold max_size. induction a as [|x r IH]; cbn; [lia|]. rewrite IH. lia. Qed.

Lemma union_new_wf nm disc t : wf_ty disc -> union_new nm disc = Ok t -> wf_ty t.
Proof.
  intros Hw. unfold union_new, assert_. destruct (check_discriminator disc) eqn:E; [|discriminate].
  cbn [bind]. intros [= <-]. apply wf_union_iff. split; [|constructor; [exact Hw|constructor]].
  exists (UNION_DISCRIMINATOR, 0, disc), []. repeat split; try exact E.
  - constructor.
  - cbn. lia.
  - constructor; [cbn; tauto|constructor].
  - constructor.
  - constructor.
  - cbn. tauto.
  - cbn. tauto.
Qed.

(** The labels loop of add_case_member. *)
Definition put_labels (disc : ty) (dv : Z) (nm : string) (ls : list Z) (labels : list (Z * string)) :=
  fold_left (fun acc x => let l := shrink_label x (msize disc) in
                          if Z.eqb l dv then acc else set_label l nm acc) ls labels.

Lemma check_labels_ok disc dv labels ls : check_labels disc dv labels ls = Ok tt ->
  Forall (fun x => shrink_label x (msize disc) <> dv /\
                   lookup_label (shrink_label x (msize disc)) labels = None) ls.
Proof.
  induction ls as [|x r IH]; cbn [check_labels]; [constructor|].
  intros H. destruct (check_label_value _ _ _) as [[]|] eqn:Ev; cbn [bind] in H; [|discriminate H].
  destruct (lookup_label (shrink_label x (msize disc)) labels) eqn:El; cbn [assert_ bind] in H; [discriminate H|].
  constructor; [|apply IH, H]. split; [|exact El].
  unfold check_label_value in Ev. destruct (Z.eqb _ dv) eqn:E; [discriminate Ev|]. apply Z.eqb_neq, E.
Qed.

Lemma put_labels_spec disc dv nm ls labels :
  sorted_labels labels ->
  Forall (fun x => shrink_label x (msize disc) <> dv) ls ->
  sorted_labels (put_labels disc dv nm ls labels) /\
  forall l, lookup_label l (put_labels disc dv nm ls labels) =
    if existsb (fun x => Z.eqb l (shrink_label x (msize disc))) ls then Some nm else lookup_label l labels.
Proof.
  revert labels. induction ls as [|x r IH]; intros labels Hs HF; [split; [exact Hs|reflexivity]|].
  apply Forall_cons_iff in HF as [Hx HF]. apply Z.eqb_neq in Hx. cbn [put_labels fold_left].
  rewrite Hx. destruct (IH (set_label (shrink_label x (msize disc)) nm labels) (set_label_sorted _ _ _ Hs) HF) as [I1 I2].
  split; [exact I1|]. intros l. fold (put_labels disc dv nm r (set_label (shrink_label x (msize disc)) nm labels)).
  rewrite I2. cbn [existsb]. rewrite lookup_set_label by exact Hs.
  destruct (existsb _ r); [rewrite orb_true_r; reflexivity|rewrite orb_false_r; reflexivity].
Qed.

Definition first_label (disc : ty) (dv : Z) (ls : list Z) : Z :=
  match filter (fun l => negb (Z.eqb l dv)) (map (fun x => shrink_label x (msize disc)) ls) with
  | [] => dv
  | l :: _ => l
  end.
Lemma first_label_cases disc dv ls : Forall (fun x => shrink_label x (msize disc) <> dv) ls ->
  (ls = [] /\ first_label disc dv ls = dv) \/
  (exists x r, ls = x :: r /\ first_label disc dv ls = shrink_label x (msize disc) /\ first_label disc dv ls <> dv).
Proof.
  intros HF. destruct ls as [|x r]; [left; split; reflexivity|right].
  apply Forall_cons_iff in HF as [Hx HF]. exists x, r. unfold first_label. cbn [map filter].
  pose proof Hx as Hx'. apply Z.eqb_neq in Hx'. rewrite Hx'. cbn. auto.
Qed.

(** What a call of add_case_member does, by outcome. *)
Lemma add_case_member_cases t ls nm mt isd t' o :
  add_case_member t ls nm mt isd = (t', o) ->
  (t' = t /\ o <> Ok tt) \/
  exists n s dn doff disc cases labels dv iv d,
    t = TUnion n s ((dn, doff, disc) :: cases) labels dv iv d /\
    nm <> UNION_DISCRIMINATOR /\ ~ In nm (map m_name ((dn, doff, disc) :: cases)) /\
    check_labels disc dv labels ls = Ok tt /\
    let s' := if s - msize disc <? msize mt then msize disc + msize mt else s in
    let ms' := ((dn, doff, disc) :: cases) ++ [(nm, msize disc, mt)] in
    let labels' := put_labels disc dv nm ls labels in
    let first := first_label disc dv ls in
    if isd then
      (d = iv /\ o = Ok tt /\
        t' = TUnion n s' ms' (if Z.eqb first dv then set_label first nm labels' else labels') dv iv first) \/
      (d <> iv /\ o = Fail Assert /\ t' = TUnion n s' ms' labels' dv iv d)
    else ls <> [] /\ o = Ok tt /\ t' = TUnion n s' ms' labels' dv iv d.
Proof.
  destruct t as [| | | | | | | |n s [|[[dn doff] disc] cases] labels dv iv d|]; cbn [add_case_member];
    try (intros [= <- <-]; left; split; [reflexivity|discriminate]).
  destruct (negb _) eqn:E0; [intros [= <- <-]; left; split; [reflexivity|discriminate]|].
  destruct (String.eqb UNION_DISCRIMINATOR nm) eqn:E1; [intros [= <- <-]; left; split; [reflexivity|discriminate]|].
  destruct (check_labels disc dv labels ls) as [[]|e] eqn:E2; [|intros [= <- <-]; left; split; [reflexivity|discriminate]].
  destruct (has_member nm ((dn, doff, disc) :: cases)) eqn:E3; [intros [= <- <-]; left; split; [reflexivity|discriminate]|].
  intros H. right. exists n, s, dn, doff, disc, cases, labels, dv, iv, d.
  apply String.eqb_neq in E1. apply has_member_false in E3.
  split; [reflexivity|]. split; [congruence|]. split; [exact E3|]. split; [exact E2|]. cbv zeta.
  fold (put_labels disc dv nm ls labels) in H. fold (first_label disc dv ls) in H.
  destruct isd.
  - destruct (Z.eqb d iv) eqn:E4; injection H as <- <-.
    + left. apply Z.eqb_eq in E4. auto.
    + right. apply Z.eqb_neq in E4. auto.
  - injection H as <- <-. split; [|auto]. destruct ls; [discriminate E0|discriminate].
Qed.

Lemma sorted_forall (P : Z * string -> Prop) ls : sorted_labels ls ->
  (forall l nm, lookup_label l ls = Some nm -> P (l, nm)) -> Forall P ls.
Proof.
  intros Hs H. apply Forall_forall. intros [l nm] Hi. apply H, in_lookup; assumption.
Qed.

Lemma default_union_label_shrunk sz : sz = 1 \/ sz = 2 \/ sz = 4 \/ sz = 8 ->
  shrink_label (default_union_label sz) sz = default_union_label sz.
Proof. intros [->|[->|[->| ->]]]; reflexivity. Qed.

Lemma add_case_member_wf t ls nm mt isd t' o : wf_ty t -> wf_ty mt ->
  add_case_member t ls nm mt isd = (t', o) -> wf_ty t'.
Proof.
  intros Hw Hm H. apply add_case_member_cases in H as
    [[-> _]|(n & s & dn & doff & disc & cases & labels & dv & iv & d & -> & Hn & Hin & Hc & H)]; [exact Hw|].
  cbv zeta in H.
  apply wf_union_iff in Hw as ((disc' & cases' & Heq & Hd1 & Hd2 & Hd3 & Hoff & Hsz & Hnd & Hlab) & Hms).
  injection Heq as <- <-. cbn [m_type snd m_name fst m_off] in *. subst dn doff.
  pose proof (Forall_inv Hms) as Hwd. cbn in Hwd.
  pose proof (disc_sizes disc Hwd Hd3) as Hsizes.
  destruct Hlab as (Hdv & Hiv & Hso & Hnames & Hshr & Hdef & Hddv).
  apply check_labels_ok in Hc.
  assert (HF : Forall (fun x => shrink_label x (msize disc) <> dv) ls).
  { eapply Forall_impl; [|exact Hc]. cbn. tauto. }
  assert (Hnew : Forall (fun x => lookup_label (shrink_label x (msize disc)) labels = None) ls).
  { eapply Forall_impl; [|exact Hc]. cbn. tauto. }
  destruct (put_labels_spec disc dv nm ls labels Hso HF) as [Hso' Hlk].
  set (labels' := put_labels disc dv nm ls labels) in *.
  (* facts about labels' *)
  assert (Hn' : Forall (fun p => In (snd p) (map m_name (cases ++ [(nm, msize disc, mt)]))) labels').
  { apply sorted_forall; [exact Hso'|]. intros l x Hl. rewrite Hlk in Hl. rewrite map_app. cbn. apply in_or_app.
    destruct (existsb _ ls); [injection Hl as <-; right; left; reflexivity|].
    left. rewrite Forall_forall in Hnames. apply (Hnames (l, x)), lookup_in, Hl. }
  assert (Hs' : Forall (fun p => shrink_label (fst p) (msize disc) = fst p) labels').
  { apply sorted_forall; [exact Hso'|]. intros l x Hl. rewrite Hlk in Hl. cbn.
    destruct (existsb _ ls) eqn:E.
    - apply existsb_exists in E as (y & _ & E). apply Z.eqb_eq in E. subst l. apply shrink_label_idem, Hsizes.
    - rewrite Forall_forall in Hshr. apply (Hshr (l, x)), lookup_in, Hl. }
  assert (Hdvno : lookup_label dv labels' = lookup_label dv labels).
  { rewrite Hlk. replace (existsb _ ls) with false; [reflexivity|]. symmetry. apply not_true_iff_false.
    intros E. apply existsb_exists in E as (y & Hy & E). apply Z.eqb_eq in E.
    rewrite Forall_forall in HF. apply (HF y Hy). auto. }
  assert (Hkeep : forall l, lookup_label l labels <> None -> lookup_label l labels' <> None).
  { intros l Hl. rewrite Hlk. destruct (existsb _ ls); [discriminate|exact Hl]. }
  assert (Hcommon : forall labels'' d'',
     sorted_labels labels'' ->
     Forall (fun p => In (snd p) (map m_name (cases ++ [(nm, msize disc, mt)]))) labels'' ->
     Forall (fun p => shrink_label (fst p) (msize disc) = fst p) labels'' ->
     (d'' <> iv -> lookup_label d'' labels'' <> None) ->
     (lookup_label dv labels'' <> None -> d'' = dv) ->
     wf_ty (TUnion n (if s - msize disc <? msize mt then msize disc + msize mt else s)
       ((UNION_DISCRIMINATOR, 0, disc) :: cases ++ [(nm, msize disc, mt)]) labels'' dv iv d'')).
  { intros labels'' d'' K1 K2 K3 K4 K5. apply wf_union_iff. split.
    - exists (UNION_DISCRIMINATOR, 0, disc), (cases ++ [(nm, msize disc, mt)]). repeat split; try assumption.
      + apply Forall_app. split; [exact Hoff|]. constructor; [reflexivity|constructor].
      + cbn [m_type snd]. rewrite max_size_app. cbn [m_type snd]. subst s.
        destruct (_ <? msize mt) eqn:E; [apply N.ltb_lt in E|apply N.ltb_ge in E]; lia.
      + change (NoDup (map m_name (((UNION_DISCRIMINATOR, 0, disc) :: cases) ++ [(nm, msize disc, mt)]))).
        rewrite map_app. apply NoDup_snoc. split; [exact Hnd|exact Hin].
    - change (wf_members (((UNION_DISCRIMINATOR, 0, disc) :: cases) ++ [(nm, msize disc, mt)])).
      apply Forall_app. split; [exact Hms|]. constructor; [exact Hm|constructor]. }
  destruct isd.
  - destruct H as [(Hd & _ & ->)|(Hd & _ & ->)].
    + assert (Hnodv : lookup_label dv labels = None).
      { destruct (lookup_label dv labels) eqn:E; [|reflexivity]. exfalso. assert (d = dv) by (apply Hddv; discriminate). lia. }
      destruct (first_label_cases disc dv ls HF) as [[-> Hfi]|(x & r & -> & Hfi & Hfne)]; rewrite Hfi.
      * rewrite Z.eqb_refl. apply Hcommon.
        -- apply set_label_sorted, Hso'.
        -- apply Forall_forall. intros p Hp. apply set_label_in in Hp as [->|Hp].
           ++ cbn. rewrite map_app. apply in_or_app. right. left. reflexivity.
           ++ rewrite Forall_forall in Hn'. apply Hn', Hp.
        -- apply Forall_forall. intros p Hp. apply set_label_in in Hp as [->|Hp].
           ++ cbn. subst dv. apply default_union_label_shrunk, Hsizes.
           ++ rewrite Forall_forall in Hs'. apply Hs', Hp.
        -- intros _. rewrite lookup_set_label, Z.eqb_refl by exact Hso'. discriminate.
        -- reflexivity.
      * rewrite Hfi in Hfne. pose proof Hfne as Hfne'. apply Z.eqb_neq in Hfne'. rewrite Hfne'. apply Hcommon; try assumption.
        -- intros _. rewrite Hlk. cbn [existsb]. rewrite Z.eqb_refl. discriminate.
        -- rewrite Hdvno, Hnodv. congruence.
    + apply Hcommon; try assumption; [intros Hx; apply Hkeep, Hdef, Hx|rewrite Hdvno; exact Hddv].
  - destruct H as (_ & _ & ->). apply Hcommon; try assumption; [intros Hx; apply Hkeep, Hdef, Hx|rewrite Hdvno; exact Hddv].
Qed.

(** ** Every API-built type is well formed *)
Scheme struct_built_mut := Induction for struct_built Sort Prop
with union_built_mut := Induction for union_built Sort Prop
with api_type_mut := Induction for api_type Sort Prop.
Combined Scheme built_mut from struct_built_mut, union_built_mut, api_type_mut.

Lemma built_wf :
  (forall t, struct_built t -> wf_ty t) /\ (forall t, union_built t -> wf_ty t) /\
  (forall t, api_type t -> wf_ty t).
Proof.
  apply (built_mut (fun t _ => wf_ty t) (fun t _ => wf_ty t) (fun t _ => wf_ty t)).
  - intros nm. apply wf_struct_iff. repeat split; constructor.
  - intros nm pn s ms _ H. apply wf_struct_iff in H. apply wf_struct_iff. exact H.
  - intros t nm mt t' _ H1 _ H2 H. exact (add_member_wf _ _ _ _ H1 H2 H).
  - intros nm disc t _ H1 H. exact (union_new_wf _ _ _ H1 H).
  - intros t ls nm mt isd t' o _ H1 _ H2 H. exact (add_case_member_wf _ _ _ _ _ _ _ H1 H2 H).
  - intros p. exact I.
  - intros nm sz es Hsz H. cbn. rewrite (enum_built_size _ _ H). cbn. split; [exact Hsz|].
    pose proof (enum_built_range _ _ H eq_refl) as Hr. rewrite (enum_built_size _ _ H) in Hr. exact Hr.
  - intros k b H. exact H.
  - intros c n _ H Hn. cbn. auto.
  - intros c dims t _ H Hd Hm. exact (mk_array_dims_wf _ _ _ H Hd Hm).
  - intros c b _ H Hb. cbn. auto.
  - intros k v b _ Hk _ Hv Hb. cbn. auto.
  - intros a b _ Ha _ Hb. cbn. auto.
  - intros t _ H. exact H.
  - intros t _ H. exact H.
  - intros nm t _ H. exact H.
Qed.
Lemma api_type_wf t : api_type t -> wf_ty t.
Proof. apply built_wf. Qed.
Lemma struct_built_wf t : struct_built t -> wf_ty t.
Proof. apply built_wf. Qed.
Lemma union_built_wf t : union_built t -> wf_ty t.
Proof. apply built_wf. Qed.
Lemma struct_built_is t : struct_built t -> exists nm s ms, t = TStruct nm s ms.
Proof.
  intros H. induction H as [nm|nm pn s ms H IH|t nm mt t' H IH Ha Hadd]; eauto.
  destruct IH as (n & s & ms & ->). apply add_member_ok in Hadd as [_ ->]. eauto.
Qed.
Lemma union_built_is t : union_built t -> exists nm s ms l dv iv d, t = TUnion nm s ms l dv iv d.
Proof.
  intros H. induction H as [nm disc t Ha Hn|t ls nm mt isd t' o H IH Ha Hadd].
  - unfold union_new, assert_ in Hn. destruct (check_discriminator disc); [|discriminate]. injection Hn as <-. repeat eexists.
  - apply add_case_member_cases in Hadd as
      [[-> _]|(n & s & dn & doff & disc & cases & labels & dv & iv & d & -> & _ & _ & _ & Hx)]; [exact IH|].
    cbv zeta in Hx. destruct isd; [destruct Hx as [(_ & _ & ->)|(_ & _ & ->)]|destruct Hx as (_ & _ & ->)]; repeat eexists.
Qed.
