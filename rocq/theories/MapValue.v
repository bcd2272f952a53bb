(** Facts about map entries as values. *)
From Verif Require Import Base Types TypeBuild Mem MemSpec Hash HashSpec MapSpec OpsSpec.

(** ** Decidable equality of values *)
Section ValueInd.
  Variable P : value -> Prop.
  Hypothesis H1 : forall bs, P (VBytes bs).
  Hypothesis H2 : forall s, P (VStr s).
  Hypothesis H3 : forall l, (forall x, In x l -> P x) -> P (VNode l).
  Hypothesis H4 : forall d, P d -> P (VUnion d None).
  Hypothesis H5 : forall d m, P d -> P m -> P (VUnion d (Some m)).
  Fixpoint value_ind' (v : value) : P v :=
    match v with
    | VBytes bs => H1 bs
    | VStr s => H2 s
    | VNode l => H3 l ((fix go (l : list value) : forall x, In x l -> P x :=
        match l with
        | [] => fun x H => match H with end
        | y :: r => fun x H => match H with or_introl E => match E with eq_refl => value_ind' y end | or_intror H' => go r x H' end
        end) l)
    | VUnion d None => H4 d (value_ind' d)
    | VUnion d (Some m) => H5 d m (value_ind' d) (value_ind' m)
    end.
End ValueInd.

Lemma bytes_eqb_eq' a : forall b, bytes_eqb a b = true <-> a = b.
Proof.
  induction a as [|x a IH]; destruct b as [|y b]; cbn; try (split; [discriminate|discriminate]); [tauto|].
  rewrite andb_true_iff, N.eqb_eq, IH. split; [intros [-> ->]; reflexivity|intros [= -> ->]; auto].
Qed.
Lemma value_eqb_eq x : forall y, value_eqb x y = true <-> x = y.
Proof.
  induction x as [bs|s|l IH|d IHd|d m IHd IHm] using value_ind'; intros [bs'|s'|l'|d' [m'|]]; cbn [value_eqb]; try (split; discriminate).
  - rewrite bytes_eqb_eq'. split; congruence.
  - rewrite bytes_eqb_eq'. split; congruence.
  - revert l'. induction l as [|a l IHl]; intros [|b l']; try (split; discriminate); [split; reflexivity|].
    rewrite andb_true_iff, (IH a (or_introl eq_refl)). specialize (IHl (fun x H => IH x (or_intror H)) l'). rewrite IHl.
    split; [intros [-> [= ->]]; reflexivity|intros [= -> ->]; auto].
  - rewrite IHd. split; congruence.
  - rewrite andb_true_iff, IHd, IHm. split; [intros [-> ->]; reflexivity|intros [= -> ->]; auto].
Qed.
Lemma value_eqb_refl x : value_eqb x x = true.
Proof. apply value_eqb_eq. reflexivity. Qed.

(** ** Position of a key *)
Lemma key_pos_some kv l i : key_pos kv l = Some i -> exists e, nth_error l i = Some e /\ entry_key e = kv /\
  forall j e', (j < i)%nat -> nth_error l j = Some e' -> entry_key e' <> kv.
Proof.
  revert i. induction l as [|e r IH]; intros i; cbn [key_pos]; [discriminate|].
  destruct (value_eqb (entry_key e) kv) eqn:E.
  - intros [= <-]. exists e. split; [reflexivity|]. split; [apply value_eqb_eq, E|]. intros j e' H. lia.
  - destruct (key_pos kv r) as [k|]; [|discriminate]. intros [= <-]. destruct (IH k eq_refl) as (x & H1 & H2 & H3).
    exists x. split; [exact H1|]. split; [exact H2|]. intros [|j] e' Hj He; cbn in He.
    + injection He as <-. intros E'. apply value_eqb_eq in E'. congruence.
    + apply (H3 j); [lia|exact He].
Qed.
Lemma key_pos_none kv l : key_pos kv l = None <-> forall e, In e l -> entry_key e <> kv.
Proof.
  induction l as [|e r IH]; cbn [key_pos In]; [split; [intros _ e []|reflexivity]|].
  destruct (value_eqb (entry_key e) kv) eqn:E.
  - split; [discriminate|]. intros H. apply value_eqb_eq in E. exfalso. apply (H e); auto.
  - assert (Hn : entry_key e <> kv) by (intros Q; apply value_eqb_eq in Q; congruence).
    destruct (key_pos kv r) as [k|] eqn:Ek; cbn [option_map].
    + split; [discriminate|]. intros H. exfalso. destruct IH as [_ IH]. discriminate IH. intros x Hx. apply H. auto.
    + split; [|reflexivity]. intros _ x [<-|Hx]; [exact Hn|]. apply IH; [reflexivity|exact Hx].
Qed.
Lemma key_pos_intro kv l i e : nth_error l i = Some e -> entry_key e = kv ->
  (forall j e', (j < i)%nat -> nth_error l j = Some e' -> entry_key e' <> kv) -> key_pos kv l = Some i.
Proof.
  revert i. induction l as [|x r IH]; intros [|i] He Hk Hn; cbn in He; try discriminate He.
  - injection He as ->. cbn [key_pos]. rewrite Hk, value_eqb_refl. reflexivity.
  - cbn [key_pos]. destruct (value_eqb (entry_key x) kv) eqn:E.
    + apply value_eqb_eq in E. exfalso. apply (Hn 0%nat x); [lia|reflexivity|exact E].
    + rewrite (IH i He Hk); [reflexivity|]. intros j e' Hj Hj'. apply (Hn (S j) e'); [lia|exact Hj'].
Qed.

Section Ordered.
  Variable strhash : skind -> list N -> N.
  Variable k : ty.
  Notation kh := (khash strhash k).

  Lemma ordered_cons e l : ordered strhash k (e :: l) = true <->
    ordered strhash k l = true /\ forall x, In x l -> kh e < kh x.
  Proof.
    revert e. induction l as [|x l IH]; intros e.
    - cbn. split; [intros _; split; [reflexivity|intros x []]|reflexivity].
    - change (ordered strhash k (e :: x :: l)) with ((kh e <? kh x) && ordered strhash k (x :: l)).
      rewrite andb_true_iff, N.ltb_lt. split.
      + intros [H1 H2]. split; [exact H2|]. apply IH in H2 as [_ H2]. intros y [<-|Hy]; [exact H1|]. specialize (H2 y Hy). lia.
      + intros [H1 H2]. split; [apply H2; left; reflexivity|exact H1].
  Qed.
  (** Ordered entries have different hashes, hence different keys. *)
  Lemma ordered_hash_inj l : ordered strhash k l = true -> forall i j a b, nth_error l i = Some a -> nth_error l j = Some b ->
    kh a = kh b -> i = j.
  Proof.
    induction l as [|x l IH]; intros Ho [|i] [|j] a b Ha Hb Hh; cbn in Ha, Hb; try discriminate; try reflexivity.
    - apply ordered_cons in Ho as [_ Ho]. injection Ha as ->. specialize (Ho b (nth_error_In _ _ Hb)). lia.
    - apply ordered_cons in Ho as [_ Ho]. injection Hb as ->. specialize (Ho a (nth_error_In _ _ Ha)). lia.
    - f_equal. apply ordered_cons in Ho as [Ho _]. eapply IH; eassumption.
  Qed.
  Lemma ordered_key_pos l i e : ordered strhash k l = true -> nth_error l i = Some e -> key_pos (entry_key e) l = Some i.
  Proof.
    intros Ho He. apply key_pos_intro with (e := e); [exact He|reflexivity|]. intros j e' Hj He' Hk.
    assert (j = i); [|lia]. eapply ordered_hash_inj; [exact Ho|exact He'|exact He|]. unfold khash. rewrite Hk. reflexivity.
  Qed.
  Lemma collides_not kv l : collides strhash k kv l = false <-> forall e, In e l -> kh e <> vhash strhash k kv.
  Proof.
    unfold collides. split.
    - intros H e He E. assert (Q : existsb (fun e => kh e =? vhash strhash k kv) l = true); [|congruence].
      apply existsb_exists. exists e. split; [exact He|]. apply N.eqb_eq, E.
    - intros H. destruct (existsb _ l) eqn:E; [|reflexivity]. apply existsb_exists in E as (e & He & E). apply N.eqb_eq in E. exfalso. exact (H e He E).
  Qed.
  Lemma collides_absent kv l : collides strhash k kv l = false -> key_pos kv l = None.
  Proof. intros H. apply key_pos_none. intros e He Hk. apply (proj1 (collides_not kv l) H e He). unfold khash. rewrite Hk. reflexivity. Qed.

  Lemma add_entry_cons kv w e l : add_entry strhash k kv w (e :: l) =
    if kh e <? vhash strhash k kv then e :: add_entry strhash k kv w l else entry kv w :: e :: l.
  Proof. unfold add_entry. cbn [lower_bound]. destruct (kh e <? vhash strhash k kv); reflexivity. Qed.
  Lemma add_entry_in kv w l x : In x (add_entry strhash k kv w l) <-> x = entry kv w \/ In x l.
  Proof.
    induction l as [|e l IH].
    - unfold add_entry, insert_at. cbn. intuition congruence.
    - rewrite add_entry_cons. destruct (kh e <? vhash strhash k kv); cbn [In]; [rewrite IH|]; intuition congruence.
  Qed.
  Lemma add_entry_ordered kv w l : ordered strhash k l = true -> collides strhash k kv l = false ->
    ordered strhash k (add_entry strhash k kv w l) = true.
  Proof.
    induction l as [|e l IH]; intros Ho Hc; [reflexivity|]. rewrite add_entry_cons.
    assert (Hne : kh e <> vhash strhash k kv) by (apply (proj1 (collides_not _ _) Hc); left; reflexivity).
    assert (Hc' : collides strhash k kv l = false) by (apply collides_not; intros x Hx; apply (proj1 (collides_not _ _) Hc); right; exact Hx).
    pose proof (proj1 (ordered_cons _ _) Ho) as [Ho1 Ho2].
    destruct (kh e <? vhash strhash k kv) eqn:E.
    - apply N.ltb_lt in E. apply ordered_cons. split; [apply IH; assumption|]. intros x Hx. apply add_entry_in in Hx as [->|Hx]; [exact E|apply Ho2, Hx].
    - apply N.ltb_ge in E. apply ordered_cons. split; [exact Ho|]. change (kh (entry kv w)) with (vhash strhash k kv).
      intros x [<-|Hx]; [lia|]. specialize (Ho2 x Hx). lia.
  Qed.
  Lemma insert_at_nth {A} p (x : A) l : (p <= List.length l)%nat -> nth_error (insert_at p x l) p = Some x.
  Proof.
    intros Hp. unfold insert_at. rewrite nth_error_app2; rewrite firstn_length_le by lia; [|lia]. rewrite Nat.sub_diag. reflexivity.
  Qed.
  Lemma lower_bound_le h l : (lower_bound strhash k h l <= List.length l)%nat.
  Proof. induction l as [|e l IH]; cbn; [lia|]. destruct (kh e <? h); lia. Qed.
  Lemma add_entry_length kv w l : List.length (add_entry strhash k kv w l) = S (List.length l).
  Proof.
    unfold add_entry, insert_at. rewrite app_length. cbn [List.length]. rewrite firstn_length, skipn_length. pose proof (lower_bound_le (vhash strhash k kv) l). lia.
  Qed.
  Lemma add_entry_pos kv w l : ordered strhash k l = true -> collides strhash k kv l = false ->
    key_pos kv (add_entry strhash k kv w l) = Some (lower_bound strhash k (vhash strhash k kv) l).
  Proof.
    intros Ho Hc. change kv with (entry_key (entry kv w)) at 1. apply ordered_key_pos; [apply add_entry_ordered; assumption|].
    apply insert_at_nth, lower_bound_le.
  Qed.
End Ordered.
