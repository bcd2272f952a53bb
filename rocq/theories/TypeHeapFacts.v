(** The objects behave as the values of [TypeHeapSpec]. *)
From Verif Require Import Base Types TypeBuild TypeSpec Compat TyInd TypeHeap TypeHeapSpec.
From Coq Require Import Lia.

(** * Types as labels and kids *)

Lemma combine_fst_snd {A B} (l : list (A * B)) : combine (map fst l) (map snd l) = l.
Proof. induction l as [|[a b] r IH]; cbn; [reflexivity|now rewrite IH]. Qed.
Lemma map_fst_combine {A B} (l : list A) (m : list B) : List.length l = List.length m -> map fst (combine l m) = l.
Proof. revert m; induction l as [|a r IH]; intros [|b m]; cbn; intros E; try discriminate; [reflexivity|rewrite IH; [reflexivity|lia]]. Qed.
Lemma map_snd_combine {A B} (l : list A) (m : list B) : List.length l = List.length m -> map snd (combine l m) = m.
Proof. revert m; induction l as [|a r IH]; intros [|b m]; cbn; intros E; try discriminate; [reflexivity|rewrite IH; [reflexivity|lia]]. Qed.

Lemma join_label t : join (label t) (kids t) = Some t.
Proof.
  destruct t; cbn; try reflexivity; rewrite !map_length, Nat.eqb_refl, combine_fst_snd; reflexivity.
Qed.
Lemma join_inv l ts t : join l ts = Some t -> l = label t /\ ts = kids t.
Proof.
  destruct l; cbn; intros E.
  1-3: destruct ts; inversion E; now split.
  1-2: destruct ts as [|? [|? ?]]; inversion E; now split.
  1-2: destruct ts as [|? [|? [|? ?]]]; inversion E; now split.
  - destruct (Nat.eqb_spec (List.length ms) (List.length ts)) as [L|]; [|discriminate]. inversion E; subst. cbn.
    rewrite map_fst_combine, map_snd_combine by exact L. now split.
  - destruct (Nat.eqb_spec (List.length ms) (List.length ts)) as [L|]; [|discriminate]. inversion E; subst. cbn.
    rewrite map_fst_combine, map_snd_combine by exact L. now split.
  - destruct ts as [|? [|? ?]]; inversion E; now split.
Qed.
Lemma label_kids t u : label t = label u -> kids t = kids u -> t = u.
Proof. intros A B. pose proof (join_label t) as J. rewrite A, B, join_label in J. now inversion J. Qed.

Lemma kids_ind (P : ty -> Prop) : (forall t, Forall P (kids t) -> P t) -> forall t, P t.
Proof.
  intros H t. apply ty_ind'; intros; apply H; cbn; auto.
  all: apply Forall_forall; intros u I; apply in_map_iff in I as (m & <- & Im);
    match goal with F : Forall _ _ |- _ => rewrite Forall_forall in F; exact (F m Im) end.
Qed.

Lemma tsize_kids t u : In u (kids t) -> (tsize u < tsize t)%nat.
Proof.
  destruct t; cbn [kids In]; try contradiction.
  - intros [<-|[]]; cbn; lia.
  - intros [<-|[]]; cbn; lia.
  - intros [<-|[<-|[]]]; cbn; lia.
  - intros [<-|[<-|[]]]; cbn; lia.
  - rewrite tsize_struct. intros I. apply in_map_iff in I as (m & <- & Im).
    pose proof (members_size_in _ _ Im) as L. unfold m_type in L. lia.
  - rewrite tsize_union. intros I. apply in_map_iff in I as (m & <- & Im).
    pose proof (members_size_in _ _ Im) as L. unfold m_type in L. lia.
  - intros [<-|[]]; cbn; lia.
Qed.

(** * Denotation *)

Lemma Forall2_impl {A B} (R S : A -> B -> Prop) l m : (forall x y, R x y -> S x y) -> Forall2 R l m -> Forall2 S l m.
Proof. intros H F. induction F; constructor; auto. Qed.

Inductive den (h : heap) : nat -> ty -> Prop :=
| Den a t c : get h a = Some c -> lab_of c = label t -> Forall2 (den h) (kids_of c) (kids t) -> den h a t.

Lemma den_inv h a t : den h a t -> exists c, get h a = Some c /\ lab_of c = label t /\ Forall2 (den h) (kids_of c) (kids t).
Proof. intros D. inversion D; subst. eauto. Qed.

Lemma Forall2_fun {A B} (R : A -> B -> Prop) l m1 m2 :
  Forall2 R l m1 -> Forall (fun y => forall x z, R x y -> R x z -> y = z) m1 -> Forall2 R l m2 -> m1 = m2.
Proof.
  intros F. revert m2. induction F as [|x y l m1 r F IH]; intros m2 U G; inversion G; subst; [reflexivity|].
  inversion U as [|? ? U1 U2]; subst. f_equal; [eapply U1; eassumption|now apply IH].
Qed.

Lemma den_fun h t : forall a u, den h a t -> den h a u -> t = u.
Proof.
  induction t as [t IH] using kids_ind. intros a u D E.
  apply den_inv in D as (c & G & L & K). apply den_inv in E as (c' & G' & L' & K').
  rewrite G in G'. inversion G'; subst c'.
  apply label_kids; [congruence|]. eapply (Forall2_fun _ _ _ _ K); [|exact K'].
  eapply Forall_impl; [|exact IH]. cbn. intros v H x z X Z. exact (H x z X Z).
Qed.

Lemma all_some_Forall2 {A B} (f : A -> option B) l m :
  all_some (map f l) = Some m <-> Forall2 (fun x y => f x = Some y) l m.
Proof.
  split.
  - revert m. induction l as [|a r IH]; cbn; intros m E; [inversion E; constructor|].
    destruct (f a) as [b|] eqn:Fa; [|discriminate]. destruct (all_some (map f r)) as [bs|] eqn:R; [|discriminate].
    inversion E; subst. constructor; [exact Fa|now apply IH].
  - intros F. induction F as [|a b l m H F IH]; cbn; [reflexivity|]. now rewrite H, IH.
Qed.

Lemma view_S n h a t : view (S n) h a = Some t <->
  exists c, get h a = Some c /\ lab_of c = label t /\ Forall2 (fun k u => view n h k = Some u) (kids_of c) (kids t).
Proof.
  cbn. split.
  - destruct (get h a) as [c|] eqn:G; [|discriminate].
    destruct (all_some (map (view n h) (kids_of c))) as [ts|] eqn:A; [|discriminate].
    intros J. apply join_inv in J as [L K]. exists c. split; [reflexivity|]. split; [exact L|].
    subst ts. now apply all_some_Forall2 in A.
  - intros (c & G & L & F). rewrite G. apply all_some_Forall2 in F. rewrite F, L. apply join_label.
Qed.

Lemma view_den h n : forall a t, view n h a = Some t -> den h a t.
Proof.
  induction n as [|n IH]; intros a t V; [discriminate|].
  apply view_S in V as (c & G & L & F). apply (Den h a t c G L).
  eapply Forall2_impl; [|exact F]. exact IH.
Qed.

Lemma get_lt h a c : get h a = Some c -> (a < List.length h)%nat.
Proof. unfold get. destruct (nth_error h a) eqn:E; [|discriminate]. intros _. apply nth_error_Some. congruence. Qed.

Lemma den_view_used h t : forall a used,
  den h a t -> NoDup used ->
  (forall x, In x used -> (x < List.length h)%nat /\ exists u, den h x u /\ (tsize t < tsize u)%nat) ->
  view (List.length h - List.length used) h a = Some t.
Proof.
  induction t as [t IH] using kids_ind. intros a used D N U.
  pose proof D as D0. apply den_inv in D as (c & G & L & K).
  assert (Na : ~ In a used).
  { intros I. destruct (U a I) as (_ & u & Du & Lt). assert (t = u) by (eapply den_fun; eassumption). subst. lia. }
  assert (N2 : NoDup (a :: used)) by (constructor; assumption).
  assert (Len : (List.length (a :: used) <= List.length h)%nat).
  { rewrite <- (seq_length (List.length h) 0). apply NoDup_incl_length; [exact N2|].
    intros x [<-|I]; apply in_seq; [apply get_lt in G; lia|destruct (U x I); lia]. }
  cbn [List.length] in Len.
  replace (List.length h - List.length used)%nat with (S (List.length h - List.length (a :: used))) by (cbn [List.length]; lia).
  apply view_S. exists c. split; [exact G|]. split; [exact L|].
  assert (KI : forall u, In u (kids t) -> (tsize u < tsize t)%nat) by apply tsize_kids.
  rewrite Forall_forall in IH.
  assert (G2 : forall ks ts, Forall2 (den h) ks ts -> (forall u, In u ts -> In u (kids t)) ->
    Forall2 (fun k u => view (List.length h - List.length (a :: used)) h k = Some u) ks ts).
  { clear K. intros ks ts F. induction F as [|k u ks ts Dk F IHF]; intros I; constructor.
    - apply IH; [apply I; now left|exact Dk|exact N2|].
      assert (Lu : (tsize u < tsize t)%nat) by (apply KI, I; now left).
      intros x [<-|Ix]; [split; [now apply get_lt in G|exists t; split; [exact D0|exact Lu]]|].
      destruct (U x Ix) as (A & v & Dv & Lv). split; [exact A|]. exists v. split; [exact Dv|lia].
    - apply IHF. intros v Iv. apply I. now right. }
  apply G2; [exact K|trivial].
Qed.

Lemma den_look h a t : den h a t <-> look_type h a = Some t.
Proof.
  split; [|apply view_den]. intros D. pose proof (den_view_used h t a [] D (NoDup_nil _)) as V.
  cbn [List.length] in V. rewrite Nat.sub_0_r in V. apply V. intros x [].
Qed.

(** * Growing and updating heaps *)

Definition ext (h h' : heap) : Prop := exists e, h' = (h ++ e)%list.
Lemma ext_refl h : ext h h. Proof. exists []. now rewrite app_nil_r. Qed.
Lemma ext_trans a b c : ext a b -> ext b c -> ext a c.
Proof. intros [x ->] [y ->]. exists (x ++ y)%list. now rewrite app_assoc. Qed.
Lemma ext_get h h' a c : ext h h' -> get h a = Some c -> get h' a = Some c.
Proof.
  intros [e ->] G. unfold get in *. destruct (nth_error h a) eqn:E; [|discriminate].
  rewrite nth_error_app1; [now rewrite E|]. apply nth_error_Some. congruence.
Qed.
Lemma ext_len h h' : ext h h' -> (List.length h <= List.length h')%nat.
Proof. intros [e ->]. rewrite app_length. lia. Qed.
Lemma ext_get_lt h h' a : ext h h' -> (a < List.length h)%nat -> get h' a = get h a.
Proof. intros [e ->] L. unfold get. now rewrite nth_error_app1. Qed.

Lemma ext_den h h' : ext h h' -> forall t a, den h a t -> den h' a t.
Proof.
  intros X t. induction t as [t IH] using kids_ind. intros a D. apply den_inv in D as (c & G & L & K).
  apply (Den h' a t c (ext_get _ _ _ _ X G) L). rewrite Forall_forall in IH.
  revert IH. induction K as [|k u ks ts Dk K IHK]; intros IH; constructor; [apply IH; [now left|exact Dk]|apply IHK; intros; apply IH; [now right|assumption]].
Qed.
Lemma ext_den_all h h' ks ts : ext h h' -> Forall2 (den h) ks ts -> Forall2 (den h') ks ts.
Proof. intros X F. eapply Forall2_impl; [|exact F]. intros; eapply ext_den; eassumption. Qed.

Definition kid_ok (h : heap) (R : nat -> Prop) (k : nat) : Prop :=
  exists d, get h k = Some d /\ managed d = true /\ (R k -> is_prim (lab_of d) = true).
Definition cell_ok (h : heap) (R : nat -> Prop) (c : cell) : Prop :=
  (managed c = true -> next_of c = None) /\ Forall (kid_ok h R) (kids_of c).
Definition inv (h : heap) (R : nat -> Prop) : Prop := forall a c, get h a = Some c -> cell_ok h R c.

Lemma kid_ok_ext h h' R k : ext h h' -> kid_ok h R k -> kid_ok h' R k.
Proof. intros X (d & G & M & P). exists d. split; [eapply ext_get; eassumption|now split]. Qed.
Lemma kids_ok_ext h h' R ks : ext h h' -> Forall (kid_ok h R) ks -> Forall (kid_ok h' R) ks.
Proof. intros X. apply Forall_impl. intros k. now apply kid_ok_ext. Qed.
Lemma cell_ok_ext h h' R c : ext h h' -> cell_ok h R c -> cell_ok h' R c.
Proof. intros X [A B]. split; [exact A|now apply (kids_ok_ext h)]. Qed.

Lemma get_snoc h x a : get (h ++ [x]) a = if Nat.eqb a (List.length h) then x else get h a.
Proof.
  unfold get. destruct (Nat.eqb_spec a (List.length h)) as [->|N].
  - rewrite nth_error_app2 by lia. rewrite Nat.sub_diag. cbn. now destruct x.
  - destruct (Nat.lt_ge_cases a (List.length h)) as [L|L]; [now rewrite nth_error_app1|].
    rewrite (proj2 (nth_error_None (h ++ [x]) a)) by (rewrite app_length; cbn; lia).
    now rewrite (proj2 (nth_error_None h a)) by lia.
Qed.

Lemma inv_snoc h R c : inv h R -> cell_ok h R c -> inv (h ++ [Some c]) R.
Proof.
  intros I C a d G. rewrite get_snoc in G. apply (cell_ok_ext h); [now exists [Some c]|].
  destruct (Nat.eqb a (List.length h)); [now inversion G; subst|now apply (I a)].
Qed.

(** A root besides the others that nothing points to yet. *)
Lemma inv_fresh h R c : inv h R -> cell_ok h R c ->
  inv (h ++ [Some c]) (fun k => R k \/ k = List.length h).
Proof.
  intros I C a d G. rewrite get_snoc in G.
  assert (K : cell_ok h R d) by (destruct (Nat.eqb a (List.length h)); [now inversion G; subst|now apply (I a)]).
  destruct K as [K1 K2]. split; [exact K1|]. eapply Forall_impl; [|exact K2]. intros k (e & Ge & Me & Pe).
  exists e. split; [eapply ext_get; [now exists [Some c]|exact Ge]|]. split; [exact Me|].
  intros [r| ->]; [now apply Pe|]. apply get_lt in Ge. lia.
Qed.

(** A root that is an object others may point to: a primitive one. *)
Lemma inv_prim h R a c : inv h R -> get h a = Some c -> is_prim (lab_of c) = true -> inv h (fun k => R k \/ k = a).
Proof.
  intros I G P b d Gb. destruct (I b d Gb) as [K1 K2]. split; [exact K1|]. eapply Forall_impl; [|exact K2].
  intros k (e & Ge & Me & Pe). exists e. split; [exact Ge|]. split; [exact Me|].
  intros [r| ->]; [now apply Pe|]. rewrite G in Ge. inversion Ge; now subst.
Qed.

Lemma inv_less h (R R' : nat -> Prop) : (forall k, R' k -> R k) -> inv h R -> inv h R'.
Proof.
  intros S I a c G. destruct (I a c G) as [A B]. split; [exact A|]. eapply Forall_impl; [|exact B].
  intros k (d & Gd & Md & Pd). exists d. split; [exact Gd|]. split; [exact Md|]. auto.
Qed.
Lemma kid_ok_less h (R R' : nat -> Prop) k : (forall x, R' x -> R x) -> kid_ok h R k -> kid_ok h R' k.
Proof. intros S (d & G & M & P). exists d. auto. Qed.

Lemma get_put h a x b : (a < List.length h)%nat -> get (put h a x) b = if Nat.eqb b a then x else get h b.
Proof.
  unfold get. revert a b. induction h as [|y r IH]; intros [|a] b L; cbn in L; try lia.
  - cbn. destruct b as [|b]; cbn; [now destruct x|reflexivity].
  - cbn. destruct b as [|b]; cbn; [reflexivity|]. apply IH. lia.
Qed.
Lemma put_length h a x : List.length (put h a x) = List.length h.
Proof. revert a; induction h as [|y r IH]; intros [|a]; cbn; auto. Qed.
Lemma put_same h a c : get h a = Some c -> put h a (Some c) = h.
Proof.
  unfold get. revert a. induction h as [|y r IH]; intros [|a]; cbn; try discriminate.
  - destruct y; [|discriminate]. now intros E; inversion E.
  - intros E. now rewrite IH.
Qed.

(** Updating an object nothing points to. *)
Lemma put_den h a x t : (a < List.length h)%nat ->
  (forall b c, get h b = Some c -> ~ In a (kids_of c)) ->
  forall b, b <> a -> den h b t -> den (put h a x) b t.
Proof.
  intros La N. induction t as [t IH] using kids_ind. intros b Nb D. apply den_inv in D as (c & G & L & K).
  apply (Den _ b t c); [rewrite get_put by exact La; destruct (Nat.eqb_spec b a); [contradiction|exact G]|exact L|].
  assert (Nk : forall k, In k (kids_of c) -> k <> a) by (intros k Ik ->; exact (N b c G Ik)).
  rewrite Forall_forall in IH. revert Nk IH. induction K as [|k u ks ts Dk K IHK]; intros Nk IH; constructor.
  - apply IH; [now left|apply Nk; now left|exact Dk].
  - apply IHK; [intros; apply Nk; now right|intros; apply IH; [now right|assumption|assumption]].
Qed.

Lemma root_no_kid h R a c : inv h R -> R a -> get h a = Some c -> is_prim (lab_of c) = false \/ managed c = false ->
  forall b d, get h b = Some d -> ~ In a (kids_of d).
Proof.
  intros I Ra G P b d Gb Ia. destruct (I b d Gb) as [_ F]. rewrite Forall_forall in F. destruct (F a Ia) as (e & Ge & Me & Pe).
  rewrite G in Ge. inversion Ge; subst e. rewrite (Pe Ra) in P. rewrite Me in P. destruct P; discriminate.
Qed.

Lemma inv_put h R a c x : inv h R -> R a -> get h a = Some c -> is_prim (lab_of c) = false \/ managed c = false ->
  (forall d, x = Some d -> cell_ok h R d) -> inv (put h a x) R.
Proof.
  intros I Ra G P X b d Gb. pose proof (get_lt _ _ _ G) as La. rewrite get_put in Gb by exact La.
  assert (K : cell_ok h R d) by (destruct (Nat.eqb b a); [now apply X|now apply (I b)]).
  destruct K as [K1 K2]. split; [exact K1|]. apply Forall_forall. intros k Ik. rewrite Forall_forall in K2.
  destruct (K2 k Ik) as (e & Ge & Me & Pe). exists e. split; [|now split].
  rewrite get_put by exact La. destruct (Nat.eqb_spec k a) as [->|]; [|exact Ge].
  exfalso. rewrite G in Ge. inversion Ge; subst e. rewrite (Pe Ra) in P. rewrite Me in P. destruct P; discriminate.
Qed.

(** * Copies *)

Definition below (R : nat -> Prop) (h : heap) : Prop := forall k, R k -> (k < List.length h)%nat.
Lemma below_ext R h h' : ext h h' -> below R h -> below R h'.
Proof. intros X B k r. apply ext_len in X. specialize (B k r). lia. Qed.

Definition cloned (h : heap) (R : nat -> Prop) (m : bool) (nx : option N) (t : ty) (h' : heap) (b : nat) : Prop :=
  exists h1 ks, h' = (h1 ++ [Some (Cell m (if m then None else nx) (label t) ks)])%list /\ b = List.length h1 /\
    ext h h1 /\ inv h1 R /\ Forall (kid_ok h1 R) ks /\ Forall2 (den h1) ks (kids t).

Lemma cloned_ext h R m nx t h' b : cloned h R m nx t h' b -> ext h h'.
Proof. intros (h1 & ks & -> & _ & X & _). eapply ext_trans; [exact X|]. eexists; reflexivity. Qed.
Lemma cloned_get h R m nx t h' b : cloned h R m nx t h' b ->
  exists ks, get h' b = Some (Cell m (if m then None else nx) (label t) ks).
Proof. intros (h1 & ks & -> & -> & _). exists ks. rewrite get_snoc, Nat.eqb_refl. reflexivity. Qed.
Lemma cloned_den h R m nx t h' b : cloned h R m nx t h' b -> den h' b t.
Proof.
  intros (h1 & ks & E1 & -> & _ & _ & _ & D). eapply (Den h' _ t); [subst h'; rewrite get_snoc, Nat.eqb_refl; reflexivity|reflexivity|].
  eapply ext_den_all; [|exact D]. subst. eexists; reflexivity.
Qed.
Lemma cloned_cell_ok R m nx t h1 ks : Forall (kid_ok h1 R) ks ->
  cell_ok h1 R (Cell m (if m then None else nx) (label t) ks).
Proof. intros F. split; [cbn; now intros ->|exact F]. Qed.
Lemma cloned_inv h R m nx t h' b : cloned h R m nx t h' b -> inv h' R.
Proof. intros (h1 & ks & -> & -> & _ & I & F & _). apply inv_snoc; [exact I|]. now apply cloned_cell_ok. Qed.
Lemma cloned_root h R m nx t h' b : cloned h R m nx t h' b -> inv h' (fun k => R k \/ k = b).
Proof. intros (h1 & ks & -> & -> & _ & I & F & _). apply inv_fresh; [exact I|]. now apply cloned_cell_ok. Qed.
Lemma cloned_new h R m nx t h' b : cloned h R m nx t h' b -> (List.length h <= b)%nat.
Proof. intros (h1 & ks & -> & -> & X & _). now apply ext_len. Qed.
Lemma cloned_kid h R nx t h' b : below R h -> cloned h R true nx t h' b -> kid_ok h' R b.
Proof.
  intros B C. pose proof (cloned_new _ _ _ _ _ _ _ C) as L. destruct (cloned_get _ _ _ _ _ _ _ C) as [ks G].
  eexists. split; [exact G|]. split; [reflexivity|]. intros r. specialize (B b r). lia.
Qed.

Definition pointed (h : heap) (R : nat -> Prop) (t : ty) (h' : heap) (b : nat) : Prop :=
  ext h h' /\ inv h' R /\ den h' b t /\ kid_ok h' R b.

Lemma is_prim_label t : is_prim (label t) = true -> kids t = [].
Proof. destruct t; cbn; congruence. Qed.

Lemma each_ptr n h0 :
  (forall t a c, view n h0 a = Some t -> get h0 a = Some c -> forall h m R, ext h0 h -> inv h R -> below R h ->
     exists h' b, clone n m h a = Some (h', b) /\ cloned h R m (next_of c) t h' b) ->
  forall ks ts, Forall2 (fun k u => view n h0 k = Some u) ks ts -> Forall (fun k => exists d, get h0 k = Some d) ks ->
  forall h R, ext h0 h -> inv h R -> below R h ->
  exists h' bs, each (ptr n) h ks = Some (h', bs) /\ ext h h' /\ inv h' R /\ Forall (kid_ok h' R) bs /\ Forall2 (den h') bs ts.
Proof.
  intros IH ks ts F. induction F as [|k u ks ts V F IHF]; intros GK h R X I B.
  - exists h, []. cbn. split; [reflexivity|]. split; [apply ext_refl|]. split; [exact I|]. split; constructor.
  - inversion GK as [|? ? [d Gd] GK']; subst. cbn [each]. unfold ptr at 1. rewrite (ext_get _ _ _ _ X Gd).
    destruct (is_prim (lab_of d) && managed d) eqn:PM.
    + apply andb_prop in PM as [P M].
      destruct (IHF GK' h R X I B) as (h' & bs & E & X' & I' & K' & D'). rewrite E.
      exists h', (k :: bs). split; [reflexivity|]. split; [exact X'|]. split; [exact I'|]. split; constructor; try assumption.
      * exists d. split; [eapply ext_get; [exact (ext_trans _ _ _ X X')|exact Gd]|]. split; [exact M|auto].
      * eapply ext_den; [exact (ext_trans _ _ _ X X')|]. eapply view_den; eassumption.
    + destruct (IH u k d V Gd h true R X I B) as (h1 & b & C & CL). rewrite C.
      pose proof (cloned_ext _ _ _ _ _ _ _ CL) as X1.
      destruct (IHF GK' h1 R (ext_trans _ _ _ X X1) (cloned_inv _ _ _ _ _ _ _ CL) (below_ext _ _ _ X1 B))
        as (h' & bs & E & X' & I' & K' & D'). rewrite E.
      exists h', (b :: bs). split; [reflexivity|]. split; [eapply ext_trans; eassumption|]. split; [exact I'|].
      split; constructor; try assumption.
      * eapply kid_ok_ext; [exact X'|]. eapply cloned_kid; [exact B|exact CL].
      * eapply ext_den; [exact X'|]. exact (cloned_den _ _ _ _ _ _ _ CL).
Qed.

Lemma clone_spec h0 n : forall t a c, view n h0 a = Some t -> get h0 a = Some c ->
  forall h m R, ext h0 h -> inv h R -> below R h ->
  exists h' b, clone n m h a = Some (h', b) /\ cloned h R m (next_of c) t h' b.
Proof.
  induction n as [|n IH]; intros t a c V G h m R X I B; [discriminate|].
  apply view_S in V as (c' & G' & L & F). rewrite G in G'. inversion G'; subst c'. cbn [clone].
  rewrite (ext_get _ _ _ _ X G).
  destruct (each_ptr n h0 IH (kids_of c) (kids t) F) with (h := h) (R := R) as (h' & bs & E & X' & I' & K' & D'); auto.
  { clear -F. induction F as [|k u ks ts V F IHF]; constructor; [|exact IHF]. apply view_den, den_inv in V as (d & Gd & _). eauto. }
  unfold ptr in E. rewrite E. eexists _, _. split; [reflexivity|]. exists h', bs. rewrite L. auto 10.
Qed.

Lemma ptr_spec h a t c R : den h a t -> get h a = Some c -> inv h R -> below R h ->
  exists h' b, ptr (List.length h) h a = Some (h', b) /\
    (h' = h /\ b = a /\ is_prim (lab_of c) = true /\ managed c = true \/ cloned h R true (next_of c) t h' b).
Proof.
  intros D G I B. unfold ptr. rewrite G. destruct (is_prim (lab_of c) && managed c) eqn:PM.
  - apply andb_prop in PM. exists h, a. split; [reflexivity|]. left. tauto.
  - apply den_look in D. destruct (clone_spec h _ _ _ _ D G h true R (ext_refl h) I B) as (h' & b & C & CL).
    exists h', b. split; [exact C|]. now right.
Qed.

Lemma ptr_pointed h a t R : den h a t -> inv h R -> below R h ->
  exists h' b, ptr (List.length h) h a = Some (h', b) /\ pointed h R t h' b.
Proof.
  intros D I B. destruct (den_inv _ _ _ D) as (c & G & _). destruct (ptr_spec h a t c R D G I B) as (h' & b & E & [(-> & -> & P & M)|CL]).
  - exists h, a. split; [exact E|]. split; [apply ext_refl|]. split; [exact I|]. split; [exact D|]. exists c. auto.
  - exists h', b. split; [exact E|]. split; [eapply cloned_ext, CL|]. split; [eapply cloned_inv, CL|].
    split; [eapply cloned_den, CL|]. eapply cloned_kid; [exact B|exact CL].
Qed.

Lemma each_spec h ks ts R : Forall2 (den h) ks ts -> inv h R -> below R h ->
  exists h' bs, each (ptr (List.length h)) h ks = Some (h', bs) /\ ext h h' /\ inv h' R /\
    Forall (kid_ok h' R) bs /\ Forall2 (den h') bs ts.
Proof.
  intros F I B. apply (each_ptr (List.length h) h) with (ks := ks) (ts := ts); auto using ext_refl.
  - intros t a c V G h1 m R1. now apply clone_spec.
  - eapply Forall2_impl; [|exact F]. intros x y D. now apply den_look.
  - clear -F. induction F as [|k u ks ts V F IHF]; constructor; [|exact IHF]. apply den_inv in V as (d & Gd & _). eauto.
Qed.

(** * Reaching objects *)

Lemma rget_spec h R n : inv h R -> forall t a, view n h a = Some t ->
  exists b, rget_at n h a = Some b /\ den h b (rget t) /\
    (is_alias t = false /\ b = a \/ is_alias t = true /\ kid_ok h R b).
Proof.
  intros I. induction n as [|n IH]; intros t a V; [discriminate|].
  pose proof (view_den _ _ _ _ V) as D. apply view_S in V as (c & G & L & F). cbn [rget_at]. rewrite G.
  destruct c as [m nx l ks]. cbn [lab_of kids_of] in *.
  destruct (is_alias t) eqn:A.
  - destruct t; try discriminate. cbn in L, F. subst l.
    inversion F as [|k u ks' ts' V F']; subst. inversion F'; subst.
    destruct (IH _ _ V) as (b & E & Db & K). rewrite E. exists b. split; [reflexivity|]. split; [exact Db|]. right.
    split; [reflexivity|]. destruct K as [[_ ->]|[_ K]]; [|exact K].
    destruct (I a _ G) as [_ KS]. cbn in KS. inversion KS; now subst.
  - exists a. split; [destruct t; cbn in L; subst l; try discriminate A; reflexivity|].
    split; [destruct t; try discriminate A; exact D|now left].
Qed.

Lemma follow_spec h R p : inv h R -> forall a t, den h a t ->
  match part t p with
  | Some u => exists b, follow h a p = Some b /\ den h b u /\ (p = [] /\ b = a \/ p <> [] /\ kid_ok h R b)
  | None => follow h a p = None
  end.
Proof.
  intros I. induction p as [|i p IH]; intros a t D; cbn [part follow].
  - exists a. split; [reflexivity|]. split; [exact D|]. now left.
  - destruct (den_inv _ _ _ D) as (c & G & L & F). rewrite G.
    assert (Nth : match nth_error (kids t) i with
                  | Some u => exists k, nth_error (kids_of c) i = Some k /\ den h k u
                  | None => nth_error (kids_of c) i = None end).
    { clear -F. revert i. induction F as [|k u ks ts D F IHF]; intros [|i]; cbn; [reflexivity|reflexivity|eauto|apply IHF]. }
    destruct (nth_error (kids t) i) as [u|]; [|now rewrite Nth]. destruct Nth as (k & Nk & Dk). rewrite Nk.
    specialize (IH k u Dk). destruct (part u p) as [w|]; [|exact IH].
    destruct IH as (b & Fb & Db & [[-> ->]|[_ K]]).
    + exists k. split; [reflexivity|]. split; [exact Db|]. right. split; [discriminate|].
      destruct (I a c G) as [_ KS]. rewrite Forall_forall in KS. apply KS. eapply nth_error_In, Nk.
    + exists b. split; [exact Fb|]. split; [exact Db|]. right. split; [discriminate|exact K].
Qed.
