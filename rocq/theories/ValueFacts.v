(** Facts about values and positions. *)
From Verif Require Import Base Types TypeBuild TypeSpec Mem MemSpec TyInd Layout CompatFacts2 MemEqns MemFacts
  EnumFacts ConstructFacts CopyFacts CompareFacts Ops OpsSpec UnionFacts SeqFacts CollectFacts
  Hash HashSpec MapOps MapSpec MapValue MapFacts PathFacts ValueSpec.

Lemma wf_struct_iff' nm s ms v : wf_value (TStruct nm s ms) v <-> exists l, v = VNode l /\ Forall2 (fun m x => wf_value (m_type m) x) ms l.
Proof.
  cbn [wf_value]. destruct v as [| |l|]; try (split; [tauto|intros (l & H & _); discriminate H]).
  transitivity (Forall2 (fun m x => wf_value (m_type m) x) ms l); [|split; [eauto|intros (l' & [= ->] & H); exact H]].
  revert l; induction ms as [|[[n o] t] ms IH]; intros [|x l]; try (split; [tauto|intros H; inversion H]).
  - split; auto.
  - rewrite IH. split; [intros [H1 H2]; constructor; assumption|intros H; inversion H; subst; auto].
Qed.
Lemma collect_Forall n i f l (P : value -> Prop) : collect n i f = Ok l -> (forall j x, i <= j < i + N.of_nat n -> f j = Ok x -> P x) -> Forall P l.
Proof.
  revert i l; induction n as [|n IH]; intros i l E H; cbn [collect] in E.
  - injection E as <-. constructor.
  - apply bind_ok in E as (x & Ex & E). apply bind_ok in E as (r & Er & E). injection E as <-. constructor.
    + apply (H i x); [lia|exact Ex].
    + eapply IH; [exact Er|]. intros j y Hj. apply H. lia.
Qed.
Lemma mmap_Forall2 {A B} (f : A -> res B) l l' (P : A -> B -> Prop) : mmap f l = Ok l' -> (forall a b, In a l -> f a = Ok b -> P a b) -> Forall2 P l l'.
Proof.
  revert l'; induction l as [|a l IH]; intros l' E H; cbn [mmap] in E.
  - injection E as <-. constructor.
  - apply bind_ok in E as (x & Ex & E). apply bind_ok in E as (r & Er & E). injection E as <-. constructor.
    + apply H; [left; reflexivity|exact Ex].
    + apply IH; [exact Er|]. intros a' b' Hin. apply H. right. exact Hin.
Qed.
Lemma read_bytes_wf b off n bs : bytes_at b off n -> read_bytes b off n = Ok bs -> N.of_nat (List.length bs) = n /\ Forall (fun x => x < 256) bs.
Proof.
  intros Hb Hr. apply read_bytes_spec in Hr as [Hl Hn]. split; [exact Hl|]. apply Forall_forall. intros x Hx.
  apply (In_nth _ _ 0) in Hx as (i & Hi & <-). specialize (Hn (N.of_nat i) ltac:(lia)). destruct (Hb (N.of_nat i) ltac:(lia)) as (y & Hy & Hlt).
  rewrite Hn in Hy. rewrite Nat2N.id in Hy. injection Hy as <-. exact Hlt.
Qed.
Lemma pick_member (P : ty -> Prop) x m ms : find_member x ms = Some m -> P (m_type m) ->
  (fix go (l : list (string * N * ty)) : Prop :=
     match l with [] => False | (mn, _, mt) :: r => if String.eqb x mn then P mt else go r end) ms.
Proof.
  intros Hf Hm. induction ms as [|[[mn mo] mt] ms IH]; cbn [find_member] in Hf; [discriminate Hf|].
  change (m_name (mn, mo, mt)) with mn in Hf. destruct (String.eqb x mn); [injection Hf as <-; exact Hm|apply IH, Hf].
Qed.
Lemma live_wf_value t : good t -> forall b off v, live t b off -> read t b off = Ok v -> wf_value t v.
Proof.
  induction t as [p|nm sz vals|k bd|nm c n IHc|c bd IHc|k w bd IHk IHw|x y IHx IHy|nm s ms IHms|nm s ms labels dv iv d IHms|nm a IHa]
    using ty_ind'; intros Hg b off v L R.
  - cbn [read] in R. apply bind_ok in R as (bs & E & R). injection R as <-. cbn [wf_value]. eapply read_bytes_wf; eassumption.
  - cbn [read] in R. apply bind_ok in R as (bs & E & R). injection R as <-. cbn [wf_value]. eapply read_bytes_wf; eassumption.
  - cbn [live read] in *. destruct L as (s & [Ha Hi] & Hb). rewrite Ha, Hi, skind_eqb_refl in R. cbn in R. injection R as <-. exact Hb.
  - cbn [live read] in *. apply bind_ok in R as (l & E & R). injection R as <-. cbn [wf_value]. destruct (collect_nth _ _ _ _ E) as [Hl _].
    split; [lia|]. eapply collect_Forall; [exact E|]. intros j x Hj Rx. eapply IHc; [eapply good_arr, Hg| |exact Rx]. apply L. lia.
  - cbn [live] in L. destruct L as (cap & size & m & Ho & Hsz & Hb & _ & _ & L). rewrite (read_seq_obj _ _ _ _ _ _ _ Ho) in R.
    apply bind_ok in R as (l & E & R). injection R as <-. cbn [wf_value]. destruct (collect_nth _ _ _ _ E) as [Hl _].
    split; [lia|]. eapply collect_Forall; [exact E|]. intros j x Hj Rx. eapply IHc; [eapply good_seq, Hg| |exact Rx]. apply L. lia.
  - destruct (good_map _ _ _ Hg) as [Gk Gw]. cbn [live] in L. destruct L as (cap & size & m & [Ho1 Ho2] & Hsz & Hb & _ & _ & L).
    cbn [read] in R. rewrite Ho1, Ho2 in R.
    apply bind_ok in R as (l & E & R). injection R as <-. cbn [wf_value]. destruct (collect_nth _ _ _ _ E) as [Hl _].
    split; [lia|]. eapply collect_Forall; [exact E|]. intros j x Hj Rx. apply bind_ok in Rx as (x1 & R1 & Rx). apply bind_ok in Rx as (x2 & R2 & Rx). injection Rx as <-.
    destruct (L j ltac:(lia)) as [L1 L2]. split; [eapply IHk|eapply IHw]; eassumption.
  - destruct (good_pair _ _ Hg) as [G1 G2]. destruct L as [L1 L2]. cbn [read] in R. apply bind_ok in R as (x1 & R1 & R). apply bind_ok in R as (x2 & R2 & R). injection R as <-.
    split; [eapply IHx|eapply IHy]; eassumption.
  - apply wf_struct_iff'. rewrite live_struct, Forall_forall in L. rewrite read_struct in R. apply bind_ok in R as (l & E & R). injection R as <-.
    exists l. split; [reflexivity|]. eapply mmap_Forall2; [exact E|]. intros m x Hin Rx. rewrite Forall_forall in IHms. eapply IHms; [exact Hin|eapply good_struct; eassumption| |exact Rx].
    apply L, Hin.
  - destruct (good_union_inv _ _ _ _ _ _ _ Hg) as (dn & disc & cs & -> & Gd & _).
    destruct (union_state _ _ _ _ _ _ _ _ _ Hg b off L) as (_ & Ld & bs & l0 & Rd0 & Gl0 & Lo0 & H0).
    rewrite Forall_forall in IHms. assert (Wd : wf_value disc (VBytes bs)) by (eapply (IHms (dn, 0, disc)); [left; reflexivity|exact Gd|exact Ld|exact Rd0]).
    cbn [wf_value]. destruct (lookup_label l0 labels) as [x|] eqn:Ex.
    + destruct H0 as (m & w & Hf & Hlm & Rm & Ru). rewrite R in Ru. injection Ru as ->. split; [exact Wd|]. exists l0. split; [exact Lo0|]. rewrite Ex.
      destruct (u_member _ _ _ _ _ _ _ _ _ Hg _ _ Hf) as (Hf' & Hin & Hn & _ & _ & Hgm).
      assert (Wm : wf_value (m_type m) w) by (eapply (IHms m); [right; eapply find_member_in, Hf|exact Hgm|exact Hlm|exact Rm]).
      exact (pick_member (fun t => wf_value t w) x m _ Hf' Wm).
    + rewrite R in H0. injection H0 as ->. split; [exact Wd|]. exists l0. rewrite Ex. auto.
  - cbn [live read wf_value] in *. eapply IHa; [eapply good_alias, Hg|exact L|exact R].
Qed.

(** ** Positions *)
Fixpoint at_pos {A} (ns : list nat) (g : value -> option (A * value)) (v : value) : option (A * value) :=
  match ns with [] => g v | i :: r => at_index i (at_pos r g) v end.
Lemma at_index_ext {A} i (f g : value -> option (A * value)) v : (forall x, f x = g x) -> at_index i f v = at_index i g v.
Proof. intros H. unfold at_index. destruct v; try reflexivity. destruct (nth_error l i); [rewrite H|]; reflexivity. Qed.
Lemma vmod_pos {A} strhash q (g : value -> option (A * value)) : forall t ns, position q t = Some ns -> forall v, vmod strhash q g t v = at_pos ns g v.
Proof.
  induction q as [|s q IH]; intros t ns Hp v; cbn [position] in Hp; [injection Hp as <-; reflexivity|].
  assert (Hcons : forall i t', option_map (cons i) (position q t') = Some ns -> at_index i (vmod strhash q g t') v = at_pos ns g v).
  { intros i t' H. destruct (position q t') as [r|] eqn:E; [|discriminate H]. injection H as <-. cbn [at_pos]. apply at_index_ext. intros x. apply IH, E. }
  destruct s as [nm|nm|i|kv|kv]; try discriminate Hp; cbn [vmod].
  1,2: destruct (rget t); try discriminate Hp; destruct (member_index nm ms); [|discriminate Hp]; destruct (find_member nm ms); [|discriminate Hp]; apply Hcons, Hp.
  destruct (rget t); try discriminate Hp; try (apply Hcons, Hp).
  - destruct (i =? 0); [apply Hcons, Hp|]. destruct (i =? 1); [apply Hcons, Hp|discriminate Hp].
  - destruct (nth_error ms (N.to_nat i)); [apply Hcons, Hp|discriminate Hp].
Qed.
Lemma replace_nth_same {A} i (y : A) l x : nth_error l i = Some x -> nth_error (replace_nth i y l) i = Some y.
Proof. revert i; induction l as [|z l IH]; intros [|i] H; cbn in *; try discriminate H; [reflexivity|apply IH, H]. Qed.
Lemma replace_nth_other {A} i j (y : A) l : i <> j -> nth_error (replace_nth i y l) j = nth_error l j.
Proof. revert i j; induction l as [|z l IH]; intros [|i] [|j] H; cbn; try reflexivity; try congruence. apply IH. congruence. Qed.
Lemma at_pos_inv {A} ns (g : value -> option (A * value)) : forall v a v', at_pos ns g v = Some (a, v') ->
  exists x y, elem ns v = Some x /\ g x = Some (a, y) /\ elem ns v' = Some y /\ forall ms, disjoint_pos ns ms -> elem ms v' = elem ms v.
Proof.
  induction ns as [|i ns IH]; intros v a v' H; cbn [at_pos] in H.
  - exists v, v'. cbn [elem]. repeat split; auto. intros ms [].
  - unfold at_index in H. destruct v as [| |l|]; try discriminate H. destruct (nth_error l i) as [z|] eqn:Ez; [|discriminate H].
    destruct (at_pos ns g z) as [[a' y']|] eqn:E; [|discriminate H]. injection H as <- <-. cbn [fst snd].
    destruct (IH _ _ _ E) as (x & y & H1 & H2 & H3 & H4). exists x, y. cbn [elem]. rewrite Ez, (replace_nth_same _ _ _ _ Ez).
    repeat (split; [assumption|]). intros [|j ms] Hd; [contradiction Hd|]. cbn [elem disjoint_pos] in *.
    destruct (Nat.eq_dec i j) as [<-|Hn].
    + rewrite (replace_nth_same _ _ _ _ Ez), Ez. apply H4. destruct Hd as [Hd|Hd]; [contradiction|exact Hd].
    + rewrite replace_nth_other by exact Hn. reflexivity.
Qed.
Lemma at_pos_def {A} ns (g : value -> option (A * value)) : forall v x a y, elem ns v = Some x -> g x = Some (a, y) -> exists v', at_pos ns g v = Some (a, v').
Proof.
  induction ns as [|i ns IH]; intros v x a y He Hg; cbn [at_pos elem] in *.
  - injection He as <-. eauto.
  - destruct v as [| |l|]; try discriminate He. cbn [at_index]. destruct (nth_error l i) as [z|]; [|discriminate He].
    destruct (IH _ _ _ _ He Hg) as (v' & ->). cbn. eauto.
Qed.
