(** Every map that a program builds stays in the order of the hashes of its keys. *)
From Verif Require Import Base Types TypeBuild TypeSpec Compat Mem MemSpec TyInd Layout MemEqns MemFacts ConstructFacts
  UnionFacts CollectFacts Ops OpsSpec Hash HashSpec MapSpec MapValue PathFacts Realize Prog ProgSpec ProgFacts ValueSpec ValueFacts DataSpec DataFacts
  HistSpec HistFacts MapHistSpec ConvSpec ConvFacts ConvTotal.

Section Order.
  Variable strhash : skind -> list N -> N.
  Definition map_good (k : ty) (l : list value) : Prop := ordered strhash k l = true /\ forall e, In e l -> exists x y, e = VNode [x; y].
  Definition P (T : ty) (w : value) : Prop :=
    match T with
    | TMap k _ _ => exists l, w = VNode l /\ map_good k l
    | TPair _ _ => exists x y, w = VNode [x; y]
    | _ => True
    end.
  (** The invariant: maps are ordered and made of entries, pairs are pairs. *)
  Definition E (t : ty) (v : value) : Prop := forall T w, inside t v T w -> P T w.
  Lemma E_ordered t v : E t v -> maps_ordered strhash t v.
  Proof. intros H k w bd l Hi. destruct (H _ _ Hi) as (l' & [= <-] & Hg & _). exact Hg. Qed.

  Lemma E_here t v : E t v -> P t v.
  Proof. intros H. eapply H, in_here. Qed.
  Lemma E_arr nm c n l : E (TArr nm c n) (VNode l) <-> Forall (E c) l.
  Proof.
    rewrite Forall_forall. split.
    - intros H x Hx T w Hi. eapply H, in_arr; eassumption.
    - intros H T w Hi. inversion Hi; subst; [exact I|]. eapply H; eassumption.
  Qed.
  Lemma E_seq c bd l : E (TSeq c bd) (VNode l) <-> Forall (E c) l.
  Proof.
    rewrite Forall_forall. split.
    - intros H x Hx T w Hi. eapply H, in_seq; eassumption.
    - intros H T w Hi. inversion Hi; subst; [exact I|]. eapply H; eassumption.
  Qed.
  Lemma E_map k v bd l : E (TMap k v bd) (VNode l) <-> map_good k l /\ forall x y, In (VNode [x; y]) l -> E k x /\ E v y.
  Proof.
    split.
    - intros H. split; [destruct (E_here _ _ H) as (l' & [= <-] & Hg); exact Hg|]. intros x y Hx. split; intros T w Hi; eapply H; [eapply in_key|eapply in_val]; eassumption.
    - intros [Ho H] T w Hi. inversion Hi; subst; [eexists; split; [reflexivity|exact Ho]| |];
        match goal with Hin : In (VNode [_; _]) l |- _ => destruct (H _ _ Hin) as [H1 H2] end; [apply H1|apply H2]; assumption.
  Qed.
  Lemma E_pair a c x y : E (TPair a c) (VNode [x; y]) <-> E a x /\ E c y.
  Proof.
    split.
    - intros H. split; intros T w Hi; eapply H; [eapply in_fst|eapply in_snd]; eassumption.
    - intros [H1 H2] T w Hi. inversion Hi; subst; [eexists; eexists; reflexivity| |]; [apply H1|apply H2]; assumption.
  Qed.
  Lemma E_struct nm s ms l : E (TStruct nm s ms) (VNode l) <-> forall i m x, nth_error ms i = Some m -> nth_error l i = Some x -> E (m_type m) x.
  Proof.
    split.
    - intros H i m x Hm Hx T w Hi. eapply H, in_struct; eassumption.
    - intros H T w Hi. inversion Hi; subst; [exact I|]. eapply H; eassumption.
  Qed.
  Lemma E_union nm s dn o disc cs labels dv iv d v0 mv : check_discriminator disc = true ->
    E (TUnion nm s ((dn, o, disc) :: cs) labels dv iv d) (VUnion v0 mv) <->
    forall x l a m, mv = Some x -> label_of disc v0 = Some l -> lookup_label l labels = Some a -> find_member a ((dn, o, disc) :: cs) = Some m -> E (m_type m) x.
  Proof.
    intros Hc. split.
    - intros H x l a m -> Hl Ha Hf T w Hi. eapply H, in_case; eassumption.
    - intros H T w Hi. inversion Hi; subst; [exact I| |].
      + match goal with Hd : inside disc _ _ _ |- _ => revert Hd end.
        clear - Hc. intros Hd. revert Hc. unfold check_discriminator. induction Hd; try discriminate; [|exact IHHd]. destruct t; try discriminate; intros; exact I.
      + eapply H; eauto.
  Qed.
  Lemma E_alias nm a v : E (TAlias nm a) v <-> E a v.
  Proof.
    split.
    - intros H T w Hi. eapply H, in_alias; eassumption.
    - intros H T w Hi. inversion Hi; subst; [exact I|]. eapply H; eassumption.
  Qed.
  Lemma E_rget t v : E t v <-> E (rget t) v.
  Proof. induction t using ty_ind'; try reflexivity. rewrite E_alias. exact IHt. Qed.
  Lemma E_leaf t v : match t with TPrim _ | TStr _ _ | TEnum _ _ _ => True | _ => False end -> E t v.
  Proof. intros H T w Hi. destruct t; try contradiction H; inversion Hi; exact I. Qed.

  Lemma blank_E t : good t -> forall v, blank t v -> E t v.
  Proof.
    induction t as [p|nm sz vals|k bd|nm c n IHc|c bd IHc|k w bd IHk IHw|x y IHx IHy|nm s ms IHms|nm s ms labels dv iv d IHms|nm a IHa]
      using ty_ind'; intros Hg v Hb; try (apply E_leaf; exact I).
    - cbn [blank] in Hb. destruct v as [| |l|]; try contradiction Hb. apply E_arr. eapply Forall_impl; [|apply Hb]. intros x. apply IHc. eapply good_arr, Hg.
    - cbn [blank] in Hb. subst v. apply E_seq. constructor.
    - cbn [blank] in Hb. subst v. apply E_map. split; [split; [reflexivity|intros e []]|intros x y []].
    - cbn [blank] in Hb. destruct v as [| |[|a [|c [|? ?]]]|]; try contradiction Hb. destruct (good_pair _ _ Hg). apply E_pair. split; [apply IHx|apply IHy]; tauto.
    - destruct v as [| |l|]; try contradiction Hb. apply blank_struct in Hb. apply E_struct. intros i m x Hm Hx. rewrite Forall_forall in IHms.
      apply IHms; [eapply nth_error_In, Hm|eapply good_struct; [exact Hg|eapply nth_error_In, Hm]|].
      clear - Hb Hm Hx. revert i l Hb Hm Hx; induction ms as [|m0 ms IH]; intros [|i] l Hb Hm Hx; try discriminate Hm; inversion Hb; subst; cbn in *.
      + injection Hm as ->. injection Hx as ->. assumption.
      + eapply IH; eassumption.
    - destruct (good_union_inv _ _ _ _ _ _ _ Hg) as (dn & disc & cs & -> & Gd & Hc & _). destruct v as [| | |v0 mv]; try contradiction Hb.
      apply E_union; [exact Hc|]. intros x l a m -> Hl Ha Hf. cbn [blank] in Hb. destruct Hb as (l' & a' & Hl' & Ha' & Hb).
      rewrite Hl in Hl'. injection Hl' as <-. rewrite Ha in Ha'. injection Ha' as <-.
      apply (unpick_member (fun t => blank t x) _ _ _ Hf) in Hb. destruct (find_member_in _ _ _ Hf) as [Hin _]. rewrite Forall_forall in IHms. apply (IHms m Hin); [|exact Hb].
      eapply good_union; eassumption.
    - apply E_alias. apply IHa; [eapply good_alias, Hg|exact Hb].
  Qed.
  Lemma default_E t : good t -> E t (default_value t).
  Proof. intros Hg. apply blank_E; [exact Hg|apply default_blank, Hg]. Qed.

  (** ** One access *)
  Lemma ordered_keys k l l' : map entry_key l = map entry_key l' -> ordered strhash k l = ordered strhash k l'.
  Proof.
    revert l'; induction l as [|e l IH]; intros [|e' l'] H; try discriminate H; [reflexivity|]. injection H as He H. specialize (IH _ H).
    destruct l as [|e2 l], l' as [|e2' l']; try discriminate H; [reflexivity|]. cbn [ordered] in *. rewrite IH. unfold khash. rewrite He. injection H as He2 _. rewrite He2. reflexivity.
  Qed.
  Lemma replace_in {A} i (y : A) l x : In x (replace_nth i y l) -> x = y \/ In x l.
  Proof. revert i; induction l as [|z l IH]; intros [|i]; cbn; try tauto; intuition. destruct (IH i H0); auto. Qed.
  Lemma at_index_inv {A} i (f : value -> option (A * value)) v a v' : at_index i f v = Some (a, v') ->
    exists l x y, v = VNode l /\ nth_error l i = Some x /\ f x = Some (a, y) /\ v' = VNode (replace_nth i y l).
  Proof.
    unfold at_index. destruct v as [| |l|]; try discriminate. destruct (nth_error l i) as [x|] eqn:Ex; [|discriminate].
    destruct (f x) as [[a' y]|] eqn:Ef; [|discriminate]. intros [= <- <-]. exists l, x, y. auto.
  Qed.
  Lemma at_key_inv {A} kv (f : value -> option (A * value)) l a v' : at_key kv f l = Some (a, v') ->
    exists i x y y', nth_error l i = Some (VNode (x :: y)) /\ entry_key (VNode (x :: y)) = kv /\ at_index 1 f (VNode (x :: y)) = Some (a, VNode (x :: y')) /\ v' = VNode (replace_nth i (VNode (x :: y')) l).
  Proof.
    unfold at_key. destruct (key_pos kv l) as [i|] eqn:Ek; [|discriminate]. intros H. apply at_index_inv in H as (l' & e & e' & [= <-] & He & Hf & ->).
    pose proof Hf as Hf'. apply at_index_inv in Hf as (l' & u & z & -> & Hu & Hz & ->). destruct l' as [|x [|y l']]; try discriminate Hu.
    cbn in Hu. injection Hu as ->. exists i, x, (u :: l'), (z :: l'). split; [exact He|]. split; [|split; [exact Hf'|reflexivity]].
    destruct (key_pos_some _ _ _ Ek) as (e & H1 & H2 & _). rewrite He in H1. injection H1 as <-. exact H2.
  Qed.

  Fixpoint keys_E (q : list rstep) : Prop :=
    match q with
    | [] => True
    | RF _ :: r => keys_E r
    | (RKey T kv | RAt T kv) :: r => E T kv /\ keys_E r
    end.

  Lemma case_type nm s dn disc cs labels dv iv d x l m : good (TUnion nm s ((dn, 0, disc) :: cs) labels dv iv d) ->
    find_member x cs = Some m -> first_label x labels = Some l ->
    forall l' a m', label_of disc (label_bytes disc l) = Some l' -> lookup_label l' labels = Some a -> find_member a ((dn, 0, disc) :: cs) = Some m' -> m' = m.
  Proof.
    intros Hg Hm Hl l' a m' E1 E2 E3. destruct (good_union_inv _ _ _ _ _ _ _ Hg) as (dn' & disc' & cs' & Em & Gd & Hc & _ & Hiv & _ & _ & Hdn & Hnd & Hlw).
    inversion Em; subst dn' disc' cs'. pose proof (first_label_in _ _ _ Hl) as Hin.
    unfold label_of, label_bytes in E1. rewrite label_roundtrip in E1 by (apply disc_sizes; [apply Gd|exact Hc]).
    rewrite (u_label_shrunk _ _ _ _ _ _ _ _ _ Hg l x Hin) in E1. injection E1 as <-.
    assert (Hsort : sorted_labels labels) by apply Hlw. rewrite (sorted_lookup _ _ _ Hsort Hin) in E2. injection E2 as <-.
    cbn [find_member] in E3. change (m_name (dn, 0, disc)) with dn in E3. destruct (find_member_in _ _ _ Hm) as [Hi Hn].
    destruct (String.eqb x dn) eqn:Ed; [|congruence]. exfalso. apply String.eqb_eq in Ed. inversion Hnd as [|? ? Hnot _]. apply Hnot. cbn [m_name fst]. rewrite <- Ed, <- Hn. apply (in_map m_name), Hi.
  Qed.

  Lemma vmod_E {A} (Q : A -> Prop) q (g : value -> option (A * value)) : forall t T, good t -> keys_fit q t -> keys_E q -> path_ty (map erase q) t = Some T ->
    (forall x a x', E T x -> g x = Some (a, x') -> Q a /\ E T x') ->
    forall v a v', E t v -> vmod strhash (map erase q) g t v = Some (a, v') -> Q a /\ E t v'.
  Proof.
    induction q as [|s q IH]; intros t T Hg Hf Hk HT HQ v a v' Hv H.
    { cbn in HT, H. injection HT as <-. rewrite E_rget in *. apply (HQ v); [exact Hv|exact H]. }
    rewrite E_rget in Hv. rewrite E_rget. apply good_rget in Hg.
    assert (Hmem : forall nm' s' ms i m nm, rget t = TStruct nm' s' ms -> nth_error ms i = Some m -> find_member nm ms = Some m \/ True -> keys_fit q (m_type m) -> keys_E q -> path_ty (map erase q) (m_type m) = Some T ->
      at_index i (vmod strhash (map erase q) g (m_type m)) v = Some (a, v') -> Q a /\ E (TStruct nm' s' ms) v').
    { intros nm' s' ms i m nm Et Hm _ F' K' T' H'. rewrite Et in *. apply at_index_inv in H' as (l & x & y & -> & Hx & Hy & ->).
      rewrite E_struct in Hv. destruct (IH (m_type m) T ltac:(eapply good_struct; [exact Hg|eapply nth_error_In, Hm]) F' K' T' HQ x a y (Hv _ _ _ Hm Hx) Hy) as [Qa Ey].
      split; [exact Qa|]. apply E_struct. intros j m' z Hm' Hz. destruct (Nat.eq_dec j i) as [->|Hne].
      - rewrite (replace_nth_same _ _ _ _ Hx) in Hz. injection Hz as <-. rewrite Hm in Hm'. injection Hm' as <-. exact Ey.
      - rewrite replace_nth_other in Hz by congruence. eapply Hv; eassumption. }
    assert (Hmi : forall nm ms i m, member_index nm ms = Some i -> find_member nm ms = Some m -> nth_error ms i = Some m).
    { intros nm ms. induction ms as [|m0 ms IHm]; intros i m Hi Hm; [discriminate Hi|]. cbn [member_index find_member] in *. destruct (String.eqb nm (m_name m0)).
      - injection Hi as <-. exact Hm.
      - destruct (member_index nm ms) as [j|] eqn:Ej; [|discriminate Hi]. injection Hi as <-. cbn. apply IHm; auto. }
    assert (Hcase : forall nm' s' dn o disc cs labels dv iv d x m l w y, rget t = TUnion nm' s' ((dn, o, disc) :: cs) labels dv iv d ->
      find_member x cs = Some m -> first_label x labels = Some l -> find_member x ((dn, o, disc) :: cs) = Some m -> keys_fit q (m_type m) -> path_ty (map erase q) (m_type m) = Some T -> keys_E q ->
      E (m_type m) w -> vmod strhash (map erase q) g (m_type m) w = Some (a, y) -> Q a /\ E (TUnion nm' s' ((dn, o, disc) :: cs) labels dv iv d) (VUnion (label_bytes disc l) (Some y))).
    { intros nm' s' dn o disc cs labels dv iv d x m l w y Et Hm Hl Hm2 F' T' K' Ew Hy. rewrite Et in *.
      destruct (good_union_inv _ _ _ _ _ _ _ Hg) as (dn' & disc' & cs' & Em & Gd & Hc & _). inversion Em; subst dn' disc' cs' o.
      destruct (find_member_in _ _ _ Hm) as [Hin _].
      destruct (IH (m_type m) T ltac:(eapply good_union; [exact Hg|right; exact Hin]) F' K' T' HQ w a y Ew Hy) as [Qa Ey].
      split; [exact Qa|]. apply E_union; [exact Hc|]. intros z l' a' m' [= <-] E1 E2 E3.
      rewrite (case_type _ _ _ _ _ _ _ _ _ _ _ _ Hg Hm Hl _ _ _ E1 E2 E3). exact Ey. }
    assert (Hsame : forall nm' s' dn o disc cs labels dv iv d x m, rget t = TUnion nm' s' ((dn, o, disc) :: cs) labels dv iv d -> find_member x cs = Some m -> find_member x ((dn, o, disc) :: cs) = Some m).
    { intros nm' s' dn o disc cs labels dv iv d x m Et Hm. rewrite Et in Hg.
      destruct (good_union_inv _ _ _ _ _ _ _ Hg) as (dn' & disc' & cs' & Em & Gd & Hc & _ & Hiv & _ & _ & Hdn & Hnd & Hlw). inversion Em; subst dn' disc' cs' o.
      clear Em. subst dn. cbn [find_member m_name fst]. destruct (find_member_in _ _ _ Hm) as [Hi Hn].
      destruct (String.eqb x UNION_DISCRIMINATOR) eqn:Ed; [|exact Hm]. exfalso. apply String.eqb_eq in Ed. inversion Hnd as [|? ? Hnot _]. apply Hnot. cbn [m_name fst]. rewrite <- Ed, <- Hn. apply (in_map m_name), Hi. }
    assert (Hact : forall nm' s' dn o disc cs labels dv iv d x m v0 w cur, rget t = TUnion nm' s' ((dn, o, disc) :: cs) labels dv iv d -> v = VUnion v0 (Some w) ->
      label_of disc v0 = Some cur -> lookup_label cur labels = Some x -> find_member x cs = Some m -> E (m_type m) w).
    { intros nm' s' dn o disc cs labels dv iv d x m v0 w cur Et -> Hc1 Hc2 Hm. pose proof (Hsame _ _ _ _ _ _ _ _ _ _ _ _ Et Hm) as Hm2. rewrite Et in *.
      destruct (good_union_inv _ _ _ _ _ _ _ Hg) as (dn' & disc' & cs' & Em & Gd & Hc & _). inversion Em; subst dn' disc' cs' o.
      rewrite E_union in Hv by exact Hc. eapply Hv; [reflexivity|exact Hc1|exact Hc2|exact Hm2]. }
    assert (Hkey : forall k w bd kv l, rget t = TMap k w bd -> keys_fit q w -> keys_E q -> path_ty (map erase q) w = Some T -> E (TMap k w bd) (VNode l) ->
      at_key kv (vmod strhash (map erase q) g w) l = Some (a, v') -> Q a /\ E (TMap k w bd) v').
    { intros k w bd kv l Et F' K' T' El H'. rewrite Et in *. apply at_key_inv in H' as (i & x & y & y' & Hn & Hx & Ha & ->).
      apply at_index_inv in Ha as (l' & u & z & [= <-] & Hu & Hz & Hy'). destruct y as [|u' y]; [discriminate Hu|]. cbn in Hu. injection Hu as ->.
      injection Hy' as ->. apply E_map in El as [Ho El]. destruct (good_map _ _ _ Hg) as [Gk Gw].
      destruct Ho as [Ho Hp]. destruct (Hp _ (nth_error_In _ _ Hn)) as (x0 & y0 & E0). injection E0 as <- <- ->.
      destruct (El _ _ (nth_error_In _ _ Hn)) as [Ex Eu]. destruct (IH w T Gw F' K' T' HQ u a z Eu Hz) as [Qa Ez]. split; [exact Qa|]. apply E_map. split; [split|].
      - rewrite <- Ho. apply ordered_keys. clear - Hn. revert i Hn; induction l as [|e l IHl]; intros [|i] Hn; try discriminate Hn; cbn in *; [injection Hn as ->; reflexivity|]. f_equal. apply IHl, Hn.
      - intros e Hin. apply replace_in in Hin as [->|Hin]; [eauto|apply Hp, Hin].
      - intros x1 y1 Hin. apply replace_in in Hin as [[= -> ->]|Hin]; [|apply El, Hin]. split; [exact Ex|exact Ez]. }
    destruct s as [[nm|nm|i]|K kv|K kv]; cbn [map erase fstep_vstep vmod keys_fit keys_E path_ty] in *.
    - destruct (rget t) as [| | | | | | |nm' s' ms|nm' s' ms labels dv iv d|] eqn:Et; try discriminate H.
      + destruct (member_index nm ms) as [i|] eqn:Ei; [|discriminate H]. destruct (find_member nm ms) as [m|] eqn:Em; [|discriminate H].
        eapply (Hmem _ _ _ i m nm eq_refl (Hmi _ _ _ _ Ei Em)); auto.
      + destruct ms as [|[[dn o] disc] cs]; [discriminate H|]. destruct v as [| | |v0 mv]; try discriminate H.
        destruct (find_member nm cs) as [m|] eqn:Em; [|discriminate H]. destruct (first_label nm labels) as [l|] eqn:El; [|discriminate H].
        destruct (label_of disc v0) as [cur|] eqn:Ec; [|discriminate H].
        destruct (vmod strhash (map erase q) g (m_type m) _) as [[a' y]|] eqn:Ey; [|discriminate H]. cbn in H. injection H as <- <-.
        pose proof (Hsame _ _ _ _ _ _ _ _ _ _ _ _ eq_refl Em) as Em2. rewrite Em2 in *.
        eapply Hcase; try eassumption; try reflexivity. unfold keep_or_default.
        assert (Hdef : E (m_type m) (default_value (m_type m))) by (apply default_E; eapply good_union; [exact Hg|right; apply (find_member_in _ _ _ Em)]).
        destruct (lookup_label cur labels) as [x|] eqn:Ex; [|exact Hdef]. destruct mv as [w|]; [|exact Hdef]. destruct (String.eqb x nm) eqn:Exn; [|exact Hdef].
        apply String.eqb_eq in Exn. subst x. exact (Hact nm' s' dn o disc cs labels dv iv d nm m v0 w cur eq_refl eq_refl Ec Ex Em).
    - destruct (rget t) as [| | | | | | |nm' s' ms|nm' s' ms labels dv iv d|] eqn:Et; try discriminate H.
      + destruct (member_index nm ms) as [i|] eqn:Ei; [|discriminate H]. destruct (find_member nm ms) as [m|] eqn:Em; [|discriminate H].
        eapply (Hmem _ _ _ i m nm eq_refl (Hmi _ _ _ _ Ei Em)); auto.
      + destruct ms as [|[[dn o] disc] cs]; [discriminate H|]. destruct v as [| | |v0 [w|]]; try discriminate H.
        destruct (find_member nm cs) as [m|] eqn:Em; [|discriminate H]. destruct (first_label nm labels) as [l|] eqn:El; [|discriminate H].
        destruct (label_of disc v0) as [cur|] eqn:Ec; [|discriminate H]. destruct (lookup_label cur labels) as [x|] eqn:Ex; [|discriminate H].
        destruct (String.eqb x nm) eqn:Exn; [|discriminate H]. apply String.eqb_eq in Exn. subst x.
        destruct (vmod strhash (map erase q) g (m_type m) _) as [[a' y]|] eqn:Ey; [|discriminate H]. cbn in H. injection H as <- <-.
        pose proof (Hsame _ _ _ _ _ _ _ _ _ _ _ _ eq_refl Em) as Em2. rewrite Em2 in *.
        eapply Hcase; try eassumption; try reflexivity. exact (Hact nm' s' dn o disc cs labels dv iv d nm m v0 w cur eq_refl eq_refl Ec Ex Em).
    - destruct (rget t) as [| | |anm c n|c bd| |x1 y1|nm' s' ms| |] eqn:Et; try discriminate H.
      + apply at_index_inv in H as (l & x & y & -> & Hx & Hy & ->). rewrite E_arr in *. rewrite Forall_forall in Hv.
        destruct (IH c T ltac:(eapply good_arr, Hg) Hf Hk HT HQ x a y (Hv _ (nth_error_In _ _ Hx)) Hy) as [Qa Ey]. split; [exact Qa|].
        apply Forall_forall. intros z Hz. apply replace_in in Hz as [->|Hz]; auto.
      + apply at_index_inv in H as (l & x & y & -> & Hx & Hy & ->). rewrite E_seq in *. rewrite Forall_forall in Hv.
        destruct (IH c T ltac:(eapply good_seq, Hg) Hf Hk HT HQ x a y (Hv _ (nth_error_In _ _ Hx)) Hy) as [Qa Ey]. split; [exact Qa|].
        apply Forall_forall. intros z Hz. apply replace_in in Hz as [->|Hz]; auto.
      + destruct (good_pair _ _ Hg) as [G1 G2]. destruct (E_here _ _ Hv) as (u & z & ->). apply E_pair in Hv as [H1 H2]. destruct (i =? 0).
        * apply at_index_inv in H as (l & x & y & [= <-] & [= <-] & Hy & ->). destruct (IH _ _ G1 Hf Hk HT HQ _ _ _ H1 Hy) as [Qa Ey]. split; [exact Qa|]. apply E_pair. auto.
        * destruct (i =? 1); [|discriminate H]. apply at_index_inv in H as (l & x & y & [= <-] & [= <-] & Hy & ->). destruct (IH _ _ G2 Hf Hk HT HQ _ _ _ H2 Hy) as [Qa Ey]. split; [exact Qa|]. apply E_pair. auto.
      + destruct (nth_error ms (N.to_nat i)) as [m|] eqn:Em; [|discriminate H]. eapply (Hmem _ _ _ _ m EmptyString eq_refl Em); auto.
    - destruct (rget t) as [| | | | |k w bd| | | |] eqn:Et; try discriminate H. destruct v as [| |l|]; try discriminate H.
      destruct Hf as (-> & _ & _ & Hf). destruct Hk as [Ek Hk]. destruct (touch_key strhash k w bd kv l) as [l'|] eqn:Etk; [|discriminate H].
      apply (Hkey k w bd kv l' eq_refl Hf Hk HT); [|exact H]. unfold touch_key in Etk. apply E_map in Hv as [[Ho Hp] Hv]. rewrite Ho in Etk.
      destruct (key_pos kv l); [injection Etk as <-; apply E_map; split; [split|]; assumption|]. destruct (negb _ && _) eqn:Ea; [|discriminate Etk]. injection Etk as <-.
      apply andb_true_iff in Ea as [Ea _]. apply negb_true_iff in Ea. destruct (good_map _ _ _ Hg) as [Gk Gw]. apply E_map. split; [split|].
      + apply add_entry_ordered; assumption.
      + intros e He. apply add_entry_in in He as [->|He]; [unfold entry; eauto|apply Hp, He].
      + intros x y He. apply add_entry_in in He as [[= -> ->]|He]; [|apply Hv, He]. split; [apply E_rget, Ek|apply default_E, Gw].
    - destruct (rget t) as [| | | | |k w bd| | | |] eqn:Et; try discriminate H. destruct v as [| |l|]; try discriminate H.
      destruct Hf as (-> & _ & _ & Hf). destruct Hk as [Ek Hk]. destruct (ordered strhash k l); [|discriminate H]. exact (Hkey k w bd kv l eq_refl Hf Hk HT Hv H).
  Qed.

  Lemma label_back nm s dn disc cs labels dv iv d l x : good (TUnion nm s ((dn, 0, disc) :: cs) labels dv iv d) ->
    lookup_label l labels = Some x -> label_of disc (label_bytes disc l) = Some l.
  Proof.
    intros Hg Hl. destruct (good_union_inv _ _ _ _ _ _ _ Hg) as (dn' & disc' & cs' & Em & Gd & Hc & _). inversion Em; subst disc' cs'.
    unfold label_of, label_bytes. rewrite label_roundtrip by (apply disc_sizes; [apply Gd|exact Hc]). f_equal. apply (u_label_shrunk _ _ _ _ _ _ _ _ _ Hg l x).
    revert Hl. clear. induction labels as [|[k y] r IH]; cbn [lookup_label In]; [discriminate|]. destruct (Z.eqb l k) eqn:E; [|intros H; right; exact (IH H)].
    apply Z.eqb_eq in E. intros [= ->]. subst k. left. reflexivity.
  Qed.
  Definition rop_E (r : rop) : Prop :=
    match r with RPush T w | RAssign T w | RInsert T w | REq T w | RHasKey T w => E T w | _ => True end.
  Lemma op_E T r : good T -> rget T = T -> op_ok T r -> rop_E r -> forall x a x', E T x -> op_value strhash T r x = Some (a, x') -> True /\ E T x'.
  Proof.
    intros Hg Hr Hok Hre x a x' Hx H. split; [exact I|].
    assert (Hask : forall f, asking f x = Some (a, x') -> E T x').
    { intros f Hf. unfold asking in Hf. destruct (f x); [|discriminate Hf]. injection Hf as _ <-. exact Hx. }
    destruct r as [y|n|y|T' w|T' w|l|T' w|y| | |T' w|T' w]; cbn [op_value] in H; try (eapply Hask, H).
    - injection H as <- <-. apply E_leaf. destruct T; try contradiction Hok; exact I.
    - destruct T as [| | | |c bd| | | | |]; try contradiction Hok. unfold resize_value in H. destruct x as [| |l|]; try discriminate H. destruct (accepts c bd n n); [|discriminate H].
      injection H as <- <-. rewrite E_seq in *. apply Forall_app. split; [exact Hx|]. apply Forall_forall. intros z Hz. apply repeat_spec in Hz. subst z.
      apply default_E. eapply good_seq, Hg.
    - destruct T as [| | | |c bd| | | | |]; try contradiction Hok. unfold push_value in H. destruct x as [| |l|]; try discriminate H. cbv zeta in H. destruct (accepts _ _ _ _); [|discriminate H].
      injection H as <- <-. rewrite E_seq in *. apply Forall_app. split; [exact Hx|]. constructor; [|constructor]. apply E_leaf. destruct c; try contradiction Hok; exact I.
    - destruct T as [| | | |c bd| | | | |]; try contradiction Hok. destruct Hok as (-> & _). unfold push_value in H. destruct x as [| |l|]; try discriminate H. cbv zeta in H. destruct (accepts _ _ _ _); [|discriminate H].
      injection H as <- <-. rewrite E_seq in *. apply Forall_app. split; [exact Hx|]. constructor; [|constructor]. apply E_rget, Hre.
    - injection H as <- <-. destruct Hok as (<- & _). exact Hre.
    - destruct T as [| | | | | | | |nm s ms labels dv iv d|]; try discriminate H. cbn [disc_value] in H. destruct ms as [|[[dn o] disc] cs]; [discriminate H|].
      destruct (good_union_inv _ _ _ _ _ _ _ Hg) as (dn' & disc' & cs' & Em & Gd & Hc & _). inversion Em; subst dn' disc' cs' o.
      destruct x as [| | |v0 [w|]]; try discriminate H. destruct (label_of disc v0) as [cur|] eqn:Ec; [|discriminate H]. destruct (lookup_label l labels) as [x|] eqn:Ex; [|discriminate H].
      destruct (lookup_label cur labels) as [y|] eqn:Ey; [|discriminate H]. destruct (String.eqb x y) eqn:Exy; [|discriminate H]. apply String.eqb_eq in Exy. subst y.
      injection H as <- <-. rewrite E_union in * by exact Hc. intros u l' a' m [= <-] E1 E2 E3. rewrite (label_back _ _ _ _ _ _ _ _ _ _ _ Hg Ex) in E1. injection E1 as <-.
      rewrite Ex in E2. injection E2 as <-. eapply Hx; [reflexivity|exact Ec|exact Ey|exact E3].
    - destruct T as [| | | | |k v bd| | | |]; try contradiction Hok. destruct Hok as (-> & _). unfold insert_value in H. destruct x as [| |l|]; try discriminate H. cbv zeta in H.
      apply E_map in Hx as [[Ho Hp] Hx]. rewrite Ho in H. destruct ((bd =? 0) || _); [|injection H as _ <-; apply E_map; split; [split|]; assumption].
      destruct (negb _ && _) eqn:Ea; [|discriminate H]. injection H as _ <-.
      apply andb_true_iff in Ea as [Ea _]. apply negb_true_iff in Ea. destruct (good_map _ _ _ Hg) as [Gk Gw]. cbn [rop_E] in Hre.
      destruct (E_here _ _ Hre) as (u & z & ->). apply E_pair in Hre as [Hu _]. cbn [entry_key] in *. apply E_map. split; [split|].
      + apply add_entry_ordered; assumption.
      + intros e He. apply add_entry_in in He as [->|He]; [unfold entry; eauto|apply Hp, He].
      + intros x y He. apply add_entry_in in He as [[= -> ->]|He]; [|apply Hx, He]. split; [exact Hu|apply default_E, Gw].
    - destruct T as [| | | | |k v bd| | | |]; try discriminate H. eapply Hask, H.
  Qed.

  (** ** Programs *)
  Definition vs_E (vs : vstate) : Prop := forall x t v, nth_error vs x = Some (VLive t v) -> good t /\ E t v.
  Lemma vs_put vs x u : vs_E vs -> (forall t v, u = VLive t v -> good t /\ E t v) -> vs_E (set_nth x u vs).
  Proof.
    intros H Hu y t' v' Hy. destruct (Nat.eq_dec x y) as [->|Hne]; [|rewrite set_nth_other in Hy by exact Hne; eapply H, Hy].
    assert (Hl : (y < List.length vs)%nat) by (rewrite <- (set_nth_length y u vs); apply nth_error_Some; congruence).
    rewrite set_nth_same in Hy by exact Hl. injection Hy as ->. apply Hu. reflexivity.
  Qed.
  Lemma vs_add vs u : vs_E vs -> (forall t v, u = VLive t v -> good t /\ E t v) -> vs_E (vs ++ [u]).
  Proof.
    intros H Hu y t v Hy. destruct (Nat.lt_ge_cases y (List.length vs)) as [Hl|Hl].
    - rewrite nth_error_app1 in Hy by exact Hl. eapply H, Hy.
    - rewrite nth_error_app2 in Hy by exact Hl. destruct (y - List.length vs)%nat as [|n]; [injection Hy as ->; apply Hu; reflexivity|destruct n; discriminate Hy].
  Qed.
  Lemma fetch_E vs y q T w vs' : vfetch_path strhash vs y q T w vs' -> vs_E vs -> keys_E q -> E T w /\ vs_E vs'.
  Proof.
    intros H Hvs Hk. inversion H as [vs0 y0 q0 t v T0 w0 v' Hy Hf HT Hm]; subst. destruct (Hvs _ _ _ Hy) as [Hg He].
    destruct (vmod_E (E T) q (fun x => Some (x, x)) t T Hg Hf Hk HT) with (v := v) (a := w) (v' := v') as [Hw Hv']; [|exact He|exact Hm|].
    - intros x a x' Hx [= <- <-]. auto.
    - split; [exact Hw|]. apply vs_put; [exact Hvs|]. intros t' v0 [= <- <-]. auto.
  Qed.
  Lemma keys_E_plain fs : keys_E (map RF fs).
  Proof. induction fs; cbn; auto. Qed.
  Lemma resolve_E vs p q vs' : vresolve strhash vs p q vs' -> vs_E vs -> keys_E q /\ vs_E vs'.
  Proof.
    induction 1 as [vs|vs s r q vs' _ IH|vs k r T kv vs1 q vs' Hf _ IH|vs k r T kv vs1 q vs' Hf _ IH]; intros Hvs; [split; [exact I|exact Hvs]|exact (IH Hvs)| |].
    all: destruct (fetch_E _ _ _ _ _ _ Hf Hvs (keys_E_plain _)) as [Hk Hvs1]; destruct (IH Hvs1) as [Hq Hvs']; split; [split|]; assumption.
  Qed.
  Lemma source_E vs y T w vs' : vsource strhash vs y T w vs' -> vs_E vs -> E T w /\ vs_E vs'.
  Proof.
    intros H Hvs. inversion H as [vs0 y0 p q vs1 T0 w0 vs2 Hr Hf]; subst. destruct (resolve_E _ _ _ _ Hr Hvs) as [Hk Hvs1]. eapply fetch_E; eassumption.
  Qed.
  Lemma vop_E vs o r vs' : vop strhash vs o r vs' -> vs_E vs -> rop_E r /\ vs_E vs'.
  Proof. intros H Hvs. inversion H; subst; try (split; [exact I|exact Hvs]); cbn [rop_E]; eapply source_E; eassumption. Qed.
  (** ** Conversions *)
  Lemma bare_E o : forall v, wf_value o v -> E o v -> exists w, bare o v = (strip1 o, w) /\ wf_value (strip1 o) w /\ E (strip1 o) w.
  Proof.
    induction o as [p|nm sz vals|k bd|nm c n IHc|c bd IHc|k w bd IHk IHw|x y IHx IHy|nm s ms IHms|nm s ms labels dv iv d IHms|nm a IHa]
      using ty_ind'; intros v Hv He; try (exists v; split; [reflexivity|split; [exact Hv|exact He]]).
    - destruct ms as [|[[mn mo] mt] [|m2 r]]; try (exists v; split; [reflexivity|split; [exact Hv|exact He]]).
      apply wf_struct_iff' in Hv as (l & -> & Hv). inversion Hv as [|? x ? l' H1 H2]; subst. inversion H2; subst. cbn [m_type snd] in H1.
      inversion IHms as [|? ? H3 _]; subst. cbn [m_type snd] in H3. cbn [bare strip1]. apply H3; [exact H1|]. rewrite E_struct in He. exact (He 0%nat _ _ eq_refl eq_refl).
    - cbn [bare strip1]. apply IHa; [exact Hv|]. apply E_alias in He. exact He.
  Qed.
  Lemma ordered_firstn k n : forall l, ordered strhash k l = true -> ordered strhash k (firstn n l) = true.
  Proof.
    induction n as [|n IH]; intros [|e l] H; try reflexivity. cbn [firstn]. destruct l as [|e2 l]; [destruct n; reflexivity|].
    change ((khash strhash k e <? khash strhash k e2) && ordered strhash k (e2 :: l) = true) in H. apply andb_true_iff in H as [H1 H2]. specialize (IH _ H2). destruct n; [reflexivity|].
    cbn [firstn] in *. change ((khash strhash k e <? khash strhash k e2) && ordered strhash k (e2 :: firstn n l) = true). rewrite H1. exact IH.
  Qed.
  Lemma converts_E fc t : good t -> forall o v v', converts fc t o v v' -> wf_value o v -> E o v -> E t v'.
  Proof.
    induction t as [p|nm sz vals|k bd|nm c n IHc|c bd IHc|k w bd IHk IHw|x y IHx IHy|nm s ms IHms|nm s ms labels dv iv df IHms|nm a IHa]
      using ty_ind'; intros Hg o v v' Hc Hv He; try (apply E_leaf; exact I); cbn [converts] in Hc.
    - destruct (bare_E o v Hv He) as (u & Eb & Hu & He'). rewrite Eb in Hc. destruct (strip1 o) as [| | |on c' n'| | | | | |]; try contradiction Hc. destruct u as [| |l|]; try contradiction Hu.
      destruct v' as [| |l'|]; try contradiction Hc. destruct Hc as (_ & _ & Hc). apply E_arr. apply E_arr in He'. cbn [wf_value] in Hu. destruct Hu as [_ Hu].
      apply (forall_firstn _ (N.to_nat n)) in He'. apply (forall_firstn _ (N.to_nat n)) in Hu.
      induction Hc as [|a b l1 l2 H _ IH]; [constructor|]. inversion He'; inversion Hu; subst. constructor; [eapply IHc; [eapply good_arr, Hg|exact H|assumption|assumption]|]. apply IH; assumption.
    - destruct (bare_E o v Hv He) as (u & Eb & Hu & He'). rewrite Eb in Hc. destruct (strip1 o) as [| | | |c' bd'| | | | |]; try contradiction Hc. destruct u as [| |l|]; try contradiction Hu.
      destruct v' as [| |l'|]; try contradiction Hc. destruct Hc as (_ & _ & Hc). apply E_seq. apply E_seq in He'. cbn [wf_value] in Hu. destruct Hu as [_ Hu].
      apply (forall_at_most _ bd) in He'. apply (forall_at_most _ bd) in Hu.
      induction Hc as [|a b l1 l2 H _ IH]; [constructor|]. inversion He'; inversion Hu; subst. constructor; [eapply IHc; [eapply good_seq, Hg|exact H|assumption|assumption]|]. apply IH; assumption.
    - destruct (bare_E o v Hv He) as (u & Eb & Hu & He'). rewrite Eb in Hc. destruct (strip1 o) as [| | | | |k' w' bd'| | | |]; try contradiction Hc. destruct u as [| |l|]; try contradiction Hu.
      destruct Hc as (-> & -> & _ & _ & _ & ->). apply E_map in He' as [[Ho Hp] He']. apply E_map. unfold at_most. destruct (bd =? 0); [split; [split|]; assumption|].
      split; [split; [apply ordered_firstn, Ho|]|].
      + intros e Hin. apply Hp. rewrite <- (firstn_skipn (N.to_nat bd) l). apply in_or_app. left. exact Hin.
      + intros a b Hin. apply He'. rewrite <- (firstn_skipn (N.to_nat bd) l). apply in_or_app. left. exact Hin.
    - destruct (bare_E o v Hv He) as (u & Eb & Hu & He'). rewrite Eb in Hc. destruct (strip1 o) as [| | | | | |x' y'| | |]; try contradiction Hc. destruct u as [| |[|p [|q [|? ?]]]|]; try contradiction Hu.
      destruct v' as [| |[|p' [|q' [|? ?]]]|]; try contradiction Hc. cbn [wf_value] in Hu. destruct Hc as (_ & H1 & H2). apply E_pair in He' as [He1 He2]. destruct Hu as [Hu1 Hu2]. destruct (good_pair _ _ Hg) as [Hg1 Hg2].
      apply E_pair. split; [eapply IHx|eapply IHy]; eassumption.
    - destruct v' as [| |l'|]; try contradiction Hc. apply rget_wf in Hv. apply E_rget in He. apply E_struct. intros i m x' Hm Hx'.
      rewrite Forall_forall in IHms. assert (Hgm : good (m_type m)) by (eapply good_struct; [exact Hg|eapply nth_error_In, Hm]).
      specialize (IHms m (nth_error_In _ _ Hm) Hgm).
      assert (Hone : forall o', (match ms, l' with [(_, _, mt)], [x'] => converts fc mt o' v x' | _, _ => False end) -> wf_value o' v -> E o' v -> E (m_type m) x').
      { intros o' H Hw He'. destruct ms as [|[[mn mo] mt] [|? ?]]; try contradiction H. destruct l' as [|? [|? ?]]; try contradiction H. destruct i as [|i]; [|destruct i; discriminate Hm].
        injection Hm as <-. injection Hx' as <-. eapply IHms; eassumption. }
      destruct (rget o) as [| | | | | | |on os oms| |] eqn:Er; try (eapply Hone; eassumption). clear Hone.
      apply wf_struct_iff' in Hv as (l & -> & Hv). apply members_convert_eq in Hc. rewrite E_struct in He.
      clear Hg Er. revert oms l l' i Hc Hv He Hm Hx'. induction ms as [|m0 r IH]; intros [|om oms] [|z l] [|z' l'] [|i] Hc Hv He Hm Hx'; cbn in Hm, Hx'; try discriminate; try (destruct r; contradiction Hc); try (inversion Hv; fail).
      + injection Hm as ->. injection Hx' as ->. destruct r; [|contradiction Hc]. destruct l'; [|contradiction Hc]. cbn [members_convert] in Hc. subst x'. apply default_E, Hgm.
      + destruct r; [destruct i; discriminate Hm|contradiction Hc].
      + injection Hm as ->. injection Hx' as ->. inversion Hv as [|? ? ? ? Hv1 Hv2]; subst. eapply IHms; [|exact Hv1|exact (He 0%nat _ _ eq_refl eq_refl)]. destruct r; apply Hc.
      + inversion Hv as [|? ? ? ? Hv1 Hv2]; subst. apply (IH oms l l' i); try assumption; [destruct r; apply Hc|]. intros j mj xj Hj Hxj. exact (He (S j) mj xj Hj Hxj).
    - destruct Hc as (-> & _ & ->). exact He.
    - apply E_alias. apply (IHa (good_alias _ _ Hg) o v); assumption.
  Qed.
  Lemma exec_E fc vs s a vs' : exec fc strhash vs s a vs' -> (forall x t v, nth_error vs x = Some (VLive t v) -> wf_value t v) -> vs_E vs -> vs_E vs'.
  Proof.
    intros H Hwf Hvs. inversion H; subst.
    - apply vs_add; [exact Hvs|]. intros t' v [= <- <-]. assert (Hg : good t) by (split; [apply api_type_wf|]; assumption). split; [apply good_rget, Hg|].
      rewrite <- E_rget. apply default_E, Hg.
    - apply vs_add; [exact Hvs|]. intros t' v' [= <- <-]. eapply Hvs; eassumption.
    - apply vs_add; [apply vs_put; [exact Hvs|discriminate]|]. intros t' v' [= <- <-]. eapply Hvs; eassumption.
    - apply vs_put; [exact Hvs|discriminate].
    - apply vs_put; [exact Hvs|discriminate].
    - apply vs_put; [exact Hvs|]. intros t' v' [= <- <-]. eapply Hvs; eassumption.
    - apply vs_add; [exact Hvs|]. intros t' v0 [= <- <-]. assert (Hg : good t) by (split; [apply api_type_wf|]; assumption). split; [apply good_rget, Hg|].
      destruct (Hvs _ _ _ H0) as [_ He]. eapply converts_E; [apply good_rget, Hg|eassumption|eapply Hwf, H0|exact He].
    - match goal with Hr : vresolve _ _ _ _ _ |- _ => destruct (resolve_E _ _ _ _ Hr Hvs) as [Hk Hvs1] end.
      match goal with Ho : vop _ _ _ _ _ |- _ => destruct (vop_E _ _ _ _ Ho Hvs1) as [Hre Hvs2] end.
      match goal with Hx : nth_error vs2 _ = Some _ |- _ => destruct (Hvs2 _ _ _ Hx) as [Hg He] end.
      apply vs_put; [exact Hvs2|]. intros t' v0 [= <- <-]. split; [exact Hg|].
      match goal with Hp : path_ty _ t = Some T |- _ => destruct (path_good _ _ _ Hg Hp) as [HgT HrT] end.
      match goal with Hm : vmod _ _ _ _ _ = Some _ |- _ => eapply (vmod_E (fun _ => True) q _ t T); try eassumption end. apply op_E; assumption.
  Qed.
  Theorem execs_E fc vs prog l vs' : execs fc strhash vs prog l vs' -> forall st, rep vs st -> vs_E vs -> vs_E vs'.
  Proof.
    induction 1 as [|vs s a vs1 r l vs2 H _ IH]; intros st Hr Hvs; [exact Hvs|]. destruct (stmt_sim _ _ _ _ _ _ _ H Hr) as (st1 & _ & Hr1). apply (IH st1 Hr1). eapply exec_E; [exact H| |exact Hvs].
    intros x t v Hx. destruct (rep_holds _ _ _ _ _ Hr Hx) as (u & b & _ & _ & _ & _ & Hh). pose proof (holds_good _ _ Hh) as Hg. destruct Hh as (_ & _ & _ & L & R).
    cbn [d_type d_mem] in *. eapply live_wf_value; eassumption.
  Qed.
End Order.
