(** The text of a legible value determines the value. *)
From Verif Require Import Base Types TypeBuild TypeSpec Mem MemSpec TyInd Layout CompatFacts2 MemEqns MemFacts
  EnumFacts ConstructFacts CopyFacts CompareFacts Ops OpsSpec UnionFacts SeqFacts CollectFacts NumSpec NumFacts
  ValueSpec ValueFacts Print PrintSpec PrintFacts.
From Verif Require IdlLit IdlLitFacts NumText.
Local Open Scope string_scope.

Lemma sapp_cancel (a b c : string) : a ++ b = a ++ c -> b = c.
Proof. induction a as [|x a IH]; [exact (fun H => H)|]. cbn. intros [= H]. exact (IH H). Qed.
Lemma split_at c : forall a b r1 r2, lacks c a -> lacks c b -> a ++ String c r1 = b ++ String c r2 -> a = b /\ r1 = r2.
Proof.
  induction a as [|x a IH]; intros [|y b] r1 r2 Ha Hb E; cbn in *.
  - injection E as E. split; [reflexivity|exact E].
  - injection E as E1 E2. exfalso. apply (proj1 Hb). congruence.
  - injection E as E1 E2. exfalso. apply (proj1 Ha). congruence.
  - injection E as -> E. destruct (IH b r1 r2 (proj2 Ha) (proj2 Hb) E) as [-> ->]. split; reflexivity.
Qed.
Lemma to_string_inj x y : to_string x = to_string y -> x = y.
Proof. intros E. pose proof (NumText.strto_to_string x) as H. rewrite E, NumText.strto_to_string in H. injection H as H. lia. Qed.
Lemma digits_lack c : NumText.digit c = false -> forall s, PegRules.all_chars NumText.digit s = true -> lacks c s.
Proof.
  intros Hc. induction s as [|a s IH]; intros H; [exact I|]. cbn [PegRules.all_chars] in H. apply andb_true_iff in H as [H1 H2]. split; [congruence|exact (IH H2)].
Qed.
Lemma to_string_lacks c x : NumText.digit c = false -> lacks c (to_string x).
Proof. intros H. apply digits_lack; [exact H|]. apply NumText.to_string_spec. Qed.
Lemma decimal_inj x y : decimal x = decimal y -> x = y.
Proof.
  assert (Hm : forall a b, "-" ++ to_string a <> to_string b).
  { intros a b E. destruct (NumText.number_cons b) as (c & r & E' & Hc & _). rewrite E' in E. injection E as <- _. discriminate Hc. }
  unfold decimal. destruct (Z.ltb_spec x 0), (Z.ltb_spec y 0); intros E.
  - apply sapp_cancel in E. apply to_string_inj in E. lia.
  - exfalso. exact (Hm _ _ E).
  - exfalso. exact (Hm _ _ (eq_sym E)).
  - apply to_string_inj in E. lia.
Qed.
Lemma decimal_lacks x : lacks line_break (decimal x).
Proof. unfold decimal. destruct (x <? 0)%Z; [split; [discriminate|]|]; apply to_string_lacks; reflexivity. Qed.
Lemma characters_inj s : forall s', Forall (fun c => (c < 256)%N) s -> Forall (fun c => (c < 256)%N) s' -> characters s = characters s' -> s = s'.
Proof.
  induction s as [|c s IH]; intros [|c' s'] H H' E; rewrite <- !out_chars_characters in E; try discriminate E; [reflexivity|].
  inversion H as [|? ? H1 H2]; subst. inversion H' as [|? ? H1' H2']; subst. cbn [out_chars List.fold_right] in E. injection E as E1 E2.
  f_equal; [rewrite <- (N_ascii_embedding c H1), <- (N_ascii_embedding c' H1'), E1; reflexivity|]. apply IH; try assumption. rewrite <- !out_chars_characters. exact E2.
Qed.
Lemma characters_lack s : Forall (fun c => (c < 256)%N /\ c <> 10%N) s -> lacks line_break (characters s).
Proof.
  rewrite <- out_chars_characters. induction 1 as [|c s [H1 H2] H IH]; [exact I|]. cbn [out_chars List.fold_right]. split; [|exact IH].
  intros E. apply H2. apply (f_equal N_of_ascii) in E. rewrite N_ascii_embedding in E by exact H1. exact E.
Qed.
Lemma line_split d f a b r1 r2 : line d f a ++ r1 = line d f b ++ r2 -> a ++ String line_break r1 = b ++ String line_break r2.
Proof. unfold line. rewrite !sapp_assoc. intros E. apply sapp_cancel, sapp_cancel in E. exact E. Qed.
Lemma line_same d f a r1 r2 : line d f a ++ r1 = line d f a ++ r2 -> r1 = r2.
Proof. apply sapp_cancel. Qed.
Lemma le_number_inj p bs bs' : N.of_nat (List.length bs) = prim_size p -> N.of_nat (List.length bs') = prim_size p -> Forall (fun y => (y < 256)%N) bs -> Forall (fun y => (y < 256)%N) bs' ->
  as_number p bs = as_number p bs' -> bs = bs'.
Proof.
  intros L L' F F' E. apply le_decode_inj; try assumption; [lia|]. pose proof (le_decode_lt bs F) as B. pose proof (le_decode_lt bs' F') as B'. rewrite L in B. rewrite L' in B'.
  destruct (as_number_ok p bs L F) as (_ & k & Ek). destruct (as_number_ok p bs' L' F') as (_ & k' & Ek'). rewrite E in Ek. pose proof (pow_width p) as W. rewrite W in Ek, Ek'.
  assert ((Z.of_N (le_decode bs) - Z.of_N (le_decode bs') = (k - k') * Z.of_N (256 ^ prim_size p))%Z) by lia. assert (k - k' = 0)%Z by nia. lia.
Qed.
Lemma one_byte (bs : list N) : N.of_nat (List.length bs) = 1%N -> exists x, bs = [x].
Proof. destruct bs as [|x [|y r]]; cbn; intros H; try lia. exists x. reflexivity. Qed.
Lemma char_split a b c r1 r2 : character a ++ String c r1 = character b ++ String c r2 -> Ascii.ascii_of_N a = Ascii.ascii_of_N b /\ r1 = r2.
Proof. unfold character. generalize (Ascii.ascii_of_N a) (Ascii.ascii_of_N b). intros x y E. cbn in E. injection E as -> ->. split; reflexivity. Qed.
Lemma Forall_both {A} (P Q : A -> Prop) l : Forall P l -> Forall Q l -> Forall (fun x => P x /\ Q x) l.
Proof. induction 1; intros H'; inversion H'; subst; constructor; auto. Qed.
Lemma pair_cancel L a b q a' b' q' : (L ++ a ++ b) ++ q = (L ++ a' ++ b') ++ q' -> a ++ b ++ q = a' ++ b' ++ q'.
Proof. rewrite !sapp_assoc. apply sapp_cancel. Qed.

Section Inj.
  Variable flo : prim -> list N -> string.
  Variable conv : list N -> res string.
  Notation shown := (shown flo conv).

  Definition told (t : ty) : Prop := forall v1 v2 d f x1 x2 r1 r2, wf_value t v1 -> wf_value t v2 -> legible t v1 -> legible t v2 ->
    shown t v1 d f = Ok x1 -> shown t v2 d f = Ok x2 -> x1 ++ r1 = x2 ++ r2 -> v1 = v2 /\ r1 = r2.
  Lemma elements_told (F : nat -> value -> res string) (P : value -> Prop) :
    (forall i v1 v2 x1 x2 r1 r2, P v1 -> P v2 -> F i v1 = Ok x1 -> F i v2 = Ok x2 -> x1 ++ r1 = x2 ++ r2 -> v1 = v2 /\ r1 = r2) ->
    forall l1 l2 i x1 x2 r1 r2, List.length l1 = List.length l2 -> Forall P l1 -> Forall P l2 -> elements F l1 i = Ok x1 -> elements F l2 i = Ok x2 ->
      x1 ++ r1 = x2 ++ r2 -> l1 = l2 /\ r1 = r2.
  Proof.
    intros HF. induction l1 as [|v1 l1 IH]; intros [|v2 l2] i x1 x2 r1 r2 HL H1 H2 E1 E2 E; try discriminate HL.
    - injection E1 as <-. injection E2 as <-. split; [reflexivity|exact E].
    - cbn [elements] in *. apply bind_ok in E1 as (a1 & Ea1 & E1). apply bind_ok in E1 as (c1 & Ec1 & E1). injection E1 as <-.
      apply bind_ok in E2 as (a2 & Ea2 & E2). apply bind_ok in E2 as (c2 & Ec2 & E2). injection E2 as <-. rewrite !sapp_assoc in E.
      inversion H1; subst. inversion H2; subst. destruct (HF i v1 v2 _ _ _ _ ltac:(assumption) ltac:(assumption) Ea1 Ea2 E) as [-> E'].
      destruct (IH l2 (S i) c1 c2 r1 r2 ltac:(cbn in HL; lia) ltac:(assumption) ltac:(assumption) Ec1 Ec2 E') as [-> ->]. split; reflexivity.
  Qed.
  Lemma head_split d f nm y1 y2 r1 r2 : line d f ("<" ++ nm ++ ">  " ++ y1) ++ r1 = line d f ("<" ++ nm ++ ">  " ++ y2) ++ r2 -> y1 ++ String line_break r1 = y2 ++ String line_break r2.
  Proof. intros E. apply line_split in E. rewrite !sapp_assoc in E. apply sapp_cancel, sapp_cancel, sapp_cancel in E. exact E. Qed.
  Lemma size_split nm n1 n2 r1 r2 d f : line d f ("<" ++ nm ++ "[" ++ to_string n1 ++ "]>") ++ r1 = line d f ("<" ++ nm ++ "[" ++ to_string n2 ++ "]>") ++ r2 -> n1 = n2 /\ r1 = r2.
  Proof.
    intros E. apply line_split in E. rewrite !sapp_assoc in E. apply sapp_cancel, sapp_cancel, sapp_cancel in E. cbn [append] in E.
    apply split_at in E; try (apply to_string_lacks; reflexivity). destruct E as [E1 E2]. injection E2 as E2. split; [apply to_string_inj, E1|exact E2].
  Qed.
  Lemma shown_begins t : forall v d f x, shown t v d f = Ok x -> exists y, x = spaces (4 * d) ++ f ++ y.
  Proof.
    assert (H : forall d f b r, exists y, line d f b ++ r = spaces (4 * d) ++ f ++ y) by (intros; unfold line; rewrite !sapp_assoc; eexists; reflexivity).
    assert (H0 : forall d f b, exists y, line d f b = spaces (4 * d) ++ f ++ y) by (intros; unfold line; eexists; reflexivity).
    induction t as [p|nm sz vals|k bd|nm c n IHc|c bd IHc|k w bd IHk IHw|x y IHx IHy|nm s ms IHms|nm s ms labels dv iv d0 IHms|nm a IHa]
      using ty_ind'; intros v d f z E; cbn [PrintSpec.shown] in E.
    - destruct v; try discriminate E. apply bind_ok in E as (? & _ & E). injection E as <-. apply H0.
    - injection E as <-. apply H0.
    - destruct v; try discriminate E. apply bind_ok in E as (? & _ & E). injection E as <-. apply H0.
    - destruct v; try discriminate E. apply bind_ok in E as (? & _ & E). injection E as <-. apply H.
    - destruct v; try discriminate E. apply bind_ok in E as (? & _ & E). injection E as <-. apply H.
    - destruct v; try discriminate E. apply bind_ok in E as (? & _ & E). injection E as <-. apply H.
    - destruct v as [|s|l|]; try discriminate E. destruct l as [|a [|b [|? ?]]]; try discriminate E. apply bind_ok in E as (? & _ & E). apply bind_ok in E as (? & _ & E). injection E as <-. apply H.
    - destruct v; try discriminate E. apply bind_ok in E as (? & _ & E). injection E as <-. apply H.
    - destruct ms as [|[[dn o] disc] cs]; [destruct v as [| | |dv' [w|]]; discriminate E|]. destruct v as [| | |dv' [w|]]; try discriminate E.
      destruct (label_of disc dv') as [l|]; [|discriminate E]. destruct (lookup_label l labels) as [a|]; [|discriminate E]. clear IHms.
      induction cs as [|[[mn mo] mt] r IH]; [discriminate E|]. destruct (String.eqb a mn); [|exact (IH E)]. apply bind_ok in E as (? & _ & E). injection E as <-. apply H.
    - exact (IHa _ _ _ _ E).
  Qed.
  Lemma lookup_in l labels a : lookup_label l labels = Some a -> In (l, a) labels.
  Proof. induction labels as [|[k s] r IH]; [discriminate|]. cbn. destruct (Z.eqb_spec l k); [intros [= <-]; subst; left; reflexivity|right; auto]. Qed.
  Lemma lookup_one labels a : NoDup (map snd labels) -> forall l1 l2, lookup_label l1 labels = Some a -> lookup_label l2 labels = Some a -> l1 = l2.
  Proof.
    intros Hn l1 l2 H1 H2. apply lookup_in in H1, H2. induction labels as [|[k s] r IH]; [contradiction H1|]. cbn in Hn. inversion Hn as [|? ? Hn1 Hn2]; subst.
    destruct H1 as [H1|H1], H2 as [H2|H2].
    - congruence.
    - injection H1 as -> ->. exfalso. apply Hn1. apply (in_map snd) in H2. exact H2.
    - injection H2 as -> ->. exfalso. apply Hn1. apply (in_map snd) in H1. exact H1.
    - exact (IH Hn2 H1 H2).
  Qed.
  Lemma legible_select a w : forall cs, (fix go (x : list (string * N * ty)) : Prop :=
      match x with [] => False | (mn, _, mt) :: r => if String.eqb a mn then legible mt w else go r end) cs -> exists m, find_member a cs = Some m /\ legible (m_type m) w.
  Proof. induction cs as [|[[mn mo] mt] r IH]; [intros []|]. cbn [find_member m_name fst]. destruct (String.eqb a mn); [intros H; exists (mn, mo, mt); split; [reflexivity|exact H]|exact IH]. Qed.
  Lemma wf_select a w : forall cs m, find_member a cs = Some m -> (fix go (x : list (string * N * ty)) : Prop :=
      match x with [] => False | (mn, _, mt) :: r => if String.eqb a mn then wf_value mt w else go r end) cs -> wf_value (m_type m) w.
  Proof. induction cs as [|[[mn mo] mt] r IH]; [discriminate|]. intros m. cbn [find_member m_name fst]. destruct (String.eqb a mn); [intros [= <-] H; exact H|apply IH]. Qed.
  Lemma label_inj disc dv1 dv2 l : wf_ty disc -> check_discriminator disc = true -> wf_value disc dv1 -> wf_value disc dv2 ->
    label_of disc dv1 = Some l -> label_of disc dv2 = Some l -> dv1 = dv2.
  Proof.
    intros Hw Hc W1 W2 E1 E2. pose proof (disc_sizes _ Hw Hc) as Hs.
    assert (Hb : forall dv, wf_value disc dv -> exists bs, dv = VBytes bs /\ N.of_nat (List.length bs) = msize disc /\ Forall (fun y => (y < 256)%N) bs).
    { clear - Hc. revert Hc. unfold check_discriminator. induction disc; cbn [rget wf_value]; intros Hc z W; try discriminate Hc;
        [destruct z as [bs| | |]; try contradiction W; exists bs; split; [reflexivity|exact W]..|apply IHdisc; assumption]. } destruct (Hb _ W1) as (b1 & -> & L1 & F1). destruct (Hb _ W2) as (b2 & -> & L2 & F2). f_equal. cbn [label_of] in E1, E2. injection E1 as E1. injection E2 as E2.
    apply le_decode_inj; try assumption; [lia|]. pose proof (le_decode_lt b1 F1) as B1. pose proof (le_decode_lt b2 F2) as B2. rewrite L1 in B1. rewrite L2 in B2.
    rewrite !(shrink_label_eq _ _ Hs) in *. rewrite <- E2 in E1. clear E2 L1 L2 W1 W2 Hb F1 F2.
    assert (HW : (2 ^ (8 * Z.of_N (msize disc)) = Z.of_N (256 ^ msize disc))%Z) by (destruct Hs as [-> | [-> | [-> | ->]]]; reflexivity).
    rewrite !Z.mod_small in E1 by (rewrite HW; lia). unfold to_i64 in E1.
    assert (Hle : (256 ^ msize disc <= 18446744073709551616)%N) by (destruct Hs as [-> | [-> | [-> | ->]]]; discriminate).
    rewrite !Z.mod_small in E1 by lia. destruct (Z.ltb_spec (Z.of_N (le_decode b1)) 9223372036854775808), (Z.ltb_spec (Z.of_N (le_decode b2)) 9223372036854775808); lia.
  Qed.

  Theorem shown_told t : good t -> told t.
  Proof.
    induction t as [p|nm sz vals|k bd|nm c n IHc|c bd IHc|k w bd IHk IHw|x y IHx IHy|nm s ms IHms|nm s ms labels dv iv d0 IHms|nm a IHa]
      using ty_ind'; intros Hg v1 v2 d f x1 x2 r1 r2 W1 W2 G1 G2 E1 E2 E; cbn [PrintSpec.shown] in E1, E2.
    - cbn [wf_value] in W1, W2. destruct v1 as [b1| | |]; try contradiction W1. destruct v2 as [b2| | |]; try contradiction W2. destruct W1 as [L1 F1], W2 as [L2 F2].
      apply bind_ok in E1 as (y1 & N1 & E1). apply bind_ok in E2 as (y2 & N2 & E2). injection E1 as <-. injection E2 as <-.
      apply (head_split d f (prim_name p) y1 y2 r1 r2) in E.
      assert (Qd : forall q, prim_size q = prim_size p -> y1 = decimal (as_number q b1) -> y2 = decimal (as_number q b2) -> VBytes b1 = VBytes b2 /\ r1 = r2).
      { intros q Hq -> ->. apply split_at in E; try apply decimal_lacks. destruct E as [E ->]. apply decimal_inj in E. apply le_number_inj in E; try assumption; try congruence. subst. split; reflexivity. }
      assert (Qc : prim_size p = 1%N -> y1 = character (le_decode b1) -> y2 = character (le_decode b2) -> VBytes b1 = VBytes b2 /\ r1 = r2).
      { intros Hp -> ->. rewrite Hp in L1, L2. destruct (one_byte b1 L1) as (z1 & ->). destruct (one_byte b2 L2) as (z2 & ->). cbn [le_decode] in E. rewrite !N.mul_0_r, !N.add_0_r in E.
        apply char_split in E as [E ->]. inversion F1; subst. inversion F2; subst. rewrite <- (N_ascii_embedding z1), <- (N_ascii_embedding z2), E by assumption. split; reflexivity. }
      destruct p; cbn [number_text] in N1, N2; cbn [legible] in G1, G2; try contradiction G1; injection N1 as N1; injection N2 as N2;
        try (apply Qc; [reflexivity|symmetry; assumption|symmetry; assumption]); try (eapply Qd; [reflexivity|symmetry; eassumption|symmetry; eassumption]).
      subst y1 y2.
      destruct G1 as [[= ->]|[= ->]], G2 as [[= ->]|[= ->]]; cbn in E; try discriminate E; injection E as ->; split; reflexivity.
    - contradiction G1.
    - destruct k; try contradiction G1. destruct v1 as [|s1| |]; try contradiction G1. destruct v2 as [|s2| |]; try contradiction G2. cbn [legible string_text bind] in *.
      injection E1 as <-. injection E2 as <-. apply (head_split d f (tname (TStr SK8 bd)) (characters s1) (characters s2) r1 r2) in E.
      apply split_at in E; try (apply characters_lack; assumption). destruct E as [E ->]. apply characters_inj in E; [subst; split; reflexivity|eapply Forall_impl; [|exact G1]; intros q [Hq _]; exact Hq|eapply Forall_impl; [|exact G2]; intros q [Hq _]; exact Hq].
    - destruct v1 as [| |l1|]; try contradiction G1. destruct v2 as [| |l2|]; try contradiction G2. cbn [legible wf_value] in *. destruct W1 as [L1 F1], W2 as [L2 F2].
      apply bind_ok in E1 as (y1 & N1 & E1). apply bind_ok in E2 as (y2 & N2 & E2). injection E1 as <-. injection E2 as <-. rewrite !sapp_assoc in E. apply line_same in E.
      assert (Q : l1 = l2 /\ r1 = r2); [|destruct Q as [-> ->]; split; reflexivity].
      eapply (elements_told _ (fun v => wf_value c v /\ legible c v)); [|lia|apply Forall_both; assumption|apply Forall_both; assumption|exact N1|exact N2|exact E].
      intros i a b e1 e2 q1 q2 [? ?] [? ?] Ea Eb Eq. eapply (IHc (good_arr _ _ _ Hg)); [..|exact Ea|exact Eb|exact Eq]; assumption.
    - destruct v1 as [| |l1|]; try contradiction G1. destruct v2 as [| |l2|]; try contradiction G2. cbn [legible wf_value] in *. destruct W1 as [_ F1], W2 as [_ F2].
      apply bind_ok in E1 as (y1 & N1 & E1). apply bind_ok in E2 as (y2 & N2 & E2). injection E1 as <-. injection E2 as <-. rewrite (sapp_assoc _ y1 r1), (sapp_assoc _ y2 r2) in E. apply (size_split (tname (TSeq c bd)) _ _ (y1 ++ r1) (y2 ++ r2)) in E as [El E].
      assert (Q : l1 = l2 /\ r1 = r2); [|destruct Q as [-> ->]; split; reflexivity].
      eapply (elements_told _ (fun v => wf_value c v /\ legible c v)); [|lia|apply Forall_both; assumption|apply Forall_both; assumption|exact N1|exact N2|exact E].
      intros i a b e1 e2 q1 q2 [? ?] [? ?] Ea Eb Eq. eapply (IHc (good_seq _ _ Hg)); [..|exact Ea|exact Eb|exact Eq]; assumption.
    - destruct (good_map _ _ _ Hg) as [Gk Gw]. destruct v1 as [| |l1|]; try contradiction G1. destruct v2 as [| |l2|]; try contradiction G2. cbn [legible wf_value] in *. destruct W1 as [_ F1], W2 as [_ F2].
      apply bind_ok in E1 as (y1 & N1 & E1). apply bind_ok in E2 as (y2 & N2 & E2). injection E1 as <-. injection E2 as <-. rewrite (sapp_assoc _ y1 r1), (sapp_assoc _ y2 r2) in E. apply (size_split (tname (TMap k w bd)) _ _ (y1 ++ r1) (y2 ++ r2)) in E as [El E].
      assert (Q : l1 = l2 /\ r1 = r2); [|destruct Q as [-> ->]; split; reflexivity].
      eapply (elements_told _ (fun e => match e with VNode [x; y] => wf_value k x /\ wf_value w y | _ => False end /\ match e with VNode [x; y] => legible k x /\ legible w y | _ => False end));
        [|lia|apply Forall_both; assumption|apply Forall_both; assumption|exact N1|exact N2|exact E].
      intros i a b e1 e2 q1 q2 [Wa La] [Wb Lb] Ea Eb Eq. destruct a as [| |[|a1 [|a2 [|? ?]]]|]; try contradiction Wa. destruct b as [| |[|b1 [|b2 [|? ?]]]|]; try contradiction Wb.
      apply bind_ok in Ea as (s1 & Ea1 & Ea). apply bind_ok in Ea as (s2 & Ea2 & Ea). injection Ea as <-. apply bind_ok in Eb as (s3 & Eb1 & Eb). apply bind_ok in Eb as (s4 & Eb2 & Eb). injection Eb as <-.
      apply (pair_cancel (line (S d) (by_index i) ("Unsupported type: " ++ tname (TPair k w))) s1 s2 q1 s3 s4 q2) in Eq. destruct Wa as [? ?], La as [? ?], Wb as [? ?], Lb as [? ?].
      apply (IHk Gk a1 b1 _ _ _ _ _ _ ltac:(assumption) ltac:(assumption) ltac:(assumption) ltac:(assumption) Ea1 Eb1) in Eq as [-> Eq].
      apply (IHw Gw a2 b2 _ _ _ _ _ _ ltac:(assumption) ltac:(assumption) ltac:(assumption) ltac:(assumption) Ea2 Eb2) in Eq as [-> Eq]. split; [reflexivity|exact Eq].
    - destruct (good_pair _ _ Hg) as [Gx Gy]. destruct v1 as [| |[|a1 [|a2 [|? ?]]]|]; try contradiction G1. destruct v2 as [| |[|b1 [|b2 [|? ?]]]|]; try contradiction G2. cbn [legible wf_value] in *.
      apply bind_ok in E1 as (s1 & Ea1 & Ea). apply bind_ok in Ea as (s2 & Ea2 & Ea). injection Ea as <-. apply bind_ok in E2 as (s3 & Eb1 & Eb). apply bind_ok in Eb as (s4 & Eb2 & Eb). injection Eb as <-.
      apply (pair_cancel (line d f ("Unsupported type: " ++ tname (TPair x y))) s1 s2 r1 s3 s4 r2) in E. destruct W1 as [? ?], W2 as [? ?], G1 as [? ?], G2 as [? ?].
      apply (IHx Gx a1 b1 _ _ _ _ _ _ ltac:(assumption) ltac:(assumption) ltac:(assumption) ltac:(assumption) Ea1 Eb1) in E as [-> E].
      apply (IHy Gy a2 b2 _ _ _ _ _ _ ltac:(assumption) ltac:(assumption) ltac:(assumption) ltac:(assumption) Ea2 Eb2) in E as [-> E]. split; [reflexivity|exact E].
    - destruct v1 as [| |l1|]; try contradiction G1. destruct v2 as [| |l2|]; try contradiction G2. cbn [legible wf_value] in *.
      apply bind_ok in E1 as (y1 & N1 & E1). apply bind_ok in E2 as (y2 & N2 & E2). injection E1 as <-. injection E2 as <-. rewrite !sapp_assoc in E. apply line_same in E.
      assert (Q : l1 = l2 /\ r1 = r2); [|destruct Q as [-> ->]; split; reflexivity].
      assert (GM : Forall (fun m => good (m_type m)) ms) by (apply Forall_forall; intros m Hm; eapply good_struct; eassumption). clear Hg.
      revert l1 l2 y1 y2 W1 W2 G1 G2 N1 N2 E. induction ms as [|[[mn mo] mt] r IH]; intros [|v1 l1] [|v2 l2] y1 y2 W1 W2 G1 G2 N1 N2 E; try contradiction W1; try contradiction W2.
      + injection N1 as <-. injection N2 as <-. split; [reflexivity|exact E].
      + inversion IHms as [|? ? I1 I2]; subst. inversion GM as [|? ? M1 M2]; subst. destruct W1 as [? W1], W2 as [? W2], G1 as [? G1], G2 as [? G2].
        apply bind_ok in N1 as (a1 & A1 & N1). apply bind_ok in N1 as (c1 & C1 & N1). injection N1 as <-. apply bind_ok in N2 as (a2 & A2 & N2). apply bind_ok in N2 as (c2 & C2 & N2). injection N2 as <-.
        rewrite !sapp_assoc in E. apply (I1 M1 v1 v2 _ _ _ _ _ _ ltac:(assumption) ltac:(assumption) ltac:(assumption) ltac:(assumption) A1 A2) in E as [-> E].
        destruct (IH I2 M2 l1 l2 c1 c2 W1 W2 G1 G2 C1 C2 E) as [-> ->]. split; reflexivity.
    - destruct (good_union_inv _ _ _ _ _ _ _ Hg) as (dn & disc & cs & -> & Gd & Hc & _ & _ & _ & _ & Hdn & Hnd & _).
      destruct v1 as [| | |dv1 [w1|]]; try contradiction G1. destruct v2 as [| | |dv2 [w2|]]; try contradiction G2. cbn [legible] in G1, G2. destruct G1 as (Hn & Hb & G1), G2 as (_ & _ & G2).
      cbn [wf_value] in W1, W2. destruct W1 as (Wd1 & l1 & El1 & W1), W2 as (Wd2 & l2 & El2 & W2). rewrite El1 in *. rewrite El2 in *.
      destruct (lookup_label l1 labels) as [a1|] eqn:A1; [|contradiction G1]. destruct (lookup_label l2 labels) as [a2|] eqn:A2; [|contradiction G2].
      destruct (legible_select _ _ _ G1) as (m1 & F1 & Lg1). destruct (legible_select _ _ _ G2) as (m2 & F2 & Lg2).
      rewrite (shown_select flo conv _ _ _ _ _ _ _ F1) in E1. rewrite (shown_select flo conv _ _ _ _ _ _ _ F2) in E2. apply bind_ok in E1 as (y1 & N1 & E1). apply bind_ok in E2 as (y2 & N2 & E2). injection E1 as <-. injection E2 as <-.
      rewrite !sapp_assoc in E. apply line_same in E.
      destruct (u_member _ _ _ _ _ _ _ _ _ Hg _ _ F1) as (F1' & In1 & Nm1 & _). destruct (u_member _ _ _ _ _ _ _ _ _ Hg _ _ F2) as (F2' & In2 & Nm2 & _ & _ & Hgm).
      assert (Q : a1 = a2).
      { destruct (shown_begins _ _ _ _ _ N1) as (q1 & ->). destruct (shown_begins _ _ _ _ _ N2) as (q2 & ->). rewrite !sapp_assoc in E. apply sapp_cancel in E. unfold by_name in E.
        rewrite !sapp_assoc in E. apply sapp_cancel in E. cbn [append] in E. rewrite Forall_forall in Hb. apply split_at in E; [rewrite <- Nm1, <- Nm2; apply E|apply (Hb m1 In1)|apply (Hb m2 In2)]. }
      rewrite <- Q in A2, F2, W2. clear F2' In2 Nm2 G2. assert (m1 = m2) by congruence. subst m2. assert (l1 = l2) by exact (lookup_one labels a1 Hn l1 l2 A1 A2). subst l2.
      pose proof (wf_select _ _ _ _ F1' W1) as V1. pose proof (wf_select _ _ _ _ F1' W2) as V2.
      rewrite Forall_forall in IHms. apply (IHms m1 ltac:(right; exact In1) Hgm w1 w2 _ _ _ _ _ _ V1 V2 Lg1 Lg2 N1 N2) in E as [-> ->].
      rewrite (label_inj disc dv1 dv2 l1 (proj1 Gd) Hc Wd1 Wd2 El1 El2). split; reflexivity.
    - exact (IHa (good_alias _ _ Hg) v1 v2 d f x1 x2 r1 r2 W1 W2 G1 G2 E1 E2 E).
  Qed.
End Inj.
