(** to_string prints the text of the value. *)
From Verif Require Import Base Types TypeBuild TypeSpec Mem MemSpec TyInd Layout CompatFacts2 MemEqns MemFacts
  EnumFacts ConstructFacts CopyFacts CompareFacts Ops OpsSpec UnionFacts SeqFacts CollectFacts NumSpec NumFacts
  Hash HashSpec MapOps MapSpec MapValue MapFacts PathFacts ValueSpec ValueFacts DataSpec ConvFacts Visit Print PrintSpec.
Local Open Scope string_scope.

Lemma sapp_assoc (a b c : string) : (a ++ b) ++ c = a ++ b ++ c.
Proof. induction a as [|x a IH]; [reflexivity|]. cbn. rewrite IH. reflexivity. Qed.
Lemma sapp_nil (a : string) : a ++ "" = a.
Proof. induction a as [|x a IH]; [reflexivity|]. cbn. rewrite IH. reflexivity. Qed.
Lemma blanks_spaces n : blanks n = spaces n.
Proof. induction n as [|n IH]; [reflexivity|]. cbn. rewrite IH. reflexivity. Qed.
Lemma out_chars_characters s : out_chars s = characters s.
Proof.
  induction s as [|c s IH]; [reflexivity|]. cbn [out_chars List.fold_right]. fold (out_chars s). rewrite IH. unfold characters. destruct s as [|d s]; [reflexivity|reflexivity].
Qed.
Lemma out_int_decimal z : out_int z = decimal z.
Proof. destruct z; reflexivity. Qed.
Lemma prim_int_number p bs : N.of_nat (List.length bs) = prim_size p -> Forall (fun y => (y < 256)%N) bs -> prim_int p bs = as_number p bs.
Proof.
  intros Hl HF. pose proof (le_decode_lt bs HF) as Hlt. rewrite Hl in Hlt. pose proof (pow_width p) as Hw. pose proof (half_width p) as Hh. pose proof (half_pos p) as Hp.
  unfold prim_int, as_number, greatest. fold (width p). assert (Hx : (0 <= Z.of_N (le_decode bs) < 2 ^ width p)%Z) by lia.
  destruct (prim_signed p).
  - destruct (Z.ltb_spec (Z.of_N (le_decode bs)) (2 ^ (width p - 1))), (Z.ltb_spec (2 ^ (width p - 1) - 1) (Z.of_N (le_decode bs))); lia.
  - destruct (Z.ltb_spec (2 ^ width p - 1) (Z.of_N (le_decode bs))); lia.
Qed.
(** The number shown is the one the bytes stand for. *)
Lemma as_number_ok p bs : N.of_nat (List.length bs) = prim_size p -> Forall (fun y => (y < 256)%N) bs -> number p bs (as_number p bs).
Proof. intros H1 H2. rewrite <- prim_int_number by assumption. apply number_prim_int; assumption. Qed.

Section Print.
  Variable flo : prim -> list N -> string.
  Variable conv : list N -> res string.
  Notation printer := (printer flo conv).
  Notation shown := (shown flo conv).

  (** How the visit ends when the text to be printed is [r]. *)
  Definition outcome (r : res string) (s : string) (x : visit (res string)) : Prop :=
    match r with Ok y => x = VDone (Ok (s ++ y)) | Fail e => x = VStop (Fail e) true \/ exists s', x = VFail s' e end.
  Lemma outcome_then r q s x h : outcome r s x -> (forall s', outcome q s' (h (Ok s'))) -> outcome (do a <- r; do c <- q; Ok (a ++ c)) s (and_then x h).
  Proof.
    intros Hr Hq. destruct r as [y|e]; cbn [bind].
    - cbn [outcome] in Hr. subst x. cbn [and_then]. specialize (Hq (s ++ y)). destruct q as [z|e]; cbn [bind outcome] in *; [rewrite Hq, sapp_assoc; reflexivity|exact Hq].
    - cbn [outcome] in *. destruct Hr as [-> | (s' & ->)]; cbn [and_then]; [left; reflexivity|right; eexists; reflexivity].
  Qed.
  Lemma outcome_eq r r' s x : r = r' -> outcome r s x -> outcome r' s x.
  Proof. intros ->. exact (fun H => H). Qed.
  Lemma outcome_nil s : outcome (Ok "") s (VDone (Ok s)).
  Proof. cbn [outcome]. rewrite sapp_nil. reflexivity. Qed.
  Lemma outcome_loop (F : nat -> value -> res string) g : forall l i s,
    (forall j w s, nth_error l j = Some w -> outcome (F (i + j)%nat w) s (g (N.of_nat (i + j)) (Ok s))) ->
    outcome (elements F l i) s (loop (List.length l) (N.of_nat i) g (Ok s)).
  Proof.
    induction l as [|w l IH]; intros i s H; [apply outcome_nil|]. cbn [elements List.length loop]. apply outcome_then.
    - pose proof (H 0%nat w s eq_refl) as H0. rewrite Nat.add_0_r in H0. exact H0.
    - intros s'. replace (N.of_nat i + 1)%N with (N.of_nat (S i)) by lia. apply IH. intros j w' s'' E.
      specialize (H (S j) w' s'' E). replace (S i + j)%nat with (i + S j)%nat by lia. exact H.
  Qed.
  Lemma outcome_call n from b s : prefix n = Ok from -> body flo conv n = b ->
    outcome (do x <- b; Ok (line (n_deep n) from x)) s (call printer n (Ok s)).
  Proof.
    intros Hp Hb. unfold call, Print.printer. rewrite Hp, Hb. cbn [bind]. destruct b as [x|e]; cbn [bind outcome]; [|left; reflexivity].
    rewrite blanks_spaces, Nat.mul_comm. reflexivity.
  Qed.
  (** A line, then the rest. *)
  Lemma outcome_node n from x q s h : prefix n = Ok from -> body flo conv n = Ok x -> (forall s', outcome q s' (h (Ok s'))) ->
    outcome (do r <- q; Ok (line (n_deep n) from x ++ r)) s (and_then (call printer n (Ok s)) h).
  Proof.
    intros Hp Hb Hq. apply (outcome_eq (do a <- Ok (line (n_deep n) from x); do c <- q; Ok (a ++ c))); [reflexivity|].
    apply outcome_then; [|exact Hq]. apply (outcome_call n from (Ok x)); assumption.
  Qed.

  Definition print_ok (t : ty) : Prop := forall n v from s, live t (n_blk n) (n_off n) -> read t (n_blk n) (n_off n) = Ok v -> n_type n = t ->
    prefix n = Ok from -> (forall p, n_parent n = Some p -> n_deep n = S (n_deep p)) -> (rget t <> t -> n_parent n <> None) ->
    outcome (shown t v (n_deep n) from) s (each printer t n (Ok s)).

  Lemma child_ok c n b off i fm from w s : print_ok c -> live c b off -> read c b off = Ok w ->
    prefix (child_node n c b off i fm) = Ok from -> outcome (shown c w (S (n_deep n)) from) s (each printer c (child_node n c b off i fm) (Ok s)).
  Proof. intros H L R Hp. apply (H (child_node n c b off i fm)); try assumption; try reflexivity; cbn; [intros p [= <-]; reflexivity|discriminate]. Qed.

  Lemma pair_ok x y n a c from fm s : print_ok x -> print_ok y -> n_type n = TPair x y -> prefix n = Ok from ->
    live x (n_blk n) (n_off n) -> read x (n_blk n) (n_off n) = Ok a -> live y (n_blk n) (n_off n + msize x) -> read y (n_blk n) (n_off n + msize x) = Ok c ->
    outcome (do p <- shown x a (S (n_deep n)) (by_index 0); do q <- shown y c (S (n_deep n)) (by_index 1); Ok (line (n_deep n) from ("Unsupported type: " ++ tname (TPair x y)) ++ p ++ q))
      s (and_then (call printer n (Ok s)) (fun s => and_then (each printer x (child_node n x (n_blk n) (n_off n) 0 fm) s) (each printer y (child_node n y (n_blk n) (n_off n + msize x) 1 fm)))).
  Proof.
    intros Hx Hy Ht Hp Lx Rx Ly Ry.
    apply (outcome_eq (do r <- (do p <- shown x a (S (n_deep n)) (by_index 0); do q <- shown y c (S (n_deep n)) (by_index 1); Ok (p ++ q)); Ok (line (n_deep n) from ("Unsupported type: " ++ tname (TPair x y)) ++ r))).
    { destruct (shown x a _ _); cbn [bind]; [|reflexivity]. destruct (shown y c _ _); reflexivity. }
    apply outcome_node; [exact Hp|unfold body; rewrite Ht; reflexivity|]. intros s'. apply (outcome_then _ _ s' _ (fun s => _)).
    - apply child_ok; try assumption. unfold prefix. cbn. rewrite Ht. reflexivity.
    - intros s''. apply child_ok; try assumption. unfold prefix. cbn. rewrite Ht. reflexivity.
  Qed.
  Lemma struct_ok n (ms0 : list (string * N * ty)) : is_aggregation_type (n_type n) = true -> forall r l i s, Forall (fun m => print_ok (m_type m)) r ->
    Forall (fun m => live (m_type m) (n_blk n) (n_off n + m_off m)) r -> mmap (fun m => read (m_type m) (n_blk n) (n_off n + m_off m)) r = Ok l ->
    outcome ((fix go (ms : list (string * N * ty)) (l : list value) : res string :=
          match ms, l with
          | (mn, _, mt) :: ms', x :: l' => do a <- shown mt x (S (n_deep n)) (by_name mn); do c <- go ms' l'; Ok (a ++ c)
          | _, _ => Ok ""
          end) r l) s
      ((fix go (l : list (string * N * ty)) (i : N) (s : res string) : visit (res string) :=
              match l with
              | [] => VDone s
              | (mn, mo, mt) :: r => and_then (each printer mt (child_node n mt (n_blk n) (n_off n + mo) i (Some mn)) s) (go r (i + 1)%N)
              end) r i (Ok s)).
  Proof.
    intros Ha. induction r as [|[[mn mo] mt] r IH]; intros l i s HI HL HR; [apply outcome_nil|].
    inversion HI as [|? ? H1 H2]; subst. inversion HL as [|? ? L1 L2]; subst. cbn [m_type m_off fst snd mmap] in *.
    destruct (read mt _ _) as [w|] eqn:Ew; [|discriminate HR]. cbn [bind] in HR. apply bind_ok in HR as (lr & Er & HR). injection HR as <-.
    apply (outcome_then _ _ s _ (fun s => _)); [|intros s'; apply IH; assumption].
    apply child_ok; try assumption. unfold prefix. cbn. rewrite Ha. reflexivity.
  Qed.
  Lemma each_select nd st nm s dn disc cs labels dv iv d l0 x m :
    get_label disc (n_blk nd) (n_off nd) = Ok l0 -> lookup_label l0 labels = Some x -> find_member x ((dn, 0%N, disc) :: cs) = Some m ->
    each printer (TUnion nm s ((dn, 0%N, disc) :: cs) labels dv iv d) nd st =
    and_then (call printer nd st) (each printer (m_type m) (child_node nd (m_type m) (n_blk nd) (n_off nd + m_off m) (Z.to_N (l0 mod 2 ^ 64)) (Some (m_name m)))).
  Proof.
    intros Gl Ex Hf. cbn [each]. rewrite Gl, Ex. cbn [find_member m_name fst] in Hf. destruct (String.eqb x dn) eqn:Ed; [injection Hf as <-; reflexivity|].
    induction cs as [|[[mn mo] mt] r IH]; [discriminate Hf|]. cbn [find_member m_name fst] in Hf. destruct (String.eqb x mn) eqn:Exm; [injection Hf as <-; reflexivity|apply IH, Hf].
  Qed.
  Lemma shown_select deep from a w nm : forall cs m, find_member a cs = Some m ->
    (fix go (x : list (string * N * ty)) : res string :=
                   match x with
                   | [] => Fail UB
                   | (mn, _, mt) :: r =>
                       if String.eqb a mn
                       then do r <- shown mt w (S deep) (by_name mn); Ok (line deep from ("Unsupported type: " ++ nm) ++ r)
                       else go r
                   end) cs = do r <- shown (m_type m) w (S deep) (by_name (m_name m)); Ok (line deep from ("Unsupported type: " ++ nm) ++ r).
  Proof.
    induction cs as [|[[mn mo] mt] r IH]; intros m H; [discriminate H|]. cbn [find_member m_name fst] in H. destruct (String.eqb a mn); [injection H as <-; reflexivity|apply IH, H].
  Qed.

  Theorem each_print t : good t -> print_ok t.
  Proof.
    induction t as [p|nm sz vals|k bd|nm c n IHc|c bd IHc|k w bd IHk IHw|x y IHx IHy|nm s ms IHms|nm s ms labels dv iv d IHms|nm a IHa]
      using ty_ind'; intros Hg nd v from st L R Ht Hp Hd Hr.
    - pose proof (live_wf_value _ Hg _ _ _ L R) as W. cbn [read] in R. apply bind_ok in R as (bs & E & R). injection R as <-. cbn [wf_value] in W. destruct W as [W1 W2].
      cbn [each PrintSpec.shown]. eapply outcome_eq; [|eapply outcome_call; [exact Hp|reflexivity]]. unfold body. rewrite Ht.
      assert (Q : out_prim flo conv p (TPrim p) (n_blk nd) (n_off nd) = number_text flo conv p bs).
      { unfold out_prim, get_value. destruct p; cbn [type_check rget prim_eqb prim_size] in *; try rewrite E; cbn [bind number_text out_chars]; try reflexivity; rewrite <- out_int_decimal, prim_int_number by assumption; reflexivity. }
      rewrite Q. destruct (number_text flo conv p bs); reflexivity.
    - cbn [each PrintSpec.shown]. eapply outcome_eq; [|eapply outcome_call; [exact Hp|reflexivity]]. unfold body. rewrite Ht. destruct v; reflexivity.
    - cbn [live] in L. destruct L as (s & [Ho1 Ho2] & _). cbn [read] in R. rewrite Ho1, Ho2 in R. destruct (skind_eqb k k) eqn:Ek; [|discriminate R]. cbn [andb] in R. injection R as <-.
      cbn [each PrintSpec.shown]. eapply outcome_eq; [|eapply outcome_call; [exact Hp|reflexivity]]. unfold body. rewrite Ht.
      assert (Q : out_str conv k (TStr k bd) (n_blk nd) (n_off nd) = string_text conv k s).
      { unfold out_str, get_value. cbn [type_check rget]. rewrite Ek, Ho1, Ek, Ho2. cbn [andb bind]. unfold string_text. rewrite out_chars_characters. reflexivity. }
      rewrite Q. destruct (string_text conv k s); reflexivity.
    - cbn [live] in L. cbn [read] in R. apply bind_ok in R as (l & E & R). injection R as <-. destruct (collect_nth _ _ _ _ E) as [Hl Hn].
      cbn [each PrintSpec.shown]. apply outcome_node; [exact Hp|unfold body; rewrite Ht; reflexivity|]. intros s'. rewrite <- Hl. apply (outcome_loop (fun i x => _) _ l 0%nat).
      intros j w0 s0 Ej. cbn [Nat.add]. pose proof (proj1 (nth_error_Some l j) ltac:(congruence)) as Hj.
      destruct (Hn j ltac:(lia)) as (x & Ej' & Rj). rewrite N.add_0_l in Rj. assert (x = w0) by congruence. subst x.
      apply child_ok; try assumption; [apply IHc; eapply good_arr, Hg|apply L; lia|]. unfold prefix. cbn. rewrite Ht. reflexivity.
    - cbn [live] in L. destruct L as (cap & size & m & Ho & Hsz & _ & H32 & _ & L). rewrite (read_seq_obj _ _ _ _ _ _ _ Ho) in R.
      apply bind_ok in R as (l & E & R). injection R as <-. destruct (collect_nth _ _ _ _ E) as [Hl Hn]. destruct Ho as [Ho1 Ho2].
      cbn [each PrintSpec.shown]. rewrite Ho1, Ho2. apply outcome_node; [exact Hp|unfold body; rewrite Ht; unfold get_size; cbn [rget]; rewrite Ho1, Ho2; cbn [bind]; rewrite Hl, N2Nat.id; reflexivity|].
      intros s'. rewrite <- Hl. apply (outcome_loop (fun i x => _) _ l 0%nat).
      intros j w0 s0 Ej. cbn [Nat.add]. pose proof (proj1 (nth_error_Some l j) ltac:(congruence)) as Hj.
      destruct (Hn j ltac:(lia)) as (x & Ej' & Rj). rewrite N.add_0_l in Rj. assert (x = w0) by congruence. subst x.
      rewrite (wrap32_small (msize c)) by nia. rewrite wrap32_small by nia.
      apply child_ok; try assumption; [apply IHc; eapply good_seq, Hg|apply L; lia|]. unfold prefix. cbn. rewrite Ht. reflexivity.
    - destruct (good_map _ _ _ Hg) as [Gk Gw]. cbn [live] in L. destruct L as (cap & size & m & [Ho1 Ho2] & Hsz & _ & H32 & _ & L).
      cbn [read] in R. rewrite Ho1, Ho2 in R. apply bind_ok in R as (l & E & R). injection R as <-. destruct (collect_nth _ _ _ _ E) as [Hl Hn].
      cbn [each PrintSpec.shown]. rewrite Ho1, Ho2. apply outcome_node; [exact Hp|unfold body; rewrite Ht; unfold get_size; cbn [rget]; rewrite Ho1, Ho2; cbn [bind]; rewrite Hl, N2Nat.id; reflexivity|].
      intros s'. rewrite <- Hl. apply (outcome_loop (fun i x => _) (fun i s => _) l 0%nat).
      intros j w0 s0 Ej. cbn [Nat.add]. pose proof (proj1 (nth_error_Some l j) ltac:(congruence)) as Hj.
      destruct (Hn j ltac:(lia)) as (e & Ej' & Rj). rewrite N.add_0_l in Rj. assert (e = w0) by congruence. subst e.
      apply bind_ok in Rj as (x1 & R1 & Rj). apply bind_ok in Rj as (x2 & R2 & Rj). injection Rj as <-. destruct (L (N.of_nat j) ltac:(lia)) as [L1 L2].
      unfold map_bs. rewrite (wrap32_small (msize k + msize w)) by nia.
      apply (pair_ok k w (child_node nd (TPair k w) m (N.of_nat j * (msize k + msize w)) (N.of_nat j) None)); try assumption; [apply IHk, Gk|apply IHw, Gw|reflexivity|].
      unfold prefix. cbn. rewrite Ht. reflexivity.
    - destruct (good_pair _ _ Hg) as [G1 G2]. destruct L as [L1 L2]. cbn [read] in R. apply bind_ok in R as (x1 & R1 & R). apply bind_ok in R as (x2 & R2 & R). injection R as <-.
      cbn [each PrintSpec.shown]. apply pair_ok; try assumption; [apply IHx, G1|apply IHy, G2].
    - rewrite live_struct in L. rewrite read_struct in R. apply bind_ok in R as (l & E & R). injection R as <-.
      cbn [each PrintSpec.shown]. apply outcome_node; [exact Hp|unfold body; rewrite Ht; reflexivity|]. intros s'.
      apply (struct_ok nd ms); try assumption; [rewrite Ht; reflexivity|].
      rewrite Forall_forall in *. intros m Hm. apply IHms; [exact Hm|]. eapply good_struct; eassumption.
    - destruct (good_union_inv _ _ _ _ _ _ _ Hg) as (dn & disc & cs & -> & Gd & _).
      destruct (union_state _ _ _ _ _ _ _ _ _ Hg _ _ L) as (_ & Ld & bs & l0 & Rd0 & Gl0 & Lo0 & H0).
      destruct (lookup_label l0 labels) as [x|] eqn:Ex.
      + destruct H0 as (m & w & Hf & Hlm & Rm & Ru). rewrite R in Ru. injection Ru as ->.
        destruct (u_member _ _ _ _ _ _ _ _ _ Hg _ _ Hf) as (Hf' & Hin & Hn & _ & _ & Hgm).
        cbn [PrintSpec.shown]. rewrite Lo0, Ex, (shown_select _ _ _ _ _ _ _ Hf), (each_select _ _ _ _ _ _ _ _ _ _ _ _ _ _ Gl0 Ex Hf').
        apply outcome_node; [exact Hp|unfold body; rewrite Ht; reflexivity|]. intros s'. apply child_ok; try assumption.
        * rewrite Forall_forall in IHms. apply IHms; [right; exact Hin|exact Hgm].
        * unfold prefix. cbn [child_node n_parent n_type n_member]. rewrite Ht. reflexivity.
      + rewrite R in H0. injection H0 as ->. cbn [PrintSpec.shown each]. rewrite Gl0, Ex. cbn [outcome]. right. eexists. reflexivity.
    - cbn [live read] in L, R. specialize (Hr (fun E => rget_not_alias a nm a E)). cbn [each PrintSpec.shown]. destruct (n_parent nd) as [p|] eqn:Ep; [|congruence].
      rewrite (Hd p eq_refl). apply (IHa (good_alias _ _ Hg) (child_node p a (n_blk nd) (n_off nd) (n_index nd) (n_member nd))); try assumption; try reflexivity.
      + unfold prefix in *. cbn. rewrite Ep in Hp. exact Hp.
      + cbn. intros p' [= <-]. reflexivity.
      + cbn. discriminate.
  Qed.
  Theorem print_spec t b off v : good t -> rget t = t -> live t b off -> read t b off = Ok v -> print flo conv t b off = shown t v 0 "".
  Proof.
    intros Hg Hr L R. unfold print, for_each. rewrite Hr.
    pose proof (each_print t Hg (root_node t b off) v "" "" L R eq_refl eq_refl ltac:(discriminate) ltac:(congruence)) as H. cbn [n_deep root_node] in H.
    destruct (shown t v 0 "") as [y|e]; cbn [outcome] in H; [rewrite H; reflexivity|]. destruct H as [-> | (s' & ->)]; reflexivity.
  Qed.
End Print.
