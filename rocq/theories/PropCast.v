(** Theorems about cast<std::string>(): C56. *)
From Verif Require Import Base Types TypeBuild TypeSpec Mem MemSpec Compat CompatFacts CompatFacts2 MemFacts MemEqns Ops OpsSpec DataFacts DataSpec NumSpec NumFacts IntSpec IntOps IntFacts ValueSpec IdlSpec.
From Verif Require Import Peg0 Grammar Peg IdlParse.
From Verif Require PropData PropInt PrintInj PrintSpec PrintFacts NumText.
Local Open Scope string_scope.

(** The decimal numeral of a number: digits, behind a minus sign if it is negative, and no zero in front. *)
Definition numeral_of (z : Z) (s : string) : Prop :=
  exists d, numeral 10 d (Z.abs z) /\ (z <> 0%Z -> String.get 0 d <> Some "0"%char) /\ s = if (z <? 0)%Z then "-" ++ d else d.
(** The text of the characters with the given codes. *)
Definition chars (s : list N) (x : string) : Prop := map N_of_ascii (list_ascii_of_string x) = s.

Lemma numeral_text z : numeral_of z (z_to_string z).
Proof.
  assert (N0 : forall x, x <> 0%N -> String.get 0 (to_string x) <> Some "0"%char).
  { intros x H E. destruct (NumText.to_string_spec x) as (_ & _ & K). specialize (K ltac:(lia)). destruct (to_string x); [discriminate E|]. injection E as ->. discriminate K. }
  destruct z as [|q|q]; cbn [z_to_string].
  - exists (to_string 0). split; [apply (NumText.to_string_spec 0)|]. split; [congruence|reflexivity].
  - exists (to_string (Npos q)). split; [apply (NumText.to_string_spec (Npos q))|]. split; [intros _; apply N0; discriminate|reflexivity].
  - exists (to_string (Npos q)). split; [apply (NumText.to_string_spec (Npos q))|]. split; [intros _; apply N0; discriminate|reflexivity].
Qed.
Lemma z_to_string_inj x y : z_to_string x = z_to_string y -> x = y.
Proof. assert (D : forall z, z_to_string z = PrintSpec.decimal z) by (intros [|q|q]; reflexivity). rewrite !D. apply PrintInj.decimal_inj. Qed.

(** Data of an integer, character or boolean type: the numeral of the number it holds. *)
Theorem C56_number : forall x p z, is_float p = false -> is_int x p z -> exists s, cast_string x = Ok s /\ numeral_of z s.
Proof.
  intros x p z F H. destruct (is_int_operand x p z H) as (a & E & _ & Ez). unfold cast_string. rewrite (proj1 H), F, E. cbn [bind]. rewrite Ez. eexists. split; [reflexivity|apply numeral_text].
Qed.
Lemma enum_operand : forall x nm p vals a, p = PU8 \/ p = PU16 \/ p = PU32 -> d_type x = TEnum nm (prim_size p) vals -> holds x (VBytes a) ->
  operand p x = Ok a /\ enum_prim (prim_size p) = p /\ N.of_nat (List.length a) = prim_size p /\ Forall (fun y => (y < 256)%N) a.
Proof.
  intros x nm p vals a Hp Ht (_ & _ & _ & L & R). rewrite Ht in L, R. cbn [read] in R. apply bind_ok in R as (b & E & R). injection R as ->.
  assert (HF : Forall (fun y => (y < 256)%N) a) by (cbn [live] in L; exact (proj2 (ValueFacts.read_bytes_wf _ _ _ _ L E))).
  pose proof (proj1 (proj1 (read_bytes_spec _ _ _ _) E)) as Hl.
  split; [unfold operand, get_value; rewrite Ht; cbn [rget]; destruct Hp as [-> | [-> | ->]]; cbn [type_check sizeof prim_size N.eqb Pos.eqb] in *; rewrite E; reflexivity|].
  split; [destruct Hp as [-> | [-> | ->]]; reflexivity|]. split; [|exact HF]. exact Hl.
Qed.
(** Data of an enumeration: the numeral of its value. *)
Theorem C56_enum : forall x nm p vals a z, p = PU8 \/ p = PU16 \/ p = PU32 -> d_type x = TEnum nm (prim_size p) vals -> holds x (VBytes a) -> number p a z ->
  exists s, cast_string x = Ok s /\ numeral_of z s.
Proof.
  intros x nm p vals a z Hp Ht Hh Hn. destruct (enum_operand x nm p vals a Hp Ht Hh) as (E & E' & L & F). unfold cast_string. rewrite Ht, E', E. cbn [bind]. rewrite (number_unique p a _ _ (number_prim_int p a L F) Hn).
  eexists. split; [reflexivity|apply numeral_text].
Qed.
Lemma of_codes_chars s : Forall (fun c => (c < 256)%N) s -> chars s (of_codes s).
Proof. unfold chars. induction 1 as [|c s H _ IH]; [reflexivity|]. cbn [of_codes list_ascii_of_string map]. rewrite Ascii.N_ascii_embedding by exact H. congruence. Qed.
Lemma str_value : forall x k bd s, d_type x = TStr k bd -> holds x (VStr s) -> get_value (StStr k) (TStr k bd) (d_mem x) 0 = Ok (ScStr k s).
Proof.
  intros x k bd s Ht (_ & _ & _ & _ & R). rewrite Ht in R. cbn [read] in R. unfold get_value. cbn [rget type_check]. replace (skind_eqb k k) with true by (destruct k; reflexivity).
  destruct (at_ (d_mem x) 0); try discriminate R. destruct (skind_eqb k k0 && intact (d_mem x) 0 SZ_STRING); [|discriminate R]. injection R as ->. reflexivity.
Qed.
(** Data of a string type: its characters. *)
Theorem C56_string : forall x bd s, d_type x = TStr SK8 bd -> holds x (VStr s) -> Forall (fun c => (c < 256)%N) s -> exists r, cast_string x = Ok r /\ chars s r.
Proof.
  intros x bd s Ht Hh F. unfold cast_string. rewrite Ht, (str_value x SK8 bd s Ht Hh). cbn [bind]. eexists. split; [reflexivity|apply of_codes_chars, F].
Qed.
(** The text tells the data: two data of the same type with the same text are equal. *)
Definition has_text (t : ty) (v : value) : Prop :=
  match t with
  | TPrim p => is_float p = false
  | TEnum _ _ _ => True
  | TStr SK8 _ => match v with VStr s => Forall (fun c => (c < 256)%N) s | _ => True end
  | _ => False
  end.
Theorem C56_told : forall x y v w s, holds x v -> holds y w -> d_type x = d_type y -> has_text (d_type x) v -> has_text (d_type y) w -> cast_string x = Ok s -> cast_string y = Ok s -> v = w.
Proof.
  intros x y v w s Hx Hy Et Tx Ty Ex Ey. assert (Ety : d_type y = d_type x) by congruence. rewrite Ety in Ty. unfold cast_string in Ex, Ey. rewrite Ety in Ey. destruct (d_type x) as [p|nm sz vals|k bd| | | | | | |] eqn:E; cbn [has_text] in Tx, Ty; try contradiction.
  - rewrite Tx in Ex, Ey. assert (V : exists a, v = VBytes a) by (destruct Hx as (_ & _ & _ & _ & R); rewrite E in R; cbn [read] in R; apply bind_ok in R as (b & _ & R); injection R as <-; eauto).
    assert (W : exists a, w = VBytes a) by (destruct Hy as (_ & _ & _ & _ & R); rewrite Ety in R; cbn [read] in R; apply bind_ok in R as (b & _ & R); injection R as <-; eauto).
    destruct V as (a & ->), W as (b & ->). destruct (operand_holds x p a Hx E) as (O1 & L1 & F1), (operand_holds y p b Hy Ety) as (O2 & L2 & F2). rewrite O1 in Ex. rewrite O2 in Ey. cbn [bind] in Ex, Ey.
    assert (Q : prim_int p a = prim_int p b) by (apply z_to_string_inj; congruence). rewrite !PrintFacts.prim_int_number in Q by assumption. f_equal. exact (PrintInj.le_number_inj p a b L1 L2 F1 F2 Q).
  - assert (P : exists p, (p = PU8 \/ p = PU16 \/ p = PU32) /\ sz = prim_size p) by (pose proof (proj1 Hx) as Wf; rewrite E in Wf; destruct (proj1 Wf) as [-> | [-> | ->]]; [exists PU8|exists PU16|exists PU32]; auto). destruct P as (p & Hp & ->).
    assert (V : exists a, v = VBytes a) by (destruct Hx as (_ & _ & _ & _ & R); rewrite E in R; cbn [read] in R; apply bind_ok in R as (b & _ & R); injection R as <-; eauto).
    assert (W : exists a, w = VBytes a) by (destruct Hy as (_ & _ & _ & _ & R); rewrite Ety in R; cbn [read] in R; apply bind_ok in R as (b & _ & R); injection R as <-; eauto).
    destruct V as (a & ->), W as (b & ->). destruct (enum_operand x nm p vals a Hp E Hx) as (O1 & E1 & L1 & F1), (enum_operand y nm p vals b Hp Ety Hy) as (O2 & _ & L2 & F2). rewrite E1, O1 in Ex. rewrite E1, O2 in Ey. cbn [bind] in Ex, Ey.
    assert (Q : prim_int p a = prim_int p b) by (apply z_to_string_inj; congruence). rewrite !PrintFacts.prim_int_number in Q by assumption. f_equal. exact (PrintInj.le_number_inj p a b L1 L2 F1 F2 Q).
  - destruct k; try contradiction. assert (V : exists a, v = VStr a).
    { destruct Hx as (_ & _ & _ & _ & R). rewrite E in R. cbn [read] in R. destruct (at_ (d_mem x) 0); try discriminate R. destruct (_ && _); [|discriminate R]. injection R as <-. eauto. }
    assert (W : exists a, w = VStr a). { destruct Hy as (_ & _ & _ & _ & R). rewrite Ety in R. cbn [read] in R. destruct (at_ (d_mem y) 0); try discriminate R. destruct (_ && _); [|discriminate R]. injection R as <-. eauto. }
    destruct V as (a & ->), W as (b & ->). rewrite (str_value x SK8 bd a E Hx) in Ex. rewrite (str_value y SK8 bd b Ety Hy) in Ey. cbn [bind] in Ex, Ey. injection Ex as Ex. injection Ey as Ey. f_equal.
    pose proof (of_codes_chars a Tx) as C1. pose proof (of_codes_chars b Ty) as C2. unfold chars in C1, C2. congruence.
Qed.
(** Data of any other type than the primitive, enumerated and string types: the assertion fails. *)
Theorem C56_rejected : forall x, match d_type x with TPrim _ | TEnum _ _ _ | TStr _ _ => False | _ => True end -> cast_string x = Fail Assert.
Proof. intros x H. unfold cast_string. destruct (d_type x); try contradiction; reflexivity. Qed.
Lemma a_string : forall k s, exists d, d_type d = TStr k 0 /\ holds d (VStr s).
Proof.
  intros k s. destruct (new_holds (TStr k 0)) as (d & E & T & H & _); [apply at_str; reflexivity|exact I|]. destruct H as (W & O & R & L & _). rewrite T in *. cbn [rget] in *.
  destruct (PropData.C41_set_checked_partial (fun _ _ b => b) (ScStr k s) (TStr k 0) (d_mem d) 0 L (conj W O) eq_refl eq_refl) as (K & _).
  destruct K as (b & _ & L' & R'); [reflexivity|reflexivity|]. exists (mkData (TStr k 0) b). split; [reflexivity|]. repeat split; assumption.
Qed.
(** Wide strings have no text: cast<std::string>() of each of them is empty, so different ones have the same text. *)
Theorem C72_wide_refuted : forall k, k <> SK8 -> (forall x bd, d_type x = TStr k bd -> cast_string x = Ok "") /\
  exists x y v w, d_type x = TStr k 0 /\ d_type y = TStr k 0 /\ holds x v /\ holds y w /\ v <> w /\ cast_string x = cast_string y.
Proof.
  intros k K. assert (H : forall x bd, d_type x = TStr k bd -> cast_string x = Ok "") by (intros x bd Ht; unfold cast_string; rewrite Ht; destruct k; [congruence|reflexivity|reflexivity]).
  split; [exact H|]. destruct (a_string k [97%N]) as (x & Tx & Hx), (a_string k [98%N]) as (y & Ty & Hy). exists x, y, (VStr [97%N]), (VStr [98%N]). repeat (split; [assumption|]). split; [discriminate|]. rewrite (H x 0%N Tx), (H y 0%N Ty). reflexivity.
Qed.
Example C56_nontrivial : (exists x, is_int x PI64 (-20)%Z /\ cast_string x = Ok "-20") /\ (exists x, is_int x PC8 97%Z /\ cast_string x = Ok "97") /\
  (exists x, d_type x = TStr SK8 0 /\ holds x (VStr [97; 34; 98]%N) /\ cast_string x = Ok (String "a" (String (Ascii.ascii_of_nat 34) "b"))).
Proof.
  split; [|split].
  - assert (H : is_int (PropInt.int_of PI64 (-20)) PI64 (-20)) by (apply PropInt.int_of_is; [discriminate|unfold fits, least, greatest, width; cbn; lia]). eexists. split; [exact H|]. vm_compute. reflexivity.
  - assert (H : is_int (PropInt.int_of PC8 97) PC8 97) by (apply PropInt.int_of_is; [discriminate|unfold fits, least, greatest, width; cbn; lia]). eexists. split; [exact H|]. vm_compute. reflexivity.
  - destruct (a_string SK8 [97; 34; 98]%N) as (x & Tx & Hx). exists x. split; [exact Tx|]. split; [exact Hx|]. unfold cast_string. rewrite Tx, (str_value x SK8 0 _ Tx Hx). reflexivity.
Qed.

Print Assumptions C56_number.
Print Assumptions C56_enum.
Print Assumptions C56_string.
Print Assumptions C56_told.
Print Assumptions C56_rejected.
Print Assumptions C72_wide_refuted.
