(** The decimal text of a number and the matching of integer literals. *)
From Verif Require Import Base Types IdlLit IdlSpec IdlLitFacts Peg0 Grammar Peg PegFacts PegRules ModuleFacts.
Local Open Scope string_scope.

Definition digit (c : ascii) : bool := in_class c [("0", "9")]%char.
Definition digit_of (x : N) : ascii := ascii_of_N (48 + x mod 10).
Lemma digit_of_spec : forall x, is_digit_of (digit_of x) (Z.of_N (x mod 10)) /\ digit (digit_of x) = true.
Proof.
  intros x. unfold digit_of. pose proof (N.mod_lt x 10 ltac:(lia)) as H. remember (x mod 10)%N as d eqn:E; clear E.
  assert (C : (d = 0 \/ d = 1 \/ d = 2 \/ d = 3 \/ d = 4 \/ d = 5 \/ d = 6 \/ d = 7 \/ d = 8 \/ d = 9)%N) by lia.
  repeat match goal with H : _ \/ _ |- _ => destruct H end; subst d; (split; [|reflexivity]).
  1: apply (dg_dec _ 0); [lia|reflexivity]. 1: apply (dg_dec _ 1); [lia|reflexivity]. 1: apply (dg_dec _ 2); [lia|reflexivity].
  1: apply (dg_dec _ 3); [lia|reflexivity]. 1: apply (dg_dec _ 4); [lia|reflexivity]. 1: apply (dg_dec _ 5); [lia|reflexivity].
  1: apply (dg_dec _ 6); [lia|reflexivity]. 1: apply (dg_dec _ 7); [lia|reflexivity]. 1: apply (dg_dec _ 8); [lia|reflexivity].
  apply (dg_dec _ 9); [lia|reflexivity].
Qed.
Lemma digit_of_small : forall x, (0 < x < 10)%N -> in_class (digit_of x) [("1", "9")]%char = true.
Proof.
  intros x H. unfold digit_of. rewrite N.mod_small by lia.
  assert (C : (x = 1 \/ x = 2 \/ x = 3 \/ x = 4 \/ x = 5 \/ x = 6 \/ x = 7 \/ x = 8 \/ x = 9)%N) by lia.
  repeat match goal with H : _ \/ _ |- _ => destruct H end; subst x; reflexivity.
Qed.
Lemma dec_digits_spec : forall f x acc, (x < 2 ^ N.of_nat f)%N -> (0 < f)%nat -> exists D, dec_digits f x acc = D ++ acc /\ numeral 10 D (Z.of_N x) /\ all_chars digit D = true /\
  ((0 < x)%N -> first_is (fun c => in_class c [("1", "9")]%char) D = true).
Proof.
  induction f as [|f IH]; intros x acc Hx Hf; [lia|]. cbn [dec_digits]. change (ascii_of_N (48 + x mod 10)) with (digit_of x). destruct (N.ltb_spec x 10) as [L|L].
  - exists (String (digit_of x) ""). split; [reflexivity|]. destruct (digit_of_spec x) as [H D]. rewrite N.mod_small in H by lia. split; [constructor; [exact H|lia]|].
    split; [cbn [all_chars]; rewrite D; reflexivity|]. intros P. cbn [first_is]. apply digit_of_small. lia.
  - assert (Q : (x / 10 < 2 ^ N.of_nat f)%N).
    { apply N.div_lt_upper_bound; [lia|]. rewrite Nat2N.inj_succ, N.pow_succ_r' in Hx. lia. }
    destruct f as [|f'].
    { cbn in Q. assert (x / 10 >= 1)%N by (apply N.le_ge, N.div_le_lower_bound; lia). lia. }
    destruct (IH (x / 10)%N (String (digit_of x) acc) Q ltac:(lia)) as (D & E & H & A & P). rewrite E. exists (D ++ String (digit_of x) "").
    destruct (digit_of_spec x) as [Hd Hc]. split; [rewrite app_assoc_s; reflexivity|]. split; [|split].
    + rewrite (N.div_mod' x 10) at 2. rewrite N2Z.inj_add, N2Z.inj_mul, Z.mul_comm. constructor; [exact H|exact Hd|pose proof (N.mod_lt x 10 ltac:(lia)); lia].
    + clear - A Hc. induction D as [|c D IH]; cbn [append all_chars] in *; [rewrite Hc; reflexivity|]. apply andb_true_iff in A as [-> A]. apply IH, A.
    + intros _. assert (1 <= x / 10)%N by (apply N.div_le_lower_bound; lia). specialize (P ltac:(lia)). destruct D; [discriminate P|exact P].
Qed.
Lemma to_string_spec : forall x, numeral 10 (to_string x) (Z.of_N x) /\ all_chars digit (to_string x) = true /\
  ((0 < x)%N -> first_is (fun c => in_class c [("1", "9")]%char) (to_string x) = true).
Proof.
  intros x. unfold to_string. destruct (dec_digits_spec (S (N.to_nat (N.log2 x))) x "") as (D & E & H).
  - rewrite Nat2N.inj_succ, N2Nat.id. destruct (N.eq_0_gt_0_cases x) as [->|P]; [reflexivity|]. apply N.log2_spec, P.
  - lia.
  - rewrite E, app_nil_s. exact H.
Qed.
Lemma strto_to_string : forall x, strto 10 (to_string x) = Some (false, Z.of_N x).
Proof.
  intros x. destruct (to_string_spec x) as (H & _ & _). rewrite <- (app_nil_s (to_string x)). apply strto_plain; [lia|exact H|exact I|]. intros E; lia.
Qed.
Lemma stoul_to_string : forall x, (x < 2 ^ 64)%N -> stoul (to_string x) = Ok (Z.of_N x).
Proof. intros x H. unfold stoul. rewrite strto_to_string. destruct (Z.ltb_spec (2 ^ 64 - 1) (Z.of_N x)); [lia|reflexivity]. Qed.
Lemma atoi_to_string : forall x, (x < 2 ^ 31)%N -> atoi (to_string x) = Ok (Z.of_N x).
Proof.
  intros x H. unfold atoi. rewrite strto_to_string. destruct (Z.leb_spec (- 2 ^ 31) (Z.of_N x)); [|lia]. destruct (Z.ltb_spec (Z.of_N x) (2 ^ 31)); [|lia]. reflexivity.
Qed.

(** *** Matching *)
Lemma digit_solid : forall c, digit c = true -> is_ws c || Ascii.eqb c "/" = false.
Proof. intros c H. pose proof (all_ascii (fun c => implb (digit c) (negb (is_ws c || Ascii.eqb c "/"))) eq_refl c) as K. cbv beta in K. rewrite H in K. apply negb_true_iff in K. exact K. Qed.
Lemma number_cons : forall x, exists c r, to_string x = String c r /\ digit c = true /\ all_chars digit r = true.
Proof.
  intros x. destruct (to_string_spec x) as (H & A & _). destruct (to_string x) as [|c r] eqn:E; [destruct (numeral_head _ _ _ H) as (c & r & E' & _); discriminate E'|].
  cbn [all_chars] in A. apply andb_true_iff in A as [A B]. exists c, r. auto.
Qed.
Lemma number_solid : forall x s, solid (to_string x ++ s).
Proof. intros x s. destruct (number_cons x) as (c & r & -> & D & _). apply digit_solid, D. Qed.
Lemma digit_star : forall x s, all_chars digit x = true -> first_is digit s = false -> exists ns ts, ok (Star (Ref R_DECIMAL_DIGIT)) (x ++ s) ns ts s.
Proof.
  induction x as [|c x IH]; intros s A F.
  - do 2 eexists. apply ok_star_end, no_ref. cbn [gram]. apply no_cls. intros c r E. cbn in E. subst s. exact F.
  - cbn [all_chars] in A. apply andb_true_iff in A as [A B]. destruct (IH s B F) as (ns & ts & H). do 2 eexists. eapply ok_star_more; [|exact H].
    eapply (ok_ref_text R_DECIMAL_DIGIT (String c "") []); [|reflexivity|reflexivity]. cbn [gram append]. apply ok_cls, A.
Qed.
(** The rest of the text does not go on with a digit or a letter x. *)
Definition num_end (s : string) : Prop := first_is (fun c => digit c || Ascii.eqb c "x" || Ascii.eqb c "X") s = false.
Lemma num_end_digit : forall s, num_end s -> first_is digit s = false.
Proof. intros [|c s] H; [reflexivity|]. cbn [first_is]. unfold num_end in H. cbn [first_is] in H. destruct (digit c); [discriminate H|reflexivity]. Qed.
Lemma to_string_0 : to_string 0 = "0".
Proof. reflexivity. Qed.
Lemma ok_dec_literal : forall x s, num_end s -> exists ns ts, ok (Alt (Ref R_OCT_LITERAL) (Alt (Ref R_HEX_LITERAL) (Ref R_DEC_LITERAL))) (to_string x ++ s) ns ts s.
Proof.
  intros x s F. destruct (N.eq_0_gt_0_cases x) as [->|P].
  - rewrite to_string_0. do 2 eexists. apply ok_alt_r.
    { apply no_ref. cbn [gram]. eapply no_seq_r; [apply ok_lit, (after_self "0" s)|]. apply no_plus, no_ref. cbn [gram]. apply no_cls. intros c r ->.
      pose proof (all_ascii (fun c => implb (in_class c [("0", "7")]%char) (digit c)) eq_refl c) as K. cbv beta in K. apply num_end_digit in F. cbn [first_is] in F. rewrite F in K.
      destruct (in_class c [("0"%char, "7"%char)]); [discriminate K|reflexivity]. }
    apply ok_alt_r.
    { apply no_ref. cbn [gram]. eapply no_seq_r; [apply ok_lit, (after_self "0" s)|]. apply no_seq_l, no_cls. intros c r ->.
      pose proof (all_ascii (fun c => implb (in_class c [("x", "x"); ("X", "X")]%char) (digit c || Ascii.eqb c "x" || Ascii.eqb c "X")) eq_refl c) as K. cbv beta in K.
      unfold num_end in F. cbn [first_is] in F. rewrite F in K. destruct (in_class c [("x"%char, "x"%char); ("X"%char, "X"%char)]); [discriminate K|reflexivity]. }
    eapply (ok_ref_node R_DEC_LITERAL); [|reflexivity|reflexivity]. cbn [gram]. apply ok_alt_r; [|apply ok_lit, (after_self "0" s)].
    apply no_seq_l, no_cls. intros c r E. injection E as <- _. reflexivity.
  - destruct (to_string_spec x) as (_ & A & H). specialize (H P). destruct (to_string x) as [|c r]; [discriminate H|]. cbn [first_is] in H. cbn [all_chars] in A. apply andb_true_iff in A as [A B].
    assert (Z : Ascii.eqb "0" c = false).
    { pose proof (all_ascii (fun c => implb (in_class c [("1", "9")]%char) (negb (Ascii.eqb "0" c))) eq_refl c) as K. cbv beta in K. rewrite H in K. apply negb_true_iff in K; exact K. }
    destruct (digit_star r s B (num_end_digit _ F)) as (ns & ts & S). do 2 eexists. cbn [append].
    apply ok_alt_r; [apply no_ref; cbn [gram]; apply no_seq_l, no_lit; cbn [after]; rewrite Z; reflexivity|].
    apply ok_alt_r; [apply no_ref; cbn [gram]; apply no_seq_l, no_lit; cbn [after]; rewrite Z; reflexivity|].
    eapply (ok_ref_node R_DEC_LITERAL); [|reflexivity|reflexivity]. cbn [gram]. apply ok_alt_l. eapply ok_seq; [apply ok_cls, H|exact S].
Qed.
Definition number_node (x : N) : ast := Ast R_INTEGER_LITERAL R_INTEGER_LITERAL (to_string x) [].
Lemma ok_integer : forall x s, num_end s -> ok (Ref R_INTEGER_LITERAL) (to_string x ++ s) [number_node x] [] s.
Proof.
  intros x s F. destruct (ok_dec_literal x s F) as (ns & ts & H). eapply ok_ref_token; [|reflexivity|reflexivity]. cbn [gram]. apply ok_tok. exact H.
Qed.
Lemma ok_positive : forall x s, num_end s -> ok (Ref R_POSITIVE_INT_CONST) (to_string x ++ s) [Ast R_POSITIVE_INT_CONST R_POSITIVE_INT_CONST "" [number_node x]] [] s.
Proof. intros x s F. eapply ok_ref_node; [|reflexivity|reflexivity]. cbn [gram]. apply ok_alt_l, ok_integer, F. Qed.
