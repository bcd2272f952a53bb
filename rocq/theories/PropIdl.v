(** C33 constant expressions, C34 integer literals in IDL text. *)
From Verif Require Import Base Types TypeBuild TypeSpec Compat CompatFacts2 Mem MemSpec Layout MemFacts ConstructFacts Ops OpsSpec Prog ValueSpec DataSpec DataFacts IntOps NumSpec NumFacts IntSpec IntFacts Module ModuleSpec PropModule IdlLit IdlExpr IdlSpec IdlLitFacts IdlFacts PropInt.
From Coq Require Import Ascii.
Local Open Scope Z_scope.

(** ** C34 *)
(** Constants: the literal is read as its value, whatever text follows the token. *)
Theorem C34_constants : forall fc p l base z rest, int_kind p = true -> literal l base z -> ends base rest -> fits p z ->
  exists d, get_literal_value fc p l rest = Ok d /\ is_int d p z.
Proof.
  intros fc p l base z rest Hk Hl He Hf. unfold get_literal_value. rewrite (base_of_literal _ _ _ Hl), (read_number_literal p l base z rest Hk Hl He Hf).
  destruct (result_int fc p z (int_kind_bool p Hk)) as (d & r & Ed & Hd & Hr). exists d. split; [exact Ed|]. rewrite (reduced_unique p z z r (reduced_fits p z Hf) Hr). exact Hd.
Qed.
Lemma through p z : p <> PBool -> is_float p = false -> fits p z -> prim_int p (int_bytes p z) = z.
Proof.
  intros Hb Hfl Hf. destruct (int_bytes_wf p z) as [Hl HF]. pose proof (number_prim_int p (int_bytes p z) Hl HF) as H1. pose proof (proj2 (int_bytes_number p z z Hb) (reduced_fits p z Hf)) as H2. eapply number_unique; eassumption.
Qed.
Lemma parse_label_of p l z : int_kind p = true -> fits p z -> read_number p (base_of l) l = z -> reduced PI64 z (parse_label p l).
Proof.
  intros Hk Hf Er. unfold parse_label. rewrite Er.
  assert (E : prim_int (match p with PU16 => PU32 | q => q end) (int_bytes (match p with PU16 => PU32 | q => q end) z) = z).
  { apply through; [destruct p; discriminate|destruct p; try discriminate Hk; reflexivity|]. destruct p; try exact Hf. unfold fits, least, greatest, width in *. cbn in *. lia. }
  rewrite E. destruct (reduced_exists PI64 z) as (r & Hr); [discriminate|]. replace (prim_int PI64 (int_bytes PI64 z)) with r; [exact Hr|].
  destruct (int_bytes_wf PI64 z) as [Hl HF]. eapply number_unique; [|apply number_prim_int; assumption]. apply int_bytes_number; [discriminate|exact Hr].
Qed.
(** Labels of a union with an integer discriminator: the int64_t stored is the value modulo 2^64. *)
Theorem C34_labels : forall p l base z, int_kind p = true -> literal l base z -> fits p z -> reduced PI64 z (parse_label p l).
Proof.
  intros p l base z Hk Hl Hf. apply parse_label_of; [exact Hk|exact Hf|]. rewrite (base_of_literal _ _ _ Hl). pose proof (read_number_literal p l base z "" Hk Hl I Hf) as E. rewrite app_nil_s in E. exact E.
Qed.
Lemma strto_minus base l z : literal l base z -> base <> 16 -> strto base ("-" ++ l) = Some (true, z).
Proof.
  intros Hl Hb. destruct (strto_literal _ _ _ "" Hl I) as [E _]. rewrite app_nil_s in E. unfold strto in *.
  assert (Hs : exists c s, l = String c s /\ is_space c = false /\ Ascii.eqb c "-" = false /\ Ascii.eqb c "+" = false).
  { destruct Hl as [ | c s z H Hc | s z H | x s z H Hx ]; try (eexists _, _; split; [reflexivity|]; repeat split; reflexivity).
    destruct (numeral_head _ _ _ H) as (c' & r & E1 & Hd & Hd2). injection E1 as <- <-. eexists _, _. split; [reflexivity|]. apply (digit_not_space _ _ (digit_val_spec _ Hd2)). }
  destruct Hs as (c & s & -> & H1 & H2 & H3). cbn [append]. change (skip_space (String "-" (String c s))) with (String "-" (String c s)). cbv iota. cbn [skip_space] in E. rewrite H1 in E.
  assert (E2 : (match String c s with String "-" r => (true, r) | String "+" r => (false, r) | _ => (false, String c s) end) = (false, String c s)).
  { clear E Hl. destruct c as [[] [] [] [] [] [] [] []]; try reflexivity; cbn in H2, H3; discriminate. }
  rewrite E2 in E. clear E2.
  destruct (starts_digit base (match String c s with String "0" (String x r) => if (base =? 16) && (Ascii.eqb x "x" || Ascii.eqb x "X") && starts_digit 16 r then r else String c s | _ => String c s end)) eqn:Es; [|discriminate E].
  injection E as <-. reflexivity.
Qed.
(** A minus sign in front of a decimal label. *)
Theorem C34_negative_labels : forall p l z, signed_int_kind p = true -> literal l 10 z -> fits p (- z) -> parse_label p ("-" ++ l) = - z.
Proof.
  intros p l z Hs Hl Hf. assert (Hk : int_kind p = true) by (destruct p; try discriminate Hs; reflexivity).
  assert (Hr : reduced PI64 (- z) (parse_label p ("-" ++ l))).
  { apply parse_label_of; [exact Hk|exact Hf|]. change (base_of ("-" ++ l)) with 10. unfold read_number. assert (Hsg : prim_signed p = true) by (destruct p; try discriminate Hs; reflexivity). rewrite Hsg.
    unfold strtoll. rewrite (strto_minus 10 l z Hl ltac:(discriminate)). unfold fits, least, greatest in Hf. destruct p; try discriminate Hs; cbn in Hf |- *; lia. }
  eapply reduced_unique; [exact Hr|]. apply reduced_fits. unfold fits, least, greatest in Hf |- *. destruct p; try discriminate Hs; cbn in Hf |- *; lia.
Qed.
(** Labels of a union with an enumeration as discriminator: a number other than 0, or 0 not written in hexadecimal; the
    name of an enumerator. *)
Lemma has_letter_numeral s z : numeral 10 s z -> has_letter s = false.
Proof.
  assert (Hd : forall c d, is_digit_of c d -> d < 10 -> forall s, has_letter (String c s) = has_letter s).
  { intros c d [k Hk ->|k Hk ->|k Hk ->] Hlt s0; [|lia|lia]. do 10 (destruct k as [|k]; [reflexivity|]). lia. }
  assert (Happ : forall a b, has_letter (a ++ b) = has_letter a || has_letter b).
  { intros a b. induction a as [|c a IH]; [reflexivity|]. cbn [append has_letter]. rewrite IH, !orb_assoc. reflexivity. }
  induction 1 as [c d H Hb|s z c d H IH H1 Hb]; [rewrite (Hd c d H Hb); reflexivity|]. rewrite Happ, IH, (Hd c d H1 Hb). reflexivity.
Qed.
Theorem C34_enum_labels : forall vals l base z, literal l base z -> z < 2 ^ 32 -> z <> 0 \/ base = 10 \/ l = "0"%string -> parse_enum_label vals l = Ok z.
Proof.
  intros vals l base z Hl Hz H0. unfold parse_enum_label. destruct (strto_literal _ _ _ "" Hl I) as [E Hz0]. rewrite app_nil_s in E. rewrite (base_of_literal _ _ _ Hl).
  unfold strtoull. rewrite E. rewrite (proj2 (Z.ltb_ge _ _)) by lia. rewrite through; [|discriminate|reflexivity|unfold fits, least, greatest, width; cbn; lia].
  destruct (z =? 0) eqn:Ez; [|reflexivity]. apply Z.eqb_eq in Ez. assert (Hh : has_letter l = false).
  { destruct H0 as [H0|[-> | ->]]; [contradiction| |reflexivity]. inversion Hl; subst. eapply has_letter_numeral; eassumption. }
  rewrite Hh. reflexivity.
Qed.
Definition letter (c : ascii) : Prop := let n := nat_of_ascii c in n = 95%nat \/ (65 <= n <= 90)%nat \/ (97 <= n <= 122)%nat.
Definition letterb (c : ascii) : bool := let n := nat_of_ascii c in Nat.eqb n 95 || (Nat.leb 65 n && Nat.leb n 90) || (Nat.leb 97 n && Nat.leb n 122).
Lemma letter_facts c s : letter c -> base_of (String c s) = 10 /\ strto 10 (String c s) = None /\ has_letter (String c s) = true.
Proof.
  intros Hc. assert (E : letterb c = true).
  { unfold letter, letterb in *. cbv zeta in *. generalize dependent (nat_of_ascii c). intros n [H|[[H1 H2]|[H1 H2]]].
    - rewrite H. reflexivity.
    - rewrite (proj2 (Nat.leb_le 65 n) H1), (proj2 (Nat.leb_le n 90) H2), orb_true_r. reflexivity.
    - rewrite (proj2 (Nat.leb_le 97 n) H1), (proj2 (Nat.leb_le n 122) H2), orb_true_r. reflexivity. }
  clear Hc. destruct c as [[] [] [] [] [] [] [] []]; try discriminate E; repeat split.
Qed.
Theorem C34_enum_names : forall vals c s, letter c -> parse_enum_label vals (String c s) = match assoc (String c s) vals with Some v => Ok (Z.of_N v) | None => Fail Assert end.
Proof.
  intros vals c s Hc. unfold parse_enum_label. destruct (letter_facts c s Hc) as (-> & E & ->). unfold strtoull. rewrite E. reflexivity.
Qed.
(** Array dimensions and the bounds of sequences and maps: decimal literals below 2^32; bounds of strings: below 2^31.
    Missing: octal and hexadecimal literals, which are misread ([C34_bounds_refuted]). *)
Lemma stoul_decimal l z rest : literal l 10 z -> ends 10 rest -> z < 2 ^ 32 -> (do z <- stoul (l ++ rest); Ok (z mod 2 ^ 32)) = Ok z.
Proof.
  intros Hl He Hz. destruct (strto_literal _ _ _ _ Hl He) as [E H0]. unfold stoul. rewrite E, (proj2 (Z.ltb_ge _ _)) by lia. cbn [bind]. rewrite Z.mod_small by lia. reflexivity.
Qed.
Theorem C34_bounds_partial : forall l z rest, literal l 10 z -> ends 10 rest ->
  (z < 2 ^ 32 -> array_dimension l rest = Ok z /\ collection_bound l = Ok z) /\ (z < 2 ^ 31 -> string_bound l = Ok z).
Proof.
  intros l z rest Hl He. split; intros Hz.
  - split; [apply stoul_decimal; assumption|]. unfold collection_bound. destruct (String.eqb_spec l "") as [->|_]; [inversion Hl|]. rewrite <- (app_nil_s l) at 1. apply stoul_decimal; [exact Hl|exact I|exact Hz].
  - destruct (strto_literal _ _ _ "" Hl I) as [E H0]. rewrite app_nil_s in E. unfold string_bound, atoi. rewrite E.
    rewrite (proj2 (Z.leb_le _ _)), (proj2 (Z.ltb_lt _ _)) by lia. cbn [andb bind]. rewrite Z.mod_small by lia. reflexivity.
Qed.
(** Every hexadecimal literal is read as 0 there (a bound of 0 means unbounded); octal digits are read as decimal ones. *)
Theorem C34_bounds_refuted : (forall l z rest, literal l 16 z -> ends 10 rest -> array_dimension l rest = Ok 0 /\ collection_bound l = Ok 0 /\ string_bound l = Ok 0) /\
  (forall s z z8 rest, numeral 10 s z -> literal (String "0" s) 8 z8 -> ends 10 rest -> z < 2 ^ 32 -> array_dimension (String "0" s) rest = Ok z /\ collection_bound (String "0" s) = Ok z).
Proof.
  split.
  - intros l z rest Hl _. inversion Hl as [ | | |x s z0 H Hx]; subst. destruct Hx as [-> | ->]; repeat split; reflexivity.
  - intros s z z8 rest Hn _ He Hz. assert (E : forall r, ends 10 r -> strto 10 (String "0" s ++ r) = Some (false, z)).
    { intros r Hr. apply (strto_plain 10 (String "0" s)); [lia| |exact Hr|lia]. clear - Hn. induction Hn as [c d Hd Hb|s z c d H IH Hd Hb].
      - change (String "0" (String c "")) with (String "0" "" ++ String c "")%string. replace d with (0 * 10 + d) by lia. apply nu_more; try assumption. apply nu_one; [|lia]. apply (dg_dec _ 0); [lia|reflexivity].
      - change (String "0" (s ++ String c "")) with (String "0" s ++ String c "")%string. apply nu_more; assumption. }
    assert (H0 : 0 <= z) by (eapply numeral_nonneg; [|exact Hn]; lia).
    split; [unfold array_dimension, stoul; rewrite (E rest He)|unfold collection_bound, stoul; cbn [String.eqb Ascii.eqb]; rewrite <- (app_nil_s (String "0" s)), (E ""%string I)];
      rewrite (proj2 (Z.ltb_ge _ _)) by lia; cbn [bind]; rewrite Z.mod_small by lia; reflexivity.
Qed.
(** Labels that are expressions: a minus sign in front of an octal label, an addition; 0 in hexadecimal as the label of an
    enumeration is taken for a name. *)
Theorem C34_labels_refuted : literal "010" 8 8 /\ parse_label PI32 "-010" = -10 /\ parse_label PI32 "1+2" = 1 /\ (literal "0x0" 16 0 /\ parse_enum_label [] "0x0" = Fail Assert).
Proof.
  split.
  { apply li_oct. change (numeral 8 (String "1" "" ++ String "0" "") (1 * 8 + 0)). apply nu_more; [apply nu_one| |]; try lia; [apply (dg_dec _ 1)|apply (dg_dec _ 0)]; try lia; reflexivity. }
  split; [reflexivity|]. split; [reflexivity|]. split; [|reflexivity]. apply li_hex; [apply nu_one; [apply (dg_dec _ 0); [lia|reflexivity]|lia]|left; reflexivity].
Qed.
(** wstring<N> for a constant N: the bound is read from the name (parser.hpp:1990-1998), so the type is unbounded. *)
Theorem C34_wstring_constant_refuted : forall c s, letter c -> string_bound (String c s) = Ok 0.
Proof.
  intros c s Hc. unfold string_bound, atoi. destruct (letter_facts c s Hc) as (_ & -> & _). reflexivity.
Qed.
Example C34_nontrivial : literal "0x1F" 16 31 /\ ends 16 "; const" /\ fits PI8 31 /\ literal "017" 8 15 /\ literal "340" 10 340 /\ ends 10 "]".
Proof.
  assert (H0 : forall c r, (forall d, is_digit_of c d -> False) -> forall b, ends b (String c r)) by (intros c r H b d Hd; destruct (H d Hd)).
  assert (Hno : forall c d, digit_val c = 36 -> is_digit_of c d -> False) by (intros c d E Hd; destruct (digit_val_of c d Hd); lia).
  split. { apply li_hex; [|left; reflexivity]. change (numeral 16 (String "1" "" ++ String "F" "") (1 * 16 + 15)). apply nu_more; [apply nu_one| |]; try lia; [apply (dg_dec _ 1)|apply (dg_upper _ 5)]; try lia; reflexivity. }
  split; [apply H0; intros d; apply Hno; reflexivity|]. split; [unfold fits, least, greatest, width; cbn; lia|].
  split. { apply li_oct. change (numeral 8 (String "1" "" ++ String "7" "") (1 * 8 + 7)). apply nu_more; [apply nu_one| |]; try lia; [apply (dg_dec _ 1)|apply (dg_dec _ 7)]; try lia; reflexivity. }
  split. { apply li_dec; [|discriminate]. change (numeral 10 ((String "3" "" ++ String "4" "") ++ String "0" "") ((3 * 10 + 4) * 10 + 0)).
    apply nu_more; [apply nu_more; [apply nu_one| |]| |]; try lia; [apply (dg_dec _ 3)|apply (dg_dec _ 4)|apply (dg_dec _ 0)]; try lia; reflexivity. }
  apply H0; intros d; apply Hno; reflexivity.
Qed.

(** ** C33 *)
(** The parser accepts exactly the sequences of tokens that are IDL expressions. *)
Theorem C33_accepts : forall ts, (exists e, parse_expr ts = Some e) <-> exists e, idl_expr e ts.
Proof.
  intros ts. split; intros [e H].
  - apply parse_expr_iff in H. eapply rderives_derives, H.
  - eexists. apply parse_expr_idl, H.
Qed.
(** The value of the constant.  Missing for the full property: chains of subtractions, divisions and so on, which are
    grouped to the right, ~ and the unary minus of unsigned integers ([C33_*_refuted]). *)
Theorem C33_value_partial : forall fc flt env p e ts z, int_kind p = true -> idl_expr e ts -> evaluates p env e z -> right_safe p env e -> unary_safe p e ->
  exists d, const_value fc flt env p ts = Ok d /\ is_int d p z.
Proof. exact const_value_sound. Qed.
(** The declaration  const T x = expression;  in the module at [q]. *)
Theorem C33_declaration_partial : forall fc flt rs p x e ts z root q, int_kind p = true -> idl_expr e ts ->
  let env := constants_of root rs in
  evaluates p env e z -> right_safe p env e -> unary_safe p e ->
  no_nulls root -> exists_module root q = true -> consts_paired root -> ident x ->
  exists b root', const_dcl fc flt rs p x ts root q = Ok (b, root') /\ (b = true <-> const_entry root q x = None) /\
    (b = true -> exists d, const_entry root' q x = Some d /\ is_int d p z) /\
    (forall q' y, b = false \/ q' <> q \/ y <> x -> const_entry root' q' y = const_entry root q' y).
Proof.
  intros fc flt rs p x e ts z root q Hk Hi env He Hr Hu Hn Hq Hc Hx. destruct (const_value_sound fc flt env p e ts z Hk Hi He Hr Hu) as (v & Ev & Hv). unfold const_dcl. fold env. rewrite Ev. cbn [bind].
  pose proof Hv as (Ht & bs & Hh & Hnum).
  destruct (C32_create_constant_partial fc x v (VBytes bs) false false root q Hn Hq Hc Hx Hh) as (b & root' & E & Hb & Hnew & Hold & _).
  - rewrite Ht. exact I.
  - rewrite Ht. exact I.
  - exists b, root'. split; [exact E|]. split; [rewrite Hb; split; [intros [H|H]; [discriminate H|exact H]|auto]|]. split; [|exact Hold].
    intros Hbt. destruct (Hnew Hbt) as (d & Ed & Td & Hd). exists d. split; [exact Ed|]. split; [congruence|]. exists bs. split; [exact Hd|exact Hnum].
Qed.
(** a - b - c is a - (b - c), so 10 - 4 - 3 is 9; likewise a / b / c and a >> b >> c and so on. *)
Theorem C33_left_associative_refuted : forall fc flt env p o x y z a b c ra rb rc bx by_ bz, int_kind p = true ->
  literal x bx a -> literal y by_ b -> literal z bz c -> ends bx ra -> ends by_ rb -> ends bz rc -> fits p a -> fits p b -> fits p c ->
  defined o p b c -> fits p (math o b c) -> defined o p a (math o b c) -> fits p (math o a (math o b c)) ->
  let ts := [KLit x ra; KOp o; KLit y rb; KOp o; KLit z rc] in
  idl_expr (EBin o (EBin o (ELit x ra) (ELit y rb)) (ELit z rc)) ts /\ exists d, const_value fc flt env p ts = Ok d /\ is_int d p (math o a (math o b c)).
Proof.
  intros fc flt env p o x y z a b c ra rb rc bx by_ bz Hk Hx Hy Hz Ea Eb Ec Fa Fb Fc D1 F1 D2 F2 ts.
  assert (Hup : forall k l e t, (l + k <= 7)%nat -> derives (l + k) e t -> derives l e t).
  { induction k as [|k IH]; intros l e t Hle H; [rewrite Nat.add_0_r in H; exact H|]. apply de_up; [lia|]. apply IH; [lia|]. replace (S l + k)%nat with (l + S k)%nat by lia. exact H. }
  pose proof (level_lt o) as Hlv. assert (Hlit : forall l s r, (l <= 7)%nat -> derives l (ELit s r) [KLit s r]).
  { intros l s r Hl. apply (Hup (7 - l)%nat); [lia|]. replace (l + (7 - l))%nat with 7%nat by lia. apply de_lit. }
  assert (Hi : idl_expr (EBin o (EBin o (ELit x ra) (ELit y rb)) (ELit z rc)) ts).
  { apply (Hup (level o)); [cbn; lia|]. change (derives (level o) (EBin o (EBin o (ELit x ra) (ELit y rb)) (ELit z rc)) ([KLit x ra; KOp o; KLit y rb] ++ KOp o :: [KLit z rc])).
    apply de_bin; [|apply Hlit; lia]. change (derives (level o) (EBin o (ELit x ra) (ELit y rb)) ([KLit x ra] ++ KOp o :: [KLit y rb])). apply de_bin; apply Hlit; lia. }
  split; [exact Hi|]. unfold const_value. rewrite (parse_expr_idl _ _ Hi). cbn [regroup graft]. rewrite Nat.eqb_refl. cbn [graft].
  destruct (solve_sound fc flt env p (EBin o (ELit x ra) (EBin o (ELit y rb) (ELit z rc))) (math o a (math o b c)) Hk) as (d & Ed & Hd).
  - apply ev_bin; [econstructor; eassumption|apply ev_bin; [econstructor; eassumption|econstructor; eassumption|exact D1|exact F1]|exact D2|exact F2].
  - cbn. tauto.
  - rewrite Ed. cbn [bind]. apply assign_result_int, Hd.
Qed.
Lemma solve_primary fc flt env p e ts z : int_kind p = true -> derives 7 e ts -> evaluates p env e z -> right_safe p env e -> unary_safe p e ->
  exists d, solve fc flt env p (regroup e) = Ok d /\ is_int d p z.
Proof. intros Hk Hd He Hr Hu. apply solve_sound; [exact Hk|apply regroup_evaluates; [eapply derives_leftish, Hd|exact Hr|exact He]|apply regroup_unary_safe, Hu]. Qed.
Lemma unary_idl u e ts : derives 7 e ts -> idl_expr (EUn u e) (unary_token u :: ts).
Proof. intros H. unfold idl_expr. do 6 (apply de_up; [lia|]). apply de_un, H. Qed.
(** ~e is e. *)
Theorem C33_complement_refuted : forall fc flt env p e ts z, int_kind p = true -> derives 7 e ts -> evaluates p env e z -> right_safe p env e -> unary_safe p e ->
  idl_expr (EUn UTilde e) (KTilde :: ts) /\ exists d, const_value fc flt env p (KTilde :: ts) = Ok d /\ is_int d p z /\ z <> un_math UTilde p z.
Proof.
  intros fc flt env p e ts z Hk Hd He Hr Hu. pose proof (unary_idl UTilde e ts Hd) as Hi. split; [exact Hi|]. destruct (solve_primary fc flt env p e ts z Hk Hd He Hr Hu) as (d & Ed & Hdi).
  unfold const_value. cbn [unary_token] in Hi. rewrite (parse_expr_idl _ _ Hi). cbn [regroup solve]. rewrite Ed. cbn [bind]. destruct (assign_result_int fc p d z Hdi) as (d1 & E1 & H1). rewrite E1. cbn [bind].
  destruct (assign_result_int fc p d1 z H1) as (d2 & E2 & H2). exists d2. split; [exact E2|]. split; [exact H2|]. cbn [un_math]. clear. pose proof (width_pos p) as Hw. assert (E : 2 ^ width p = 2 * 2 ^ (width p - 1)) by (rewrite <- Z.pow_succ_r by lia; f_equal; lia). destruct (prim_signed p); [lia|]. rewrite E. lia.
Qed.
(** Unary minus is refused for unsigned types, even for -0. *)
Theorem C33_minus_unsigned_refuted : forall fc flt env p e ts z, int_kind p = true -> prim_signed p = false -> derives 7 e ts -> evaluates p env e z -> right_safe p env e -> unary_safe p e ->
  idl_expr (EUn UMinus e) (KOp Sub :: ts) /\ const_value fc flt env p (KOp Sub :: ts) = Fail Assert.
Proof.
  intros fc flt env p e ts z Hk Hs Hd He Hr Hu. pose proof (unary_idl UMinus e ts Hd) as Hi. split; [exact Hi|]. destruct (solve_primary fc flt env p e ts z Hk Hd He Hr Hu) as (d & Ed & Hdi).
  unfold const_value. cbn [unary_token] in Hi. rewrite (parse_expr_idl _ _ Hi). cbn [regroup solve]. rewrite Ed. cbn [bind]. destruct (assign_result_int fc p d z Hdi) as (d1 & E1 & H1). rewrite E1. cbn [bind].
  assert (Hsk : signed_int_kind p = false) by (destruct p; try discriminate Hs; reflexivity). destruct (C66_unary_unsigned_refuted fc flt d1 p z Hk Hsk H1) as [-> _]. reflexivity.
Qed.
(** The least value of int32_t and int64_t cannot be written: -2147483648 is a signed overflow, -9223372036854775808
    becomes -9223372036854775807. *)
Lemma decimal_literal s : (match s with String c _ => negb (Ascii.eqb c "0") | _ => false end) = true -> forallb (fun c => is_digit 10 c) (list_ascii_of_string s) = true -> literal s 10 (digits 10 s 0).
Proof.
  intros H0 Hf. assert (Hn : forall s, s <> ""%string -> forallb (fun c => is_digit 10 c) (list_ascii_of_string s) = true -> exists z, numeral 10 s z).
  { clear. intros s. rewrite <- (string_of_list_ascii_of_string s). generalize (list_ascii_of_string s) as l. clear s. intros l. rewrite list_ascii_of_string_of_list_ascii.
    induction l as [|c l IH] using rev_ind; intros Hne Hf; [contradiction Hne; reflexivity|]. rewrite forallb_app in Hf. apply andb_prop in Hf as [Hf Hc]. cbn in Hc. rewrite andb_true_r in Hc. unfold is_digit in Hc. apply Z.ltb_lt in Hc.
    assert (Hd : is_digit_of c (digit_val c)) by (apply digit_val_spec; lia).
    assert (Es : forall l, string_of_list_ascii (l ++ [c]) = (string_of_list_ascii l ++ String c "")%string) by (induction l0 as [|y l0 IHl]; [reflexivity|]; cbn; rewrite IHl; reflexivity). rewrite Es.
    destruct l as [|y l]; [exists (digit_val c); apply nu_one; assumption|]. destruct IH as (z & Hz); [discriminate|exact Hf|]. exists (z * 10 + digit_val c). apply nu_more; assumption. }
  destruct s as [|c s]; [discriminate H0|]. destruct (Hn (String c s) ltac:(discriminate) Hf) as (z & Hz). pose proof (digits_value 10 _ _ "" ltac:(lia) Hz I) as E. rewrite app_nil_s in E. rewrite E. apply li_dec; [exact Hz|].
  intros ->. discriminate H0.
Qed.
Lemma solve_literal fc flt env p l rest z : int_kind p = true -> read_number p (base_of l) (l ++ rest) = z -> exists d r, solve fc flt env p (ELit l rest) = Ok d /\ is_int d p r /\ reduced p z r.
Proof. intros Hk E. cbn [solve]. unfold get_literal_value. rewrite E. apply result_int, int_kind_bool, Hk. Qed.
Theorem C33_least_refuted : forall fc flt env rest, ends 10 rest ->
  (literal "2147483648" 10 (- least PI32) /\ const_value fc flt env PI32 [KOp Sub; KLit "2147483648" rest] = Fail UB) /\
  (literal "9223372036854775808" 10 (- least PI64) /\ exists d, const_value fc flt env PI64 [KOp Sub; KLit "9223372036854775808" rest] = Ok d /\ is_int d PI64 (least PI64 + 1)).
Proof.
  intros fc flt env rest He. assert (L1 : literal "2147483648" 10 2147483648) by (apply (decimal_literal "2147483648"); reflexivity). assert (L2 : literal "9223372036854775808" 10 9223372036854775808) by (apply (decimal_literal "9223372036854775808"); reflexivity).
  split; (split; [assumption|]); unfold const_value; (rewrite (parse_expr_idl (EUn UMinus (ELit _ rest)) _ (unary_idl UMinus _ _ (de_lit _ _)))); cbn [regroup].
  - destruct (solve_literal fc flt env PI32 "2147483648" rest 2147483648 eq_refl) as (d & r & Ed & Hd & Hr).
    { unfold read_number. cbn [prim_signed]. unfold strtoll. rewrite (base_of_literal _ _ _ L1). destruct (strto_literal _ _ _ _ L1 He) as [-> _]. reflexivity. }
    assert (r = least PI32). { eapply reduced_unique; [exact Hr|]. split; [unfold fits, least, greatest, width; cbn; lia|]. exists 1. reflexivity. } subst r.
    cbn [solve] in Ed |- *. rewrite Ed. cbn [bind]. destruct (assign_result_int fc PI32 d _ Hd) as (d1 & E1 & H1). rewrite E1. cbn [bind].
    destruct (C24_negate fc flt d1 PI32 _ eq_refl H1) as [_ Hub]. rewrite Hub; [reflexivity|cbn; lia|reflexivity].
  - destruct (solve_literal fc flt env PI64 "9223372036854775808" rest (2 ^ 63 - 1) eq_refl) as (d & r & Ed & Hd & Hr).
    { unfold read_number. cbn [prim_signed]. unfold strtoll. rewrite (base_of_literal _ _ _ L2). destruct (strto_literal _ _ _ _ L2 He) as [-> _]. reflexivity. }
    assert (r = 2 ^ 63 - 1). { eapply reduced_unique; [exact Hr|]. apply reduced_fits. unfold fits, least, greatest, width; cbn; lia. } subst r.
    cbn [solve] in Ed |- *. rewrite Ed. cbn [bind]. destruct (assign_result_int fc PI64 d _ Hd) as (d1 & E1 & H1). rewrite E1. cbn [bind].
    destruct (C24_negate fc flt d1 PI64 _ eq_refl H1) as [Hn _]. destruct Hn as (t & r & Et & Ht & Hr2); [right; cbn; lia|].
    assert (r = least PI64 + 1). { eapply reduced_unique; [exact Hr2|]. split; [unfold fits, least, greatest, width; cbn; lia|]. exists 0. reflexivity. } subst r.
    rewrite Et. cbn [bind]. destruct (assign_result_int fc PI64 t _ Ht) as (d2 & E2 & H2). rewrite E2. cbn [bind]. apply assign_result_int, H2.
Qed.
(** A constant of another integer type cannot be used, nor a name that is no constant. *)
Lemma assign_other fc p q d v : p <> q -> is_int v q d -> int_kind p = true -> int_kind q = true -> assign_result fc p v = Fail Assert.
Proof.
  intros Hne (Ht & _) Hp Hq. unfold assign_result. destruct (new_holds (TPrim p) (at_prim p) I) as (r & Er & Tr & _). rewrite Er. cbn [bind]. cbn [rget] in Tr. unfold assign_data. rewrite Tr, Ht.
  destruct p, q; try discriminate Hp; try discriminate Hq; try congruence; reflexivity.
Qed.
Theorem C33_mixed_types_refuted : forall fc flt env p q x d z, int_kind p = true -> int_kind q = true -> p <> q -> env x = Some d -> is_int d q z ->
  idl_expr (EName x) [KName x] /\ const_value fc flt env p [KName x] = Fail Assert.
Proof.
  intros fc flt env p q x d z Hp Hq Hne Ex Hd. assert (Hi : idl_expr (EName x) [KName x]) by (unfold idl_expr; do 7 (apply de_up; [lia|]); apply de_name). split; [exact Hi|].
  unfold const_value. rewrite (parse_expr_idl _ _ Hi). cbn [regroup solve]. unfold constant. rewrite Ex. cbn [bind]. rewrite (assign_other fc p q z d Hne Hd Hp Hq). reflexivity.
Qed.
Theorem C33_unknown_name_partial : forall fc flt env p x, int_kind p = true -> p <> PI8 -> env x = None -> const_value fc flt env p [KName x] = Fail Assert.
Proof.
  intros fc flt env p x Hp H8 Ex. assert (Hi : idl_expr (EName x) [KName x]) by (unfold idl_expr; do 7 (apply de_up; [lia|]); apply de_name).
  unfold const_value. rewrite (parse_expr_idl _ _ Hi). cbn [regroup solve]. unfold constant. rewrite Ex. destruct (new_holds (TPrim PBool) (at_prim PBool) I) as (v & Ev & Tv & _). rewrite Ev. cbn [bind].
  unfold assign_result. destruct (new_holds (TPrim p) (at_prim p) I) as (r & Er & Tr & _). rewrite Er. cbn [bind]. cbn [rget] in Tr, Tv. unfold assign_data. rewrite Tr, Tv.
  destruct p; try discriminate Hp; try congruence; reflexivity.
Qed.
(** For int8 an unknown name is silently 0: the bool that stands for it is assignable. *)
Theorem C33_unknown_name_refuted : forall fc flt env x, env x = None -> exists d, const_value fc flt env PI8 [KName x] = Ok d /\ is_int d PI8 0.
Proof.
  intros fc flt env x Ex. assert (Hi : idl_expr (EName x) [KName x]) by (unfold idl_expr; do 7 (apply de_up; [lia|]); apply de_name).
  unfold const_value. rewrite (parse_expr_idl _ _ Hi). cbn [regroup solve]. unfold constant. rewrite Ex.
  destruct (new_holds (TPrim PI8) (at_prim PI8) I) as (r & Er & Tr & Hr & _). cbn [rget] in Tr.
  assert (Eb : new_data (TPrim PBool) = Ok (mkData (TPrim PBool) (d_mem r))). { injection Er as <-. reflexivity. }
  assert (Hr0 : is_int r PI8 0). { split; [exact Tr|]. eexists. split; [exact Hr|]. apply (number_prim_int PI8 [0%N]); [reflexivity|constructor; [reflexivity|constructor]]. }
  destruct (assign_int fc r r PI8 0 0 Hr0 Hr0) as (m & Em & Hm). rewrite Tr in Em, Hm.
  assert (E1 : assign_result fc PI8 (mkData (TPrim PBool) (d_mem r)) = Ok (mkData (TPrim PI8) m)).
  { unfold assign_result. rewrite Er. cbn [bind]. unfold assign_data. rewrite Tr. cbn [d_type d_mem]. change (is_compatible (TPrim PI8) (TPrim PBool)) with (@Ok N EQUALS). cbn [bind]. rewrite N.eqb_refl, Em. reflexivity. }
  rewrite Eb. cbn [bind]. rewrite E1. cbn [bind]. apply assign_result_int, Hm.
Qed.
(** 1 + 2 * (7 - 3) << 2 *)
Example C33_nontrivial : exists e ts, idl_expr e ts /\ List.length ts = 11%nat /\ evaluates PI32 (fun _ => None) e 36 /\ right_safe PI32 (fun _ => None) e /\ unary_safe PI32 e.
Proof.
  set (L := fun s => ELit s ""%string). assert (HL : forall s z env, literal s 10 z -> fits PI32 z -> evaluates PI32 env (L s) z) by (intros s z env Hl Hf; eapply ev_lit; [exact Hl|exact I|exact Hf]).
  assert (HD : forall s l, (l <= 7)%nat -> derives l (L s) [KLit s ""%string]).
  { intros s l Hl. do 8 (destruct l as [|l]; [repeat (apply de_up; [lia|]); apply de_lit|]). lia. }
  assert (Hf : forall z, -1000 <= z <= 1000 -> fits PI32 z) by (intros z Hz; unfold fits, least, greatest, width; cbn; lia).
  exists (EBin Shl (EBin Add (L "1"%string) (EBin Mul (L "2"%string) (EPar (EBin Sub (L "7"%string) (L "3"%string))))) (L "2"%string)). eexists. split.
  { unfold idl_expr. do 3 (apply de_up; [lia|]). refine (de_bin Shl _ _ _ _ _ _); [|apply HD; cbn; lia]. cbn [level]. apply de_up; [lia|]. refine (de_bin Add _ _ _ _ _ _); [apply HD; cbn; lia|]. cbn [level].
    refine (de_bin Mul _ _ _ _ _ _); [apply HD; cbn; lia|]. cbn [level]. apply de_up; [lia|]. apply de_par. do 4 (apply de_up; [lia|]). refine (de_bin Sub _ _ _ _ _ _); apply HD; cbn; lia. }
  split; [reflexivity|]. split; [|cbn; repeat split; auto; left; cbn; try tauto; discriminate].
  change 36 with (math Shl (math Add 1 (math Mul 2 (math Sub 7 3))) 2).
  assert (Hlit : forall s, (match s with String c _ => negb (Ascii.eqb c "0") | _ => false end) = true -> forallb (fun c => is_digit 10 c) (list_ascii_of_string s) = true -> -1000 <= digits 10 s 0 <= 1000 -> evaluates PI32 (fun _ => None) (L s) (digits 10 s 0)).
  { intros s H1 H2 H3. apply HL; [apply decimal_literal; assumption|apply Hf, H3]. }
  assert (V1 := Hlit "1"%string eq_refl eq_refl ltac:(vm_compute; split; discriminate)). assert (V2 := Hlit "2"%string eq_refl eq_refl ltac:(vm_compute; split; discriminate)). assert (V3 := Hlit "3"%string eq_refl eq_refl ltac:(vm_compute; split; discriminate)). assert (V7 := Hlit "7"%string eq_refl eq_refl ltac:(vm_compute; split; discriminate)).
  apply ev_bin; [apply ev_bin; [exact V1|apply ev_bin; [exact V2|apply ev_par, ev_bin; [exact V7|exact V3|exact I|apply Hf; vm_compute; split; discriminate]|exact I|apply Hf; vm_compute; split; discriminate]|exact I|apply Hf; vm_compute; split; discriminate]|exact V2|vm_compute; repeat split; congruence|apply Hf; vm_compute; split; discriminate].
Qed.

Print Assumptions C34_constants.
Print Assumptions C34_labels.
Print Assumptions C34_negative_labels.
Print Assumptions C34_enum_labels.
Print Assumptions C34_enum_names.
Print Assumptions C34_bounds_partial.
Print Assumptions C34_bounds_refuted.
Print Assumptions C34_labels_refuted.
Print Assumptions C34_wstring_constant_refuted.
Print Assumptions C33_accepts.
Print Assumptions C33_value_partial.
Print Assumptions C33_declaration_partial.
Print Assumptions C33_left_associative_refuted.
Print Assumptions C33_complement_refuted.
Print Assumptions C33_minus_unsigned_refuted.
Print Assumptions C33_least_refuted.
Print Assumptions C33_mixed_types_refuted.
Print Assumptions C33_unknown_name_partial.
Print Assumptions C33_unknown_name_refuted.
