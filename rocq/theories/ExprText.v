(** The grammar of the parser on the text of an expression: the syntax tree that solve_expr gets. *)
From Verif Require Import Base Types IntOps ModuleSpec IdlLit IdlExpr IdlSpec IdlLitFacts IdlFacts Peg0 Grammar Peg PegFacts PegRules GenSpec NumText TypeText ExprSpec.
Local Open Scope string_scope.

(** *** Spaces before an operator *)
Definition firm (s : string) : Prop := first_is is_ws s = false /\ after "//" s = None /\ after "/*" s = None.
Lemma solid_firm : forall s, solid s -> firm s.
Proof.
  intros [|c s] H; [repeat split|]. apply solid_char in H as [H1 H2]. rewrite Ascii.eqb_sym in H2. unfold firm. cbn [first_is after]. rewrite H2. auto.
Qed.
Lemma sp_nl_firm : forall w s, all_chars is_ws w = true -> firm s -> exists w1 w2, w = w1 ++ w2 /\
  ok (Star (Cls [(" ", " "); ("010", "010")]%char)) (w ++ s) [] [] (w2 ++ s) /\ no (Lit "//") (w2 ++ s) /\ no (Lit "/*") (w2 ++ s).
Proof.
  intros w s. induction w as [|c w IH]; intros Hw Hs.
  - exists "", "". split; [reflexivity|]. cbn [append]. destruct Hs as (H1 & H2 & H3). split; [|split; apply no_lit; assumption].
    apply ok_star_end, no_cls. intros c r ->. cbn [first_is] in H1.
    pose proof (all_ascii (fun c => implb (in_class c [(" ", " "); ("010", "010")]%char) (is_ws c)) eq_refl c) as K. cbv beta in K. rewrite H1 in K.
    destruct (in_class c [(" "%char, " "%char); ("010"%char, "010"%char)]); [discriminate K|reflexivity].
  - cbn [all_chars] in Hw. apply andb_true_iff in Hw as [Hc Hw]. destruct (in_class c [(" ", " "); ("010", "010")]%char) eqn:E.
    + destruct (IH Hw Hs) as (w1 & w2 & -> & H & N). exists (String c w1), w2. split; [reflexivity|]. split; [|exact N].
      exact (ok_star_more _ _ [] [] _ [] [] _ (ok_cls _ c _ E) H).
    + exists "", (String c w). split; [reflexivity|]. split.
      * apply ok_star_end, no_cls. intros c' r H. cbn in H. injection H as <- _. exact E.
      * assert (K : Ascii.eqb "/" c = false).
        { pose proof (all_ascii (fun c => implb (is_ws c) (negb (Ascii.eqb "/" c))) eq_refl c) as K. cbv beta in K. rewrite Hc in K. apply negb_true_iff in K; exact K. }
        split; apply no_lit; cbn [after append]; rewrite K; reflexivity.
Qed.
Lemma opt_ws_firm : forall w s, all_chars is_ws w = true -> firm s -> ok (Opt (Ref R_WS)) (w ++ s) [] [] s.
Proof.
  intros w s Hw Hs. pose proof Hs as (F & _ & _).
  assert (NC : no (Ref R_COMMENT) (w ++ s)).
  { destruct (sp_nl_firm w s Hw Hs) as (w1 & w2 & -> & H & N1 & N2). apply no_ref. cbn [gram].
    apply no_alt; apply no_ref; cbn [gram]; (eapply no_seq_r; [exact H|]); apply no_seq_l, no_ref; cbn [gram]; apply no_tok; assumption. }
  destruct w as [|c w].
  - apply ok_opt_none, no_ref. cbn [gram]. apply no_alt; [exact NC|]. apply no_plus, no_cls. intros c r E. cbn in E; subst s. exact F.
  - cbn [all_chars] in Hw. apply andb_true_iff in Hw as [Hc Hw]. apply ok_opt_some. eapply ok_ref_ignored; [|reflexivity]. cbn [gram]. apply ok_alt_r; [exact NC|].
    exact (ok_plus _ _ [] [] _ [] [] _ (ok_cls _ c (w ++ s) Hc) (star_class _ w s Hw F)).
Qed.
(** An operator rule. *)
Definition operator (q : rule) (k : string) : Prop := gram q = Seq (Opt (Ref R_WS)) (Seq (Tok (Lit k)) (Opt (Ref R_WS))) /\ ignored q = false /\ is_token_rule q = true.
Lemma ok_operator : forall q k w w' s, operator q k -> all_chars is_ws w = true -> all_chars is_ws w' = true -> firm (k ++ w' ++ s) -> firm s ->
  ok (Ref q) (w ++ k ++ w' ++ s) [Ast q q k []] [] s.
Proof.
  intros q k w w' s (G & I & T) Hw Hw' Hk Hs. eapply ok_ref_token; [|exact I|exact T]. rewrite G.
  refine (ok_seq _ _ _ [] [] _ [] _ _ (opt_ws_firm w _ Hw Hk) _).
  exact (ok_seq _ _ _ [] _ _ [] [] _ (ok_tok _ k [] [] _ (ok_lit _ _ _ (after_self k _))) (opt_ws_firm w' s Hw' Hs)).
Qed.
Lemma no_operator : forall q k w s, operator q k -> all_chars is_ws w = true -> firm s -> after k s = None -> no (Ref q) (w ++ s).
Proof. intros q k w s (G & _) Hw Hs F. apply no_ref. rewrite G. eapply no_seq_r; [apply (opt_ws_firm w _ Hw Hs)|]. apply no_seq_l, no_tok, no_lit, F. Qed.

(** *** Literals *)
Lemma star_ref : forall q l x s, gram q = Cls l -> ignored q = false -> is_token_rule q = true -> all_chars (fun c => in_class c l) x = true -> first_is (fun c => in_class c l) s = false ->
  exists ns, ok (Star (Ref q)) (x ++ s) ns [] s.
Proof.
  intros q l x s G I T. induction x as [|c x IH]; intros A F.
  - eexists. apply ok_star_end, no_ref. rewrite G. apply no_cls. intros c r E. cbn in E. subst s. exact F.
  - cbn [all_chars] in A. apply andb_true_iff in A as [A B]. destruct (IH B F) as (ns & H). eexists. refine (ok_star_more _ _ _ [] _ _ [] _ _ H).
    eapply (ok_ref_text q (String c "") []); [|exact I|exact T]. rewrite G. cbn [append]. apply ok_cls, A.
Qed.
Lemma plus_ref : forall q l c x s, gram q = Cls l -> ignored q = false -> is_token_rule q = true -> all_chars (fun c => in_class c l) (String c x) = true -> first_is (fun c => in_class c l) s = false ->
  exists ns, ok (Plus (Ref q)) (String c x ++ s) ns [] s.
Proof.
  intros q l c x s G I T A F. cbn [all_chars] in A. apply andb_true_iff in A as [A B]. destruct (star_ref q l x s G I T B F) as (ns & H). eexists. refine (ok_plus _ _ _ [] _ _ [] _ _ H).
  eapply (ok_ref_text q (String c "") []); [|exact I|exact T]. rewrite G. cbn [append]. apply ok_cls, A.
Qed.
(** What may stand behind an expression. *)
Definition stop_char (c : ascii) : bool :=
  is_ws c || in_class c [(";", ";"); (":", ":"); (")", ")"); (",", ","); ("|", "|"); ("^", "^"); ("&", "&"); ("<", "<"); (">", ">"); ("+", "+"); ("-", "-"); ("*", "*"); ("/", "/"); ("%", "%")]%char.
Definition digit8 (c : ascii) : bool := in_class c [("0", "7")]%char.
Definition digit16 (c : ascii) : bool := in_class c [("0", "9"); ("a", "f"); ("A", "F")]%char.
Lemma stop_not : forall (P : ascii -> bool) s, forallb (fun c => implb (stop_char c) (negb (P c))) (map ascii_of_nat (seq 0 256)) = true -> first_is stop_char s = true -> first_is P s = false.
Proof. intros P [|c s] H F; [reflexivity|]. cbn [first_is] in *. pose proof (all_ascii _ H c) as K. cbv beta in K. rewrite F in K. apply negb_true_iff in K. exact K. Qed.
Lemma is_digit_class : forall c d, is_digit_of c d -> ((d < 8)%Z -> digit8 c = true) /\ ((d < 10)%Z -> digit c = true) /\ ((d < 16)%Z -> digit16 c = true).
Proof.
  intros c d H. assert (X : forall k P, (k <= 9)%nat -> forallb P (seq 0 10) = true -> P k = true). { intros k P L F. rewrite forallb_forall in F. apply F, in_seq. lia. }
  assert (Y : forall k P, (k <= 5)%nat -> forallb P (seq 0 6) = true -> P k = true). { intros k P L F. rewrite forallb_forall in F. apply F, in_seq. lia. }
  destruct H as [k L ->|k L ->|k L ->].
  - split; [|split].
    + intros Q. pose proof (X k (fun k => implb (Nat.ltb k 8) (digit8 (ascii_of_nat (48 + k)))) L eq_refl) as K. cbv beta in K. replace (Nat.ltb k 8) with true in K by (symmetry; apply Nat.ltb_lt; lia). exact K.
    + intros _. exact (X k (fun k => digit (ascii_of_nat (48 + k))) L eq_refl).
    + intros _. exact (X k (fun k => digit16 (ascii_of_nat (48 + k))) L eq_refl).
  - split; [lia|]. split; [lia|]. intros _. exact (Y k (fun k => digit16 (ascii_of_nat (97 + k))) L eq_refl).
  - split; [lia|]. split; [lia|]. intros _. exact (Y k (fun k => digit16 (ascii_of_nat (65 + k))) L eq_refl).
Qed.
Lemma all_snoc : forall P x c, all_chars P (x ++ String c "") = all_chars P x && P c.
Proof. intros P. induction x as [|d x IH]; intros c; cbn [append all_chars]; [apply andb_comm|]. rewrite IH. apply andb_assoc. Qed.
Lemma numeral_class : forall base s z (P : ascii -> bool), (forall c d, is_digit_of c d -> (d < base)%Z -> P c = true) -> numeral base s z -> all_chars P s = true.
Proof. intros base s z P H N. induction N as [c d D L|s z c d N IH D L]; [cbn [all_chars]; rewrite (H c d D L); reflexivity|]. rewrite all_snoc, IH, (H c d D L). reflexivity. Qed.
Lemma numeral_nonempty : forall base s z, numeral base s z -> exists c r, s = String c r.
Proof. intros base s z N. destruct N as [c d D L|s z c d N D L]; [do 2 eexists; reflexivity|]. destruct s; do 2 eexists; reflexivity. Qed.
Lemma ok_literal : forall l base z r, literal l base z -> first_is stop_char r = true -> ok (Ref R_INTEGER_LITERAL) (l ++ r) [Ast R_INTEGER_LITERAL R_INTEGER_LITERAL l []] [] r.
Proof.
  intros l base z r L F.
  assert (D : first_is digit r = false) by (apply (stop_not digit); [reflexivity|exact F]).
  assert (X : exists ns ts, ok (Alt (Ref R_OCT_LITERAL) (Alt (Ref R_HEX_LITERAL) (Ref R_DEC_LITERAL))) (l ++ r) ns ts r).
  { destruct L as [|c s z N Z|s z N|x s z N Hx].
    - destruct (ok_dec_literal 0 r) as (ns & ts & H); [|exists ns, ts; exact H]. apply (stop_not (fun c => digit c || Ascii.eqb c "x" || Ascii.eqb c "X")); [reflexivity|exact F].
    - pose proof (numeral_class 10 _ _ digit (fun c d H L => proj1 (proj2 (is_digit_class c d H)) L) N) as A. pose proof A as A0. cbn [all_chars] in A. apply andb_true_iff in A as [A B].
      assert (K : in_class c [("1", "9")]%char = true).
      { pose proof (all_ascii (fun c => implb (digit c) (Ascii.eqb c "0" || in_class c [("1", "9")]%char)) eq_refl c) as K. cbv beta in K. rewrite A in K. destruct (Ascii.eqb_spec c "0"); [contradiction|exact K]. }
      assert (Zc : Ascii.eqb "0" c = false) by (destruct (Ascii.eqb_spec "0" c); [congruence|reflexivity]).
      destruct (digit_star s r B D) as (ns & ts & H). do 2 eexists. cbn [append].
      apply ok_alt_r; [apply no_ref; cbn [gram]; apply no_seq_l, no_lit; cbn [after]; rewrite Zc; reflexivity|].
      apply ok_alt_r; [apply no_ref; cbn [gram]; apply no_seq_l, no_lit; cbn [after]; rewrite Zc; reflexivity|].
      eapply (ok_ref_node R_DEC_LITERAL); [|reflexivity|reflexivity]. cbn [gram]. apply ok_alt_l. eapply ok_seq; [apply ok_cls, K|exact H].
    - pose proof (numeral_class 8 _ _ digit8 (fun c d H L => proj1 (is_digit_class c d H) L) N) as A. destruct (numeral_nonempty _ _ _ N) as (c & t & ->).
      destruct (plus_ref R_OCTAL_DIGIT [("0", "7")]%char c t r eq_refl eq_refl eq_refl A) as (ns & H); [apply (stop_not digit8); [reflexivity|exact F]|].
      do 2 eexists. apply ok_alt_l. eapply ok_ref_node; [|reflexivity|reflexivity]. cbn [gram]. exact (ok_seq _ _ _ [] [] _ _ _ _ (ok_lit _ _ _ (after_self "0" _)) H).
    - pose proof (numeral_class 16 _ _ digit16 (fun c d H L => proj2 (proj2 (is_digit_class c d H)) L) N) as A. destruct (numeral_nonempty _ _ _ N) as (c & t & ->).
      destruct (plus_ref R_HEX_DIGIT [("0", "9"); ("a", "f"); ("A", "F")]%char c t r eq_refl eq_refl eq_refl A) as (ns & H); [apply (stop_not digit16); [reflexivity|exact F]|].
      do 2 eexists. apply ok_alt_r.
      { apply no_ref. cbn [gram]. eapply no_seq_r; [exact (ok_lit "0" _ _ (after_self "0" _))|]. apply no_plus, no_ref. cbn [gram]. apply no_cls. intros c' r' E. injection E as <- _. destruct Hx as [-> | ->]; reflexivity. }
      apply ok_alt_l. eapply ok_ref_node; [|reflexivity|reflexivity]. cbn [gram]. refine (ok_seq _ _ _ [] [] _ _ _ _ (ok_lit "0" _ _ (after_self "0" _)) _).
      refine (ok_seq _ _ _ [] [] _ _ _ _ (ok_cls _ x _ _) H). destruct Hx as [-> | ->]; reflexivity. }
  destruct X as (ns & ts & H). eapply ok_ref_token; [|reflexivity|reflexivity]. cbn [gram]. apply ok_tok. exact H.
Qed.
Definition float_more (c : ascii) : bool := in_class c [(".", "."); ("e", "e"); ("E", "E"); ("d", "d"); ("D", "D")]%char.
Lemma no_float : forall D r, D <> "" -> all_chars digit D = true -> first_is digit r = false -> first_is float_more r = false -> no (Ref R_FLOAT_LITERAL) (D ++ r).
Proof.
  intros [|c D] r NE A F M; [congruence|]. destruct (plus_ref R_DECIMAL_DIGIT [("0", "9")]%char c D r eq_refl eq_refl eq_refl A F) as (ns & H).
  assert (P : forall k, In k ["."; "e"; "E"; "d"; "D"]%char -> first_is (Ascii.eqb k) r = false).
  { intros k Hk. destruct r as [|x r]; [reflexivity|]. cbn [first_is] in *. destruct (Ascii.eqb_spec k x) as [Q|]; [|reflexivity]. subst x. cbn [In] in Hk. repeat destruct Hk as [<-|Hk]; try discriminate M. destruct Hk. }
  assert (C : forall l, forallb (fun c => implb (in_class c l) (float_more c)) (map ascii_of_nat (seq 0 256)) = true -> no (Cls l) r).
  { intros l Hl. apply no_cls. intros x r' ->. cbn [first_is] in M. pose proof (all_ascii _ Hl x) as K. cbv beta in K. rewrite M in K. destruct (in_class x l); [discriminate K|reflexivity]. }
  apply no_ref. cbn [gram]. apply no_tok, no_alt.
  - eapply no_seq_r; [exact H|]. apply no_seq_l, no_lit. destruct r as [|x r]; [reflexivity|]. cbn [after]. specialize (P "."%char ltac:(left; reflexivity)). cbn [first_is] in P. rewrite P. reflexivity.
  - apply no_alt.
    + apply no_seq_l, no_lit. cbn [all_chars] in A. apply andb_true_iff in A as [A _]. cbn [append after].
      pose proof (all_ascii (fun c => implb (digit c) (negb (Ascii.eqb "." c))) eq_refl c) as K. cbv beta in K. rewrite A in K. apply negb_true_iff in K. rewrite K. reflexivity.
    + eapply no_seq_r; [exact H|]. apply no_ref. cbn [gram]. apply no_alt; apply no_ref; cbn [gram].
      * apply no_tok, no_seq_l, C. reflexivity.
      * apply C. reflexivity.
Qed.
Lemma literal_no_float : forall l base z r, literal l base z -> first_is stop_char r = true -> no (Ref R_FLOAT_LITERAL) (l ++ r).
Proof.
  intros l base z r L F. assert (D : first_is digit r = false) by (apply (stop_not digit); [reflexivity|exact F]). assert (M : first_is float_more r = false) by (apply (stop_not float_more); [reflexivity|exact F]).
  destruct L as [|c s z N Z|s z N|x s z N Hx].
  - apply no_float; try assumption; [discriminate|reflexivity].
  - apply no_float; try assumption; [discriminate|]. exact (numeral_class 10 _ _ digit (fun c d H L => proj1 (proj2 (is_digit_class c d H)) L) N).
  - apply no_float; try assumption; [discriminate|]. cbn [all_chars]. apply (numeral_class 8 s z digit); [|exact N]. intros c d H L. apply (is_digit_class c d H). lia.
  - apply (no_float "0" (String x (s ++ r))); [discriminate|reflexivity| |]; destruct Hx as [-> | ->]; reflexivity.
Qed.

(** *** Names *)
Lemma begins_after : forall k x s, begins k x = false -> first_is id_char s = false -> all_chars (fun c => id_char c || Ascii.eqb c ":") k = true -> all_chars id_char k = true -> after k (x ++ s) = None.
Proof.
  unfold begins. induction k as [|a k IH]; intros x s B F K Ki; [destruct x; discriminate B|]. cbn [all_chars] in Ki. apply andb_true_iff in Ki as [Ka Ki].
  destruct x as [|b x]; cbn [append after].
  - destruct s as [|b s]; [reflexivity|]. destruct (Ascii.eqb_spec a b) as [->|]; [|reflexivity]. cbn [first_is] in F. congruence.
  - cbn [String.prefix] in B. destruct (Ascii.eqb_spec a b) as [->|]; [|reflexivity]. destruct (Ascii.ascii_dec b b) as [_|N]; [|congruence].
    apply IH; try assumption. cbn [all_chars] in K. apply andb_true_iff in K as [_ K]. exact K.
Qed.
Lemma no_literal_name : forall qs x r, Forall (fun y => is_ident y = true) (qs ++ [x]) -> begins "TRUE" (qualified qs x) = false -> begins "FALSE" (qualified qs x) = false ->
  first_is stop_char r = true -> no (Ref R_LITERAL) (qualified qs x ++ r).
Proof.
  intros qs x r H B1 B2 F. assert (Fi : first_is id_char r = false) by (apply (stop_not id_char); [reflexivity|exact F]).
  pose proof (begins_after "TRUE" _ r B1 Fi eq_refl eq_refl) as A1. pose proof (begins_after "FALSE" _ r B2 Fi eq_refl eq_refl) as A2.
  assert (X : exists c t, qualified qs x ++ r = String c t /\ id_first c = true /\ first_is (fun c => id_char c || stop_char c) t = true).
  { assert (Y : forall y t, is_ident y = true -> first_is stop_char t = true -> exists c t', y ++ t = String c t' /\ id_first c = true /\ first_is (fun c => id_char c || stop_char c) t' = true).
    { intros [|c y] t I Ft; [discriminate I|]. apply andb_true_iff in I as [I1 I2]. cbn [first_is] in I1. cbn [all_chars] in I2. apply andb_true_iff in I2 as [_ I2]. exists c, (y ++ t). split; [reflexivity|]. split; [exact I1|].
      destruct y as [|d y]; cbn [append first_is]; [destruct t as [|d t]; [discriminate Ft|]; cbn [first_is] in *; rewrite Ft; apply orb_true_r|]. cbn [all_chars] in I2. apply andb_true_iff in I2 as [-> _]. reflexivity. }
    destruct qs as [|q qs]; cbn [qualified app] in *; inversion H as [|? ? Hq Hr]; subst; [apply Y; assumption|]. rewrite !app_assoc_s. apply Y; [exact Hq|reflexivity]. }
  destruct X as (c & t & E & I & N). rewrite E in *.
  assert (NQ : forall k, In k ["""";"'"]%char -> no (Lit (String k "")) t /\ forall r', after (String k r') (String c t) = None).
  { intros k Hk. split.
    - apply no_lit. destruct t as [|d t]; [reflexivity|]. cbn [first_is] in N. cbn [after]. destruct (Ascii.eqb_spec k d) as [Q|]; [|reflexivity]. subst d. cbn [In] in Hk. repeat destruct Hk as [<-|Hk]; try discriminate N. destruct Hk.
    - intros r'. cbn [after]. destruct (Ascii.eqb_spec k c) as [Q|]; [|reflexivity]. subst c. cbn [In] in Hk. repeat destruct Hk as [<-|Hk]; try discriminate I. destruct Hk. }
  destruct (NQ """"%char ltac:(left; reflexivity)) as [Q1 Q1']. destruct (NQ "'"%char ltac:(right; left; reflexivity)) as [Q2 Q2'].
  assert (ND : no (Ref R_DECIMAL_DIGIT) (String c t)).
  { apply no_ref. cbn [gram]. apply no_cls. intros c' r' Q. injection Q as <- _. pose proof (all_ascii (fun c => implb (id_first c) (negb (in_class c [("0", "9")]%char))) eq_refl c) as K. cbv beta in K. rewrite I in K. apply negb_true_iff in K. exact K. }
  assert (NL : forall k, forallb (fun c => implb (id_first c) (negb (Ascii.eqb k c))) (map ascii_of_nat (seq 0 256)) = true -> forall r', no (Lit (String k r')) (String c t)).
  { intros k Hk r'. apply no_lit. cbn [after]. pose proof (all_ascii _ Hk c) as K. cbv beta in K. rewrite I in K. apply negb_true_iff in K. rewrite K. reflexivity. }
  assert (NF : no (Ref R_FLOAT_LITERAL) (String c t)).
  { apply no_ref. cbn [gram]. apply no_tok, no_alt; [apply no_seq_l, no_plus, ND|]. apply no_alt; [apply no_seq_l, NL; reflexivity|apply no_seq_l, no_plus, ND]. }
  assert (NS : forall u, no (Lit """") u -> no (Lit "'") u -> no (Ref R_SUBSTRING_LITERAL) u).
  { intros u U1 U2. apply no_ref. cbn [gram]. apply no_seq_l, no_tok, no_alt; apply no_seq_l; assumption. }
  assert (NC : forall u, no (Lit "'") u -> no (Ref R_CHAR_LITERAL) u).
  { intros u U. apply no_ref. cbn [gram]. apply no_alt; [apply no_tok|]; apply no_seq_l, U. }
  assert (NLL : forall e, no e t -> no (Seq (Lit "L") e) (String c t)).
  { intros e U. destruct (Ascii.eqb_spec "L" c) as [<-|NE]; [|apply no_seq_l, no_lit; cbn [after]; destruct (Ascii.eqb_spec "L" c); [congruence|reflexivity]].
    eapply no_seq_r; [exact (ok_lit "L" _ _ (after_self "L" t))|exact U]. }
  apply no_ref. cbn [gram]. apply no_alt; [exact NF|]. apply no_alt; [apply no_ref; cbn [gram]; apply no_tok, NF|]. apply no_alt.
  { apply no_ref. cbn [gram]. apply no_tok, no_alt; [apply no_ref; cbn [gram]; apply no_seq_l, NL; reflexivity|]. apply no_alt; [apply no_ref; cbn [gram]; apply no_seq_l, NL; reflexivity|].
    apply no_ref. cbn [gram]. apply no_alt; [|apply NL; reflexivity]. apply no_seq_l, no_cls. intros c' r' Q. injection Q as <- _. pose proof (all_ascii (fun c => implb (id_first c) (negb (in_class c [("1", "9")]%char))) eq_refl c) as K. cbv beta in K. rewrite I in K. apply negb_true_iff in K. exact K. }
  apply no_alt; [apply NC, NL; reflexivity|]. apply no_alt; [apply no_ref; cbn [gram]; apply no_tok, NLL, NC, Q2|].
  apply no_alt; [apply no_ref; cbn [gram]; apply no_tok, no_alt; apply no_lit; assumption|].
  apply no_alt; [apply no_ref; cbn [gram]; apply no_plus, NS; apply NL; reflexivity|].
  apply no_ref. cbn [gram]. apply no_plus, NLL, no_ref. cbn [gram]. apply no_tok, NS; assumption.
Qed.

(** *** The levels *)
Definition rule_of (l : nat) : rule := nth l [R_CONST_EXPR; R_XOR_EXPR; R_AND_EXPR; R_SHIFT_EXPR; R_ADD_EXPR; R_MULT_EXPR; R_UNARY_EXPR; R_PRIMARY_EXPR] R_PRIMARY_EXPR.
Definition op_rule (l : nat) : rule := nth l [R_OR_OP; R_XOR_OP; R_AND_OP; R_ANY_SHITF_OP; R_ANY_ADD_OP; R_ANY_MULT_OP] R_OR_OP.
Definition leaf_rule (o : arith) : rule :=
  match o with Mul => R_MULT_OP | Div => R_DIV_OP | Rem => R_MOD_OP | Add => R_ADD_OP | Sub => R_SUB_OP | Shl => R_LSHIFT_OP | Shr => R_RSHIFT_OP | BAnd => R_AND_OP | BXor => R_XOR_OP | BOr => R_OR_OP end.
Definition op_node (o : arith) : ast := Ast (op_rule (level o)) (leaf_rule o) (op_text o) [].
Definition un_rule (u : unary) : rule := match u with UMinus => R_SUB_OP | UPlus => R_ADD_OP | UTilde => R_NEG_OP end.
Definition un_text (u : unary) : string := match u with UMinus => "-" | UPlus => "+" | UTilde => "~" end.
(** The syntax tree that solve_expr gets. *)
Fixpoint tree (o : rule) (e : expr) : ast :=
  match e with
  | ELit l _ => Ast o R_INTEGER_LITERAL l []
  | EName x => Ast o R_SCOPED_NAME x []
  | EPar e => tree o e
  | EUn u e => Ast o R_UNARY_EXPR "" [Ast R_UNARY_OP (un_rule u) (un_text u) []; tree R_PRIMARY_EXPR e]
  | EBin p a b => Ast o (rule_of (level p)) "" [tree (rule_of (S (level p))) a; op_node p; tree (rule_of (level p)) b]
  end.
Lemma tree_orig : forall o o' e, with_orig o (tree o' e) = tree o e.
Proof. intros o o'. induction e; try reflexivity. exact IHe. Qed.
Lemma gram_level : forall l, (l < 6)%nat -> gram (rule_of l) = Alt (Seq (Ref (rule_of (S l))) (Seq (Ref (op_rule l)) (Ref (rule_of l)))) (Ref (rule_of (S l))) /\ ignored (rule_of l) = false /\ is_token_rule (rule_of l) = false.
Proof. intros l H. do 6 (destruct l as [|l]; [repeat split|]). lia. Qed.
(** What may stand behind an expression of level [l]: spaces [w] and then [t]. *)
Record stops (l : nat) (w t : string) : Prop := {
  st_ws : all_chars is_ws w = true;
  st_firm : firm t;
  st_char : first_is stop_char t = true;
  st_colon : after "::" t = None;
  st_ops : forall k w', (l <= k < 6)%nat -> all_chars is_ws w' = true -> no (Ref (op_rule k)) (w' ++ t) }.
Lemma op_firm : forall o w s, all_chars is_ws w = true -> solid s -> first_is (Ascii.eqb "*") s = false -> firm (op_text o ++ w ++ s).
Proof.
  intros o w s W So St. destruct o; try (apply solid_firm; reflexivity). cbn [op_text append]. split; [reflexivity|]. cbn [after]. change (Ascii.eqb "/" "/") with true. cbv iota.
  destruct w as [|c w]; cbn [append].
  - destruct s as [|c s]; [split; reflexivity|]. apply solid_char in So as [_ So]. rewrite Ascii.eqb_sym in So. cbn [first_is] in St. split; [cbn [after]; rewrite So|cbn [after]; rewrite St]; reflexivity.
  - cbn [all_chars] in W. apply andb_true_iff in W as [W _].
    pose proof (all_ascii (fun c => implb (is_ws c) (negb (Ascii.eqb "/" c) && negb (Ascii.eqb "*" c))) eq_refl c) as K. cbv beta in K. rewrite W in K. apply andb_true_iff in K as [K1 K2]. apply negb_true_iff in K1, K2.
    split; [rewrite K1|rewrite K2]; reflexivity.
Qed.
Lemma ok_op : forall o w w' s, all_chars is_ws w = true -> all_chars is_ws w' = true -> solid s -> first_is (Ascii.eqb "*") s = false ->
  exists a, ok (Ref (op_rule (level o))) (w ++ op_text o ++ w' ++ s) [a] [] s /\ optimize a = op_node o.
Proof.
  intros o w w' s W W' So St. pose proof (op_firm o w' s W' So St) as F. pose proof (solid_firm _ So) as Fs.
  assert (L : ok (Ref (leaf_rule o)) (w ++ op_text o ++ w' ++ s) [Ast (leaf_rule o) (leaf_rule o) (op_text o) []] [] s).
  { apply ok_operator; try assumption. destruct o; repeat split. }
  assert (NO : forall q k, operator q k -> after k (op_text o ++ w' ++ s) = None -> no (Ref q) (w ++ op_text o ++ w' ++ s)) by (intros q k Hq Hk; eapply no_operator; eassumption).
  destruct o; cbn [level op_rule nth leaf_rule] in *.
  1-10: eexists; split; [first [exact L|eapply ok_ref_node; [|reflexivity|reflexivity]; cbn [gram]; first [apply ok_alt_l, L|apply ok_alt_r; [eapply NO; [repeat split|reflexivity]|]; first [exact L|apply ok_alt_l, L|apply ok_alt_r; [eapply NO; [repeat split|reflexivity]|exact L]]]]|reflexivity].
Qed.
Lemma no_op : forall o k w s, all_chars is_ws w = true -> firm (op_text o ++ s) -> k <> level o -> (k < 6)%nat -> no (Ref (op_rule k)) (w ++ op_text o ++ s).
Proof.
  intros o k w s W F NE L. assert (NO : forall q t, operator q t -> after t (op_text o ++ s) = None -> no (Ref q) (w ++ op_text o ++ s)) by (intros q t Hq Hk; eapply no_operator; eassumption).
  do 6 (destruct k as [|k]; [cbn [op_rule nth]; destruct o; try (exfalso; apply NE; reflexivity); first [eapply NO; [repeat split|reflexivity]|apply no_ref; cbn [gram]; repeat apply no_alt; eapply NO; [repeat split|reflexivity|repeat split|reflexivity|repeat split|reflexivity]|apply no_ref; cbn [gram]; repeat apply no_alt; (eapply NO; [repeat split|reflexivity])]|]). lia.
Qed.
Lemma no_op_char : forall c k w s, all_chars is_ws w = true -> in_class c [(";", ";"); (":", ":"); (")", ")"); (",", ",")]%char = true -> (k < 6)%nat -> no (Ref (op_rule k)) (w ++ String c s).
Proof.
  intros c k w s W C L.
  assert (X : forall P : ascii -> bool, forallb (fun c => implb (in_class c [(";", ";"); (":", ":"); (")", ")"); (",", ",")]%char) (P c)) (map ascii_of_nat (seq 0 256)) = true -> P c = true).
  { intros P H. pose proof (all_ascii _ H c) as K. cbv beta in K. rewrite C in K. exact K. }
  assert (F : firm (String c s)). { apply solid_firm. unfold solid. cbn [first_is]. apply negb_true_iff. apply (X (fun c => negb (is_ws c || Ascii.eqb c "/"))). reflexivity. }
  assert (NO : forall q t t', operator q (String t t') -> forallb (fun c => implb (in_class c [(";", ";"); (":", ":"); (")", ")"); (",", ",")]%char) (negb (Ascii.eqb t c))) (map ascii_of_nat (seq 0 256)) = true -> no (Ref q) (w ++ String c s)).
  { intros q t t' Hq Ht. apply X in Ht. apply negb_true_iff in Ht. eapply no_operator; try eassumption. cbn [after]. rewrite Ht. reflexivity. }
  do 6 (destruct k as [|k]; [cbn [op_rule nth]; first [eapply NO; [repeat split|reflexivity]|apply no_ref; cbn [gram]; repeat apply no_alt; (eapply NO; [repeat split|reflexivity])]|]). lia.
Qed.

Lemma stops_char : forall l w t w', stops l w t -> w' = w \/ w' = "" -> first_is stop_char (w' ++ t) = true /\ after "::" (w' ++ t) = None.
Proof.
  intros l w t w' H [-> | ->]; [|split; [apply (st_char _ _ _ H)|apply (st_colon _ _ _ H)]]. destruct w as [|c w]; [split; [apply (st_char _ _ _ H)|apply (st_colon _ _ _ H)]|].
  pose proof (st_ws _ _ _ H) as W. cbn [all_chars] in W. apply andb_true_iff in W as [W _]. cbn [append first_is after]. unfold stop_char. rewrite W. split; [reflexivity|].
  pose proof (all_ascii (fun c => implb (is_ws c) (negb (Ascii.eqb ":" c))) eq_refl c) as K. cbv beta in K. rewrite W in K. apply negb_true_iff in K. rewrite K. reflexivity.
Qed.
Lemma stops_up : forall l l' w t, (l <= l')%nat -> stops l w t -> stops l' w t.
Proof. intros l l' w t L [A B C D E]. constructor; try assumption. intros k w' K. apply E. lia. Qed.
Lemma text_split : forall a b s, a <> [] -> b <> [] -> text_of (a ++ b) s -> exists s1 w s2, s = s1 ++ w ++ s2 /\ text_of a s1 /\ text_of b s2 /\ all_chars is_ws w = true.
Proof.
  induction a as [|t a IH]; intros b s NA NB H; [congruence|]. inversion H as [t0 x T E0|t0 x w ts0 s0 T W H0 E0]; subst.
  - destruct a; [|discriminate]. destruct b; [congruence|discriminate].
  - destruct a as [|t' a].
    + exists x, w, s0. split; [reflexivity|]. split; [constructor; exact T|]. split; assumption.
    + destruct (IH b s0 ltac:(discriminate) NB H0) as (s1 & w1 & s2 & -> & A & B & C). exists (x ++ w ++ s1), w1, s2. split; [rewrite !app_assoc_s; reflexivity|]. split; [constructor; assumption|]. split; assumption.
Qed.
Lemma text_one : forall t s, text_of [t] s -> token_text t s.
Proof. intros t s H. inversion H as [t0 x T E0|t0 x w ts0 s0 T W H0 E0]; subst; [exact T|]. inversion H0. Qed.
Definition start_char (c : ascii) : bool := in_class c [("0", "9"); ("a", "z"); ("A", "Z"); ("_", "_"); ("(", "("); ("-", "-"); ("+", "+"); ("~", "~")]%char.
Lemma rderives_nonempty : forall l e ts, rderives l e ts -> ts <> [].
Proof. induction 1; try discriminate; try assumption. destruct ts; discriminate. Qed.
Definition first_token (t : token) : Prop := match t with KLit _ _ | KName _ | KOpen | KTilde | KOp Sub | KOp Add => True | _ => False end.
Lemma first_tokens : forall l e ts, rderives l e ts -> match ts with t :: _ => first_token t | [] => False end.
Proof.
  induction 1 as [l e ts Hl H IH|o a b ts ts1 H1 IH1 H2 IH2|u e ts H IH|e ts H IH|x s|x]; try exact I; try assumption.
  - destruct ts; [contradiction|exact IH1].
  - destruct u; exact I.
Qed.
Lemma literal_start : forall l base z, literal l base z -> first_is digit l = true.
Proof.
  intros l base z [|c s z0 N _|s z0 _|x s z0 _ _]; try reflexivity. pose proof (numeral_class 10 _ _ digit (fun c d H L => proj1 (proj2 (is_digit_class c d H)) L) N) as A.
  cbn [all_chars] in A. apply andb_true_iff in A as [A _]. exact A.
Qed.
Lemma first_impl : forall (P Q : ascii -> bool) s, forallb (fun c => implb (P c) (Q c)) (map ascii_of_nat (seq 0 256)) = true -> first_is P s = true -> first_is Q s = true.
Proof. intros P Q [|c s] H F; [discriminate F|]. cbn [first_is] in *. pose proof (all_ascii _ H c) as K. cbv beta in K. rewrite F in K. exact K. Qed.
Lemma first_app : forall P x s, first_is P x = true -> first_is P (x ++ s) = true.
Proof. intros P [|c x] s H; [discriminate H|exact H]. Qed.
Lemma qualified_start : forall qs x, Forall (fun y => is_ident y = true) (qs ++ [x]) -> first_is id_first (qualified qs x) = true.
Proof.
  intros [|q qs] x H; cbn [qualified app] in *; inversion H as [|? ? Hq _]; subst; apply andb_true_iff in Hq as [Hq _]; [exact Hq|apply first_app, Hq].
Qed.
Lemma text_start : forall l e ts s, rderives l e ts -> text_of ts s -> first_is start_char s = true.
Proof.
  intros l e ts s H T. pose proof (first_tokens _ _ _ H) as F. assert (X : forall t x, first_token t -> token_text t x -> first_is start_char x = true).
  { intros t x Ft Tx. destruct Tx as [l' base z L|qs y Hy _ _|o| | | ]; try reflexivity; try contradiction.
    - apply (first_impl digit); [reflexivity|]. eapply literal_start, L.
    - apply (first_impl id_first); [reflexivity|]. apply qualified_start, Hy.
    - destruct o; try contradiction; reflexivity. }
  inversion T as [t0 x Tx E0|t0 x w ts0 s0 Tx W H0 E0]; subst; [eapply X; eassumption|]. apply first_app. eapply X; eassumption.
Qed.
Lemma start_solid : forall s r, first_is start_char s = true -> solid (s ++ r) /\ first_is (Ascii.eqb "*") (s ++ r) = false.
Proof.
  intros [|c s] r F; [discriminate F|]. cbn [first_is append] in *. unfold solid. cbn [first_is].
  pose proof (all_ascii (fun c => implb (start_char c) (negb (is_ws c || Ascii.eqb c "/") && negb (Ascii.eqb "*" c))) eq_refl c) as K. cbv beta in K. rewrite F in K. apply andb_true_iff in K as [K1 K2]. apply negb_true_iff in K1, K2. split; assumption.
Qed.
Lemma ok_unary_op : forall u w s, all_chars is_ws w = true -> firm s -> exists a, ok (Ref R_UNARY_OP) (un_text u ++ w ++ s) [a] [] s /\ optimize a = Ast R_UNARY_OP (un_rule u) (un_text u) [].
Proof.
  intros u w s W So. assert (F : firm (un_text u ++ w ++ s)) by (destruct u; apply solid_firm; reflexivity).
  assert (L : ok (Ref (un_rule u)) ("" ++ un_text u ++ w ++ s) [Ast (un_rule u) (un_rule u) (un_text u) []] [] s) by (apply ok_operator; try assumption; [destruct u; repeat split|reflexivity]).
  assert (NO : forall q k, operator q k -> after k (un_text u ++ w ++ s) = None -> no (Ref q) ("" ++ un_text u ++ w ++ s)) by (intros q k Hq Hk; eapply no_operator; try eassumption; reflexivity).
  cbn [append] in L, NO.
  destruct u; cbn [un_rule un_text] in *.
  1-3: eexists; split; [eapply ok_ref_node; [|reflexivity|reflexivity]; cbn [gram]; first [apply ok_alt_l, L|apply ok_alt_r; [eapply NO; [repeat split|reflexivity]|]; first [apply ok_alt_l, L|apply ok_alt_r; [eapply NO; [repeat split|reflexivity]|exact L]]]|reflexivity].
Qed.
Lemma no_unary_op : forall s, solid s -> first_is (fun c => in_class c [("-", "-"); ("+", "+"); ("~", "~")]%char) s = false -> no (Ref R_UNARY_OP) s.
Proof.
  intros s So F. assert (NO : forall q c, operator q (String c "") -> in_class c [("-", "-"); ("+", "+"); ("~", "~")]%char = true -> no (Ref q) s).
  { intros q c Hq Hc. change s with ("" ++ s). eapply no_operator; try eassumption; [reflexivity|apply solid_firm, So|]. destruct s as [|d s]; [reflexivity|]. cbn [after]. destruct (Ascii.eqb_spec c d) as [Q|]; [|reflexivity]. subst d. cbn [first_is] in F. congruence. }
  apply no_ref. cbn [gram]. apply no_alt; [eapply NO; [repeat split|reflexivity]|]. apply no_alt; (eapply NO; [repeat split|reflexivity]).
Qed.
Lemma ok_paren : forall q c w w' s, punct q c -> ignored q = true -> all_chars is_ws w = true -> all_chars is_ws w' = true -> firm s -> ok (Ref q) (w ++ String c (w' ++ s)) [] [] s.
Proof.
  intros q c w w' s (G & C) I Hw Hw' Hs. eapply ok_ref_ignored; [|exact I]. rewrite G.
  refine (ok_seq _ _ _ [] [] _ [] _ _ (opt_ws w (String c (w' ++ s)) Hw C) _).
  refine (ok_seq _ _ _ [] _ _ [] [] _ (ok_tok _ (String c "") [] [] _ (ok_lit _ _ _ (after_self (String c "") _))) (opt_ws_firm w' s Hw' Hs)).
Qed.
Lemma stops_paren : forall w r, all_chars is_ws w = true -> stops 0 w (String ")" r).
Proof. intros w r W. constructor; try assumption; try reflexivity; [apply solid_firm; reflexivity|]. intros k w' K W'. apply no_op_char; [exact W'|reflexivity|lia]. Qed.
Lemma stops_op : forall o w w' s, all_chars is_ws w = true -> all_chars is_ws w' = true -> solid s -> first_is (Ascii.eqb "*") s = false -> stops (S (level o)) w (op_text o ++ w' ++ s).
Proof.
  intros o w w' s W W' So St. pose proof (op_firm o w' s W' So St) as F. constructor; try assumption; [destruct o; reflexivity|destruct o; reflexivity|]. intros k w1 K W1. apply no_op; try assumption; lia.
Qed.
Theorem ok_expr : forall l e ts, rderives l e ts -> forall s w t, text_of ts s -> stops l w t ->
  exists a w', (w' = w \/ w' = "") /\ ok (Ref (rule_of l)) (s ++ w ++ t) [a] [] (w' ++ t) /\ optimize a = tree (rule_of l) e.
Proof.
  induction 1 as [l e ts Hl H IH|o a b ts ts1 H1 IH1 H2 IH2|u e ts H IH|e ts H IH|x s0|x]; intros s w t T St.
  - destruct (IH s w t T (stops_up l (S l) _ _ ltac:(lia) St)) as (a & w' & Hw' & O & Oa). exists (Ast (rule_of l) (rule_of l) "" [a]), w'. split; [exact Hw'|].
    split; [|rewrite optimize_one, Oa; apply tree_orig].
    assert (W' : all_chars is_ws w' = true) by (destruct Hw' as [-> | ->]; [apply (st_ws _ _ _ St)|reflexivity]).
    destruct (Nat.eq_dec l 6) as [->|N].
    + eapply ok_ref_node; [|reflexivity|reflexivity]. cbn [rule_of nth gram]. apply ok_alt_r; [|exact O]. apply no_seq_l.
      pose proof (first_tokens _ _ _ H) as Ft. destruct (rderives7_start _ _ H) as [NU _]. destruct (start_solid s (w ++ t) (text_start _ _ _ _ H T)) as [So _]. apply no_unary_op; [exact So|].
      assert (X : forall k x r, first_token k -> ~ unary_start [k] -> token_text k x -> first_is (fun c => in_class c [("-", "-"); ("+", "+"); ("~", "~")]%char) (x ++ r) = false).
      { intros k x r Fk NUk Tk. destruct Tk as [l' base z L|qs y Hy _ _|o| | | ]; try reflexivity; try contradiction.
        - pose proof (literal_start _ _ _ L) as F. destruct l' as [|c l']; [discriminate F|]. cbn [append first_is] in *. pose proof (all_ascii (fun c => implb (digit c) (negb (in_class c [("-", "-"); ("+", "+"); ("~", "~")]%char))) eq_refl c) as K. cbv beta in K. rewrite F in K. apply negb_true_iff in K. exact K.
        - pose proof (qualified_start _ _ Hy) as F. destruct (qualified qs y) as [|c l']; [discriminate F|]. cbn [append first_is] in *. pose proof (all_ascii (fun c => implb (id_first c) (negb (in_class c [("-", "-"); ("+", "+"); ("~", "~")]%char))) eq_refl c) as K. cbv beta in K. rewrite F in K. apply negb_true_iff in K. exact K.
}
      assert (NU' : ~ unary_start [hd KOpen ts]) by (destruct ts as [|k ts']; [intros []|exact NU]).
      inversion T as [t0 x Tx E0|t0 x w0 ts0 s0 Tx W H0 E0]; subst; cbn [hd] in NU'; rewrite ?app_assoc_s; (eapply X; [exact Ft|exact NU'|exact Tx]).
    + destruct (gram_level l ltac:(lia)) as (G & I & Tk). eapply ok_ref_node; [|exact I|exact Tk]. rewrite G. apply ok_alt_r; [|exact O].
      eapply no_seq_r; [exact O|]. apply no_seq_l. apply (st_ops _ _ _ St); [lia|exact W'].
  - pose proof (level_lt o) as Lo. destruct (text_split ts (KOp o :: ts1) s (rderives_nonempty _ _ _ H1) ltac:(discriminate) T) as (s1 & w1 & s2 & -> & T1 & T2 & W1).
    change (KOp o :: ts1) with ([KOp o] ++ ts1)%list in T2. destruct (text_split [KOp o] ts1 s2 ltac:(discriminate) (rderives_nonempty _ _ _ H2) T2) as (so & w2 & s3 & -> & To & T3 & W2).
    apply text_one in To. inversion To; subst so. clear T2 To.
    destruct (start_solid s3 (w ++ t) (text_start _ _ _ _ H2 T3)) as [So3 St3].
    destruct (IH1 s1 w1 (op_text o ++ w2 ++ s3 ++ w ++ t) T1 (stops_op o w1 w2 _ W1 W2 So3 St3)) as (na & w1' & Hw1 & O1 & E1).
    assert (W1' : all_chars is_ws w1' = true) by (destruct Hw1 as [-> | ->]; [exact W1|reflexivity]).
    destruct (ok_op o w1' w2 (s3 ++ w ++ t) W1' W2 So3 St3) as (no_ & O2 & E2).
    destruct (IH2 s3 w t T3 St) as (nb & w' & Hw' & O3 & E3).
    exists (Ast (rule_of (level o)) (rule_of (level o)) "" [na; no_; nb]), w'. split; [exact Hw'|]. split.
    + destruct (gram_level (level o) Lo) as (G & I & Tk). eapply ok_ref_node; [|exact I|exact Tk]. rewrite G. apply ok_alt_l. rewrite !app_assoc_s.
      exact (ok_seq _ _ _ [na] [] _ [no_; nb] [] _ O1 (ok_seq _ _ _ [no_] [] _ [nb] [] _ O2 O3)).
    + cbn [optimize tree]. rewrite <- E1, <- E2, <- E3. reflexivity.
  - change (unary_token u :: ts) with ([unary_token u] ++ ts)%list in T. destruct (text_split [unary_token u] ts s ltac:(discriminate) (rderives_nonempty _ _ _ H) T) as (su & w1 & s1 & -> & Tu & T1 & W1).
    apply text_one in Tu. assert (Eu : su = un_text u) by (destruct u; inversion Tu; reflexivity). subst su.
    destruct (start_solid s1 (w ++ t) (text_start _ _ _ _ H T1)) as [So1 _].
    destruct (IH s1 w t T1 (stops_up 6 7 _ _ ltac:(lia) St)) as (a & w' & Hw' & O & Oa). destruct (ok_unary_op u w1 (s1 ++ w ++ t) W1 (solid_firm _ So1)) as (un & Ou & Eu).
    exists (Ast R_UNARY_EXPR R_UNARY_EXPR "" [un; a]), w'. split; [exact Hw'|]. split.
    + eapply ok_ref_node; [|reflexivity|reflexivity]. cbn [rule_of nth gram]. apply ok_alt_l. rewrite !app_assoc_s. exact (ok_seq _ _ _ [un] [] _ [a] [] _ Ou O).
    + cbn [optimize tree rule_of nth]. rewrite <- Eu. cbn [rule_of nth] in Oa. rewrite <- Oa. reflexivity.
  - change (KOpen :: (ts ++ [KClose])%list) with ([KOpen] ++ (ts ++ [KClose]))%list in T. destruct (text_split [KOpen] (ts ++ [KClose]) s ltac:(discriminate) ltac:(destruct ts; discriminate) T) as (so & w1 & s1 & -> & To & T1 & W1).
    destruct (text_split ts [KClose] s1 (rderives_nonempty _ _ _ H) ltac:(discriminate) T1) as (s2 & w2 & sc & -> & T2 & Tc & W2). apply text_one in To, Tc. inversion To; inversion Tc; subst so sc. clear To Tc T T1.
    destruct (IH s2 w2 (String ")" (w ++ t)) T2 (stops_paren w2 _ W2)) as (a & w2' & Hw2 & O & Oa). assert (W2' : all_chars is_ws w2' = true) by (destruct Hw2 as [-> | ->]; [exact W2|reflexivity]).
    destruct (start_solid s2 (w2 ++ String ")" (w ++ t)) (text_start _ _ _ _ H T2)) as [So2 _].
    exists (Ast R_PRIMARY_EXPR R_PRIMARY_EXPR "" [a]), "". split; [right; reflexivity|]. split.
    + eapply ok_ref_node; [|reflexivity|reflexivity]. cbn [rule_of nth gram]. apply ok_alt_l. rewrite !app_assoc_s. cbn [append].
      refine (ok_seq _ _ _ [] [] _ [a] [] _ (ok_paren R_OPEN_PARENTHESES "(" "" w1 _ _ eq_refl eq_refl W1 (solid_firm _ So2)) _); [kw|].
      refine (ok_seq _ _ _ [a] [] _ [] [] _ O (ok_paren R_CLOSE_PARENTHESES ")" w2' w t _ eq_refl W2' (st_ws _ _ _ St) (st_firm _ _ _ St))). kw.
    + rewrite optimize_one, Oa. cbn [tree rule_of nth]. apply tree_orig.
  - apply text_one in T. destruct (stops_char _ _ _ w St (or_introl eq_refl)) as [F _]. inversion T as [l' base z L E1 E2| | | | | ]; subst.
    exists (Ast R_PRIMARY_EXPR R_PRIMARY_EXPR "" [Ast R_SCOPED_OR_LITERAL R_SCOPED_OR_LITERAL "" [Ast R_LITERAL R_LITERAL "" [Ast R_INTEGER_LITERAL R_INTEGER_LITERAL s []]]]), w. split; [left; reflexivity|]. split; [|reflexivity].
    assert (NP : no (Ref R_OPEN_PARENTHESES) (s ++ w ++ t)).
    { pose proof (literal_start _ _ _ L) as Fs. apply (no_punct R_OPEN_PARENTHESES "(" ""); [kw|reflexivity| |].
      - apply start_solid. apply (first_impl digit); [reflexivity|exact Fs].
      - destruct s as [|c s']; [discriminate Fs|]. cbn [append first_is] in *. pose proof (all_ascii (fun c => implb (digit c) (negb (Ascii.eqb "(" c))) eq_refl c) as K. cbv beta in K. rewrite Fs in K. apply negb_true_iff in K. exact K. }
    eapply ok_ref_node; [|reflexivity|reflexivity]. cbn [rule_of nth gram]. apply ok_alt_r; [apply no_seq_l, NP|]. eapply ok_ref_node; [|reflexivity|reflexivity]. cbn [gram]. apply ok_alt_l.
    eapply ok_ref_node; [|reflexivity|reflexivity]. cbn [gram]. pose proof (literal_no_float _ _ _ _ L F) as NF. apply ok_alt_r; [exact NF|]. apply ok_alt_r; [apply no_ref; cbn [gram]; apply no_tok, NF|]. apply ok_alt_l.
    eapply ok_literal; [exact L|exact F].
  - apply text_one in T. destruct (stops_char _ _ _ w St (or_introl eq_refl)) as [F C]. inversion T as [|qs y Hy B1 B2 E1 E2| | | | ]; subst.
    exists (Ast R_PRIMARY_EXPR R_PRIMARY_EXPR "" [Ast R_SCOPED_OR_LITERAL R_SCOPED_OR_LITERAL "" [name_node (qualified qs y)]]), w. split; [left; reflexivity|]. split; [|reflexivity].
    assert (NP : no (Ref R_OPEN_PARENTHESES) (qualified qs y ++ w ++ t)).
    { pose proof (qualified_start _ _ Hy) as Fs. apply (no_punct R_OPEN_PARENTHESES "(" ""); [kw|reflexivity| |].
      - apply start_solid. apply (first_impl id_first); [reflexivity|exact Fs].
      - destruct (qualified qs y) as [|c s']; [discriminate Fs|]. cbn [append first_is] in *. pose proof (all_ascii (fun c => implb (id_first c) (negb (Ascii.eqb "(" c))) eq_refl c) as K. cbv beta in K. rewrite Fs in K. apply negb_true_iff in K. exact K. }
    eapply ok_ref_node; [|reflexivity|reflexivity]. cbn [rule_of nth gram]. apply ok_alt_r; [apply no_seq_l, NP|]. eapply ok_ref_node; [|reflexivity|reflexivity]. cbn [gram].
    apply ok_alt_r; [apply no_literal_name; assumption|]. apply ok_scoped; [exact Hy|apply (stop_not id_char); [reflexivity|exact F]|exact C].
Qed.
