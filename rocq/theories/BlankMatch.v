(** Matching does not depend on the blanks between tokens: the grammar. *)
From Verif Require Import Base Peg0 Grammar Peg PegFacts IdlLitFacts PegRules IdlParseFacts BlankSpec BlankFacts.
Local Open Scope string_scope.
Local Arguments blank : simpl never.
Local Arguments loose_char : simpl never.
Local Arguments doubling : simpl never.

(** *** Expressions whose outcome does not depend on the blanks *)
Definition is_ws_ref (e : exp rule) : bool := match e with Ref q => rule_eqb q R_WS | _ => false end.
Definition is_opt_ws (e : exp rule) : bool := match e with Opt e => is_ws_ref e | _ => false end.
Definition loose_tail (e : exp rule) : bool := match e with Seq (Tok (Lit l)) b => (single_lit l || double_lit l) && is_opt_ws b | _ => false end.
Definition plain_nonempty (l : string) : bool := match l with EmptyString => false | _ => plain_lit l end.
Definition starts_plain (e : exp rule) : bool := match e with Lit l => plain_nonempty l | Seq (Lit l) _ => plain_nonempty l | _ => false end.
Definition safe_rule (q : rule) : bool := match q with R_WS | R_EOL | R_NL_ESCAPE | R_KW_CLOSE_BLOCK_COMMENT => false | _ => negb (never_rule q) end.
Fixpoint safe (e : exp rule) : bool :=
  (never e && stars_consume e) ||
  match e with
  | Eps => true
  | Lit l => plain_lit l || double_lit l
  | Cls l => tame_class l
  | Any => false
  | Ref q => safe_rule q
  | Seq a b => (is_opt_ws a && (loose_tail b || safe b)) || (is_ws_ref a && starts_plain b && safe b) || (safe a && safe b)
  | Alt a b => safe a && safe b
  | Opt e => is_ws_ref e || safe e
  | Star e | Plus e | Not e | Tok e | Ign e => safe e
  end.
(** Expressions that take no blanks. *)
Definition exact_rule (q : rule) : bool :=
  match q with
  | R_IDENTIFIER | R_SCOPED_NAME | R_DOUBLE_COLON | R_POSITIVE_INT_CONST | R_INTEGER_LITERAL | R_DEC_LITERAL | R_OCT_LITERAL | R_HEX_LITERAL
  | R_FLOAT_LITERAL | R_FIXED_PT_LITERAL | R_EXP_OR_SUFFIX | R_EXPONENT | R_FLOAT_TYPE_SUFFIX | R_BOOLEAN_LITERAL | R_DECIMAL_DIGIT | R_OCTAL_DIGIT | R_HEX_DIGIT => true
  | _ => never_rule q
  end.
Definition bare_class (l : list (ascii * ascii)) : bool := forallb (fun c => implb (in_class c l) (negb (blank c))) (map ascii_of_nat (seq 0 256)).
Fixpoint exact (e : exp rule) : bool :=
  never e ||
  match e with
  | Eps | Not _ => true
  | Lit l => no_blank l
  | Cls l => bare_class l
  | Any => false
  | Ref q => exact_rule q
  | Seq a b | Alt a b => exact a && exact b
  | Star e | Plus e | Opt e | Tok e | Ign e => exact e
  end.
(** The token boundaries of an expression take no blanks; it has one. *)
Fixpoint tok_exact (e : exp rule) : bool :=
  match e with
  | Seq a b | Alt a b => tok_exact a && tok_exact b
  | Star e | Plus e | Opt e => tok_exact e
  | Tok e => exact e && tok_exact e
  | _ => true
  end.
Fixpoint sure_tok (e : exp rule) : bool := match e with Tok _ => true | Seq a b => sure_tok a || sure_tok b | Alt a b => sure_tok a && sure_tok b | Plus e => sure_tok e | _ => false end.
Definition token_ok (q : rule) : bool :=
  ignored q || negb (is_token_rule q) || rule_eqb q R_CASE_LABEL || never_rule q || (tok_exact (gram q) && (sure_tok (gram q) || exact (gram q))).

Lemma safe_rules : forall q, safe_rule q = true -> safe (gram q) = true.
Proof. destruct q; intros H; try discriminate H; vm_compute; reflexivity. Qed.
Lemma exact_rules : forall q, exact_rule q = true -> exact (gram q) = true.
Proof. destruct q; intros H; try discriminate H; vm_compute; reflexivity. Qed.
Lemma token_rules : forall q, safe_rule q = true -> token_ok q = true.
Proof. destruct q; intros H; try discriminate H; vm_compute; reflexivity. Qed.

(** *** Texts and trees without their blanks *)
Fixpoint strip (s : string) : string := match s with EmptyString => "" | String c r => if blank c then strip r else String c (strip r) end.
Lemma strip_app : forall a b, strip (a ++ b) = strip a ++ strip b.
Proof. induction a as [|c a IH]; intros b; [reflexivity|]. cbn [append strip]. rewrite IH. destruct (blank c); reflexivity. Qed.
Lemma strip_bare : forall s, no_blank s = true -> strip s = s.
Proof. induction s as [|c s IH]; intros H; [reflexivity|]. cbn [no_blank strip] in *. apply andb_true_iff in H as [B H]. apply negb_true_iff in B. rewrite B, (IH H). reflexivity. Qed.
Lemma strip_blank : forall w, all_blank w = true -> strip w = "".
Proof. induction w as [|c w IH]; intros H; [reflexivity|]. cbn [all_blank strip] in *. apply andb_true_iff in H as [B H]. rewrite B. apply IH, H. Qed.
Fixpoint norm (a : ast) : ast := match a with Ast o t k l => Ast o t (if rule_eqb t R_CASE_LABEL then strip k else k) (map norm l) end.
Lemma norm_tight : forall a, tight_labels a = true -> norm a = a.
Proof.
  intros a. induction a as [o t k l IH] using ast_rect'. cbn [tight_labels norm]. intros H. apply andb_true_iff in H as [H H']. f_equal.
  - destruct (rule_eqb t R_CASE_LABEL); [|reflexivity]. apply strip_bare, H.
  - clear H. induction IH as [|x l Hx _ IHl]; [reflexivity|]. cbn [forallb map] in *. apply andb_true_iff in H' as [H H']. rewrite (Hx H), (IHl H'). reflexivity.
Qed.
Lemma norm_optimize : forall a, norm (optimize a) = optimize (norm a).
Proof.
  intros a. induction a as [o t k l IH] using ast_rect'. destruct l as [|x [|y l]].
  - reflexivity.
  - cbn [optimize norm map]. inversion IH as [|? ? Hx _]; subst. rewrite <- Hx. destruct (optimize x) as [o' t' k' l']. reflexivity.
  - change (optimize (Ast o t k (x :: y :: l))) with (Ast o t k (map optimize (x :: y :: l))).
    change (optimize (norm (Ast o t k (x :: y :: l)))) with (Ast o t (if rule_eqb t R_CASE_LABEL then strip k else k) (map optimize (map norm (x :: y :: l)))).
    cbn [norm]. f_equal. rewrite !map_map. apply map_ext_in. intros b Hb. rewrite Forall_forall in IH. apply IH, Hb.
Qed.

(** *** What is consumed by exact expressions *)
Lemma no_blank_app : forall a b, no_blank a = true -> no_blank b = true -> no_blank (a ++ b) = true.
Proof. induction a as [|c a IH]; intros b A B; [exact B|]. cbn [append no_blank] in *. apply andb_true_iff in A as [H A]. rewrite H. apply IH; assumption. Qed.
Lemma exact_bare : forall n e s c ns ts r, exact e = true -> clean s -> peg n e s = Some (Yes c ns ts r) -> no_blank c = true.
Proof.
  induction n as [|n IH]; intros e s c ns ts r X K H; [discriminate H|].
  destruct (never e) eqn:N; [discriminate (never_no _ _ _ _ N K H)|]. rewrite peg_eq in H.
  destruct e as [|l|l| |q|a b|a b|e|e|e|e|e|e]; cbn [exact] in X; rewrite N in X; cbn [orb] in X.
  - injection H as <- _ _ _. reflexivity.
  - destruct (after l s); [|discriminate H]. injection H as <- _ _ _. exact X.
  - destruct s as [|a s]; [discriminate H|]. pose proof (all_ascii _ X a) as T. cbv beta in T. destruct (in_class a l); [|discriminate H]. injection H as <- _ _ _.
    cbn [no_blank]. cbn [implb] in T. rewrite T. reflexivity.
  - discriminate X.
  - destruct (peg n (gram q) s) as [[|c1 n1 t1 s1]|] eqn:E; try discriminate H. injection H as <- _ _ _. exact (IH _ _ _ _ _ _ (exact_rules q X) K E).
  - apply andb_true_iff in X as [Xa Xb]. destruct (peg n a s) as [[|c1 n1 t1 s1]|] eqn:E; try discriminate H. destruct (peg n b s1) as [[|c2 n2 t2 s2]|] eqn:E2; try discriminate H.
    injection H as <- _ _ _. apply no_blank_app; [exact (IH _ _ _ _ _ _ Xa K E)|exact (IH _ _ _ _ _ _ Xb (peg_clean _ _ _ _ _ _ _ E K) E2)].
  - apply andb_true_iff in X as [Xa Xb]. destruct (peg n a s) as [[|c1 n1 t1 s1]|] eqn:E; try discriminate H; [exact (IH _ _ _ _ _ _ Xb K H)|]. injection H as <- _ _ _. exact (IH _ _ _ _ _ _ Xa K E).
  - destruct (peg n e s) as [[|c1 n1 t1 s1]|] eqn:E; try discriminate H; [injection H as <- _ _ _; reflexivity|]. destruct (peg n (Star e) s1) as [[|c2 n2 t2 s2]|] eqn:E2; try discriminate H.
    injection H as <- _ _ _. apply no_blank_app; [exact (IH _ _ _ _ _ _ X K E)|]. refine (IH _ _ _ _ _ _ _ (peg_clean _ _ _ _ _ _ _ E K) E2). cbn [exact]. rewrite X. apply orb_true_r.
  - refine (IH (Seq e (Star e)) _ _ _ _ _ _ K H). cbn [exact]. rewrite X, !orb_true_r. reflexivity.
  - destruct (peg n e s) as [[|c1 n1 t1 s1]|] eqn:E; try discriminate H; injection H as <- _ _ _; [reflexivity|exact (IH _ _ _ _ _ _ X K E)].
  - destruct (peg n e s) as [[|c1 n1 t1 s1]|] eqn:E; try discriminate H. injection H as <- _ _ _; reflexivity.
  - destruct (peg n e s) as [[|c1 n1 t1 s1]|] eqn:E; try discriminate H. injection H as <- _ _ _. exact (IH _ _ _ _ _ _ X K E).
  - destruct (peg n e s) as [[|c1 n1 t1 s1]|] eqn:E; try discriminate H. injection H as <- _ _ _. exact (IH _ _ _ _ _ _ X K E).
Qed.
Lemma tokens_bare : forall n e s c ns ts r, tok_exact e = true -> clean s -> peg n e s = Some (Yes c ns ts r) -> Forall (fun t => no_blank t = true) ts.
Proof.
  induction n as [|n IH]; intros e s c ns ts r X K H; [discriminate H|]. pose proof H as H0. rewrite peg_eq in H.
  destruct e as [|l|l| |q|a b|a b|e|e|e|e|e|e]; cbn [tok_exact] in X.
  - injection H as _ _ <- _. constructor.
  - destruct (after l s); [|discriminate H]. injection H as _ _ <- _. constructor.
  - destruct s as [|a s]; [discriminate H|]. destruct (in_class a l); [|discriminate H]. injection H as _ _ <- _. constructor.
  - destruct s as [|a s]; [discriminate H|]. injection H as _ _ <- _. constructor.
  - destruct (peg n (gram q) s) as [[|c1 n1 t1 s1]|] eqn:E; try discriminate H. injection H as _ _ <- _. constructor.
  - apply andb_true_iff in X as [Xa Xb]. destruct (peg n a s) as [[|c1 n1 t1 s1]|] eqn:E; try discriminate H. destruct (peg n b s1) as [[|c2 n2 t2 s2]|] eqn:E2; try discriminate H.
    injection H as _ _ <- _. apply Forall_app. split; [exact (IH _ _ _ _ _ _ Xa K E)|exact (IH _ _ _ _ _ _ Xb (peg_clean _ _ _ _ _ _ _ E K) E2)].
  - apply andb_true_iff in X as [Xa Xb]. destruct (peg n a s) as [[|c1 n1 t1 s1]|] eqn:E; try discriminate H; [exact (IH _ _ _ _ _ _ Xb K H)|]. injection H as _ _ <- _. exact (IH _ _ _ _ _ _ Xa K E).
  - destruct (peg n e s) as [[|c1 n1 t1 s1]|] eqn:E; try discriminate H; [injection H as _ _ <- _; constructor|]. destruct (peg n (Star e) s1) as [[|c2 n2 t2 s2]|] eqn:E2; try discriminate H.
    injection H as _ _ <- _. apply Forall_app. split; [exact (IH _ _ _ _ _ _ X K E)|]. exact (IH (Star e) _ _ _ _ _ X (peg_clean _ _ _ _ _ _ _ E K) E2).
  - refine (IH (Seq e (Star e)) _ _ _ _ _ _ K H). cbn [tok_exact]. rewrite X. reflexivity.
  - destruct (peg n e s) as [[|c1 n1 t1 s1]|] eqn:E; try discriminate H; injection H as _ _ <- _; [constructor|exact (IH _ _ _ _ _ _ X K E)].
  - destruct (peg n e s) as [[|c1 n1 t1 s1]|] eqn:E; try discriminate H. injection H as _ _ <- _; constructor.
  - apply andb_true_iff in X as [Xe Xt]. destruct (peg n e s) as [[|c1 n1 t1 s1]|] eqn:E; try discriminate H. injection H as _ _ <- _. constructor; [exact (exact_bare _ _ _ _ _ _ _ Xe K E)|exact (IH _ _ _ _ _ _ Xt K E)].
  - destruct (peg n e s) as [[|c1 n1 t1 s1]|] eqn:E; try discriminate H. injection H as _ _ <- _. constructor.
Qed.
Lemma tokens_some : forall n e s c ns ts r, sure_tok e = true -> peg n e s = Some (Yes c ns ts r) -> ts <> [].
Proof.
  induction n as [|n IH]; intros e s c ns ts r X H; [discriminate H|]. rewrite peg_eq in H.
  destruct e as [|l|l| |q|a b|a b|e|e|e|e|e|e]; cbn [sure_tok] in X; try discriminate X.
  - destruct (peg n a s) as [[|c1 n1 t1 s1]|] eqn:E; try discriminate H. destruct (peg n b s1) as [[|c2 n2 t2 s2]|] eqn:E2; try discriminate H.
    injection H as _ _ <- _. intros Z. apply app_eq_nil in Z as [Z1 Z2]. apply orb_true_iff in X as [X|X]; [exact (IH _ _ _ _ _ _ X E Z1)|exact (IH _ _ _ _ _ _ X E2 Z2)].
  - apply andb_true_iff in X as [Xa Xb]. destruct (peg n a s) as [[|c1 n1 t1 s1]|] eqn:E; try discriminate H; [exact (IH _ _ _ _ _ _ Xb H)|]. injection H as _ _ <- _. exact (IH _ _ _ _ _ _ Xa E).
  - refine (IH (Seq e (Star e)) _ _ _ _ _ _ H). cbn [sure_tok]. rewrite X. reflexivity.
  - destruct (peg n e s) as [[|c1 n1 t1 s1]|] eqn:E; try discriminate H. injection H as _ _ <- _. discriminate.
Qed.
(** The nodes of a rule. *)
Lemma node_alike : forall q s s' c c' ns ns' ts ts' r r', token_ok q = true -> clean s -> clean s' -> yields (gram q) s (Yes c ns ts r) -> yields (gram q) s' (Yes c' ns' ts' r') ->
  strip c = strip c' -> map norm ns = map norm ns' -> map strip ts = map strip ts' -> map norm (node_of q c ns ts) = map norm (node_of q c' ns' ts').
Proof.
  intros q s s' c c' ns ns' ts ts' r r' T K K' (n & H) (m & H') C N Ts. unfold node_of. destruct (ignored q) eqn:Iq; [reflexivity|]. destruct (is_token_rule q) eqn:Tq; [|cbn [map norm]; rewrite N; reflexivity].
  cbn [map norm]. do 2 f_equal. unfold token_ok in T. rewrite Iq, Tq in T. cbn [orb negb] in T.
  assert (S0 : strip (match ts with t :: _ => t | [] => c end) = strip (match ts' with t :: _ => t | [] => c' end)).
  { destruct ts as [|t ts], ts' as [|t' ts']; try discriminate Ts; [exact C|]. cbn [map] in Ts. congruence. }
  destruct (rule_eqb q R_CASE_LABEL); [exact S0|]. cbn [orb] in T. apply orb_true_iff in T as [T|T]; [discriminate (never_no _ _ _ _ (never_rules q T) K H)|].
  apply andb_true_iff in T as [X Y].
  assert (B : forall z n0 s0 c0 ns0 ts0 r0, clean s0 -> peg n0 (gram q) s0 = Some (Yes c0 ns0 ts0 r0) -> z = match ts0 with t :: _ => t | [] => c0 end -> no_blank z = true).
  { intros z n0 s0 c0 ns0 ts0 r0 K0 H0 ->. pose proof (tokens_bare _ _ _ _ _ _ _ X K0 H0) as F. destruct ts0 as [|t0 ts0].
    - apply orb_true_iff in Y as [Y|Y]; [contradiction (tokens_some _ _ _ _ _ _ _ Y H0 eq_refl)|]. exact (exact_bare _ _ _ _ _ _ _ Y K0 H0).
    - inversion F; assumption. }
  pose proof (B _ _ _ _ _ _ _ K H eq_refl) as B1. pose proof (B _ _ _ _ _ _ _ K' H' eq_refl) as B2.
  rewrite <- (strip_bare _ B1), <- (strip_bare _ B2). exact S0.
Qed.

(** *** The theorem *)
Definition alike (o o' : out) : Prop :=
  match o, o' with
  | No, No => True
  | Yes c ns ts r, Yes c' ns' ts' r' => strip c = strip c' /\ map norm ns = map norm ns' /\ map strip ts = map strip ts' /\ at_ r r'
  | _, _ => False
  end.
Lemma is_ws_ref_eq : forall e, is_ws_ref e = true -> e = Ref R_WS.
Proof. intros e H. destruct e; try discriminate H. destruct r; try discriminate H. reflexivity. Qed.
Lemma is_opt_ws_eq : forall e, is_opt_ws e = true -> e = Opt (Ref R_WS).
Proof. intros e H. destruct e; try discriminate H. cbn [is_opt_ws] in H. rewrite (is_ws_ref_eq _ H). reflexivity. Qed.
Lemma yields_seq : forall a b s c ns ts r o, yields a s (Yes c ns ts r) -> yields b r o ->
  yields (Seq a b) s (match o with No => No | Yes c' ns' ts' r' => Yes (c ++ c') (ns ++ ns')%list (ts ++ ts')%list r' end).
Proof. intros a b s c ns ts r o (n & H) (m & H'). exists (S (n + m)). rewrite peg_eq, (max_l _ m _ _ _ H), (max_r n _ _ _ _ H'). destruct o; reflexivity. Qed.
Lemma yields_seq_no : forall a b s, yields a s No -> yields (Seq a b) s No.
Proof. intros a b s (n & H). exists (S n). rewrite peg_eq, H. reflexivity. Qed.
Lemma yields_lit : forall l s, yields (Lit l) s (match after l s with Some r => Yes l [] [] r | None => No end).
Proof. intros l s. exists 1%nat. rewrite peg_eq. destruct (after l s); reflexivity. Qed.
Lemma yields_tok : forall e s c ns ts r, yields e s (Yes c ns ts r) -> yields (Tok e) s (Yes c ns (c :: ts) r).
Proof. intros e s c ns ts r (n & H). exists (S n). rewrite peg_eq, H. reflexivity. Qed.
Lemma yields_tok_no : forall e s, yields e s No -> yields (Tok e) s No.
Proof. intros e s (n & H). exists (S n). rewrite peg_eq, H. reflexivity. Qed.
(** WS? from a position. *)
Lemma opt_ws_alike : forall s s', any_ s s' -> exists w w', all_blank w = true /\ all_blank w' = true /\ yields (Opt (Ref R_WS)) s (Yes w [] [] (skip s)) /\ yields (Opt (Ref R_WS)) s' (Yes w' [] [] (skip s')).
Proof.
  intros s s' A. destruct (any_clean _ _ A) as [K K']. destruct (opt_ok s K) as (w & W & _ & H). destruct (opt_ok s' K') as (w' & W' & _ & H'). exists w, w'. auto.
Qed.
(** A loose character with the blanks around it. *)
Lemma loose_alike : forall e s s', loose_tail e = true -> at_ s s' -> headed s = false -> headed s' = false -> exists o o', yields e s o /\ yields e s' o' /\ alike o o'.
Proof.
  intros e s s' L A H H'. destruct e as [| | | | |a b| | | | | | |]; try discriminate L. destruct a as [| | | | | | | | | | |a |]; try discriminate L. destruct a as [|l| | | | | | | | | | |]; try discriminate L.
  cbn [loose_tail] in L. apply andb_true_iff in L as [L O]. apply is_opt_ws_eq in O; subst b.
  assert (G : agree any_ (after l s) (after l s')).
  { apply orb_true_iff in L as [L|L]; [apply single_any; assumption|]. pose proof (double_at l s s' L A) as D. unfold agree in *. destruct (after l s), (after l s'); auto. apply at_any, D. }
  pose proof (yields_lit l s) as Y. pose proof (yields_lit l s') as Y'. destruct (after l s) as [r|], (after l s') as [r'|]; try contradiction G.
  - destruct (opt_ws_alike r r' G) as (w & w' & W & W' & O & O'). eexists _, _.
    split; [exact (yields_seq _ _ _ _ _ _ _ _ (yields_tok _ _ _ _ _ _ Y) O)|]. split; [exact (yields_seq _ _ _ _ _ _ _ _ (yields_tok _ _ _ _ _ _ Y') O')|].
    cbn [alike]. rewrite !strip_app, (strip_blank w W), (strip_blank w' W'). repeat split. apply skip_any, G.
  - exists No, No. split; [apply yields_seq_no, yields_tok_no, Y|]. split; [apply yields_seq_no, yields_tok_no, Y'|exact I].
Qed.
(** WS before a word. *)
Lemma plain_after : forall l s, plain_nonempty l = true -> (forall a, tame a = true -> starts a s = false) -> after l s = None.
Proof. intros [|a l] s L H; [discriminate L|]. apply after_other, H. cbn [plain_nonempty plain_lit] in L. apply andb_true_iff in L. tauto. Qed.
Lemma starts_plain_no : forall e s, starts_plain e = true -> (forall a, tame a = true -> starts a s = false) -> yields e s No.
Proof.
  intros e s L H. destruct e as [|l| | | |a b| | | | | | |]; try discriminate L.
  - pose proof (yields_lit l s) as Y. rewrite (plain_after l s L H) in Y. exact Y.
  - destruct a as [|l| | | | | | | | | | |]; try discriminate L. apply yields_seq_no. pose proof (yields_lit l s) as Y. rewrite (plain_after l s L H) in Y. exact Y.
Qed.

Lemma alike_main : forall n e s s' o, safe e = true -> at_ s s' -> peg n e s = Some o -> exists o', yields e s' o' /\ alike o o'.
Proof.
  induction n as [|n IH]; intros e s s' o X A H; [discriminate H|].
  destruct (any_clean _ _ (at_any _ _ A)) as [K K'].
  destruct (never e && stars_consume e) eqn:N.
  { apply andb_true_iff in N as [N Wf]. rewrite (never_no _ _ _ _ N K H). exists No. split; [apply never_yields; assumption|exact I]. }
  destruct e as [|l|l| |q|a b|a b|e|e|e|e|e|e]; cbn [safe] in X; rewrite N in X; cbn [orb] in X.
  - rewrite peg_eq in H. injection H as <-. exists (Yes "" [] [] s'). split; [exists 1%nat; reflexivity|]. cbn [alike]. auto.
  - assert (G : agree at_ (after l s) (after l s')) by (apply orb_true_iff in X as [X|X]; [apply plain_at|apply double_at]; assumption).
    pose proof (yields_lit l s) as Y. pose proof (yields_lit l s') as Y'. rewrite <- (yields_fun _ _ _ _ Y (ex_intro _ _ H)).
    destruct (after l s) as [r|], (after l s') as [r'|]; try contradiction G; eexists; (split; [exact Y'|]); cbn [alike]; auto.
  - rewrite peg_eq in H. pose proof (class_at l s s' X A) as G. unfold take in G. destruct s as [|c s], s' as [|c' s'].
    + injection H as <-. exists No. split; [exists 1%nat; reflexivity|exact I].
    + injection H as <-. destruct (in_class c' l) eqn:E; [contradiction|]. exists No. split; [exists 1%nat; rewrite peg_eq, E; reflexivity|exact I].
    + destruct (in_class c l) eqn:E; [contradiction|]. injection H as <-. exists No. split; [exists 1%nat; reflexivity|exact I].
    + destruct (in_class c l) eqn:E, (in_class c' l) eqn:E'; try contradiction G; injection H as <-.
      * destruct G as [<- G]. exists (Yes (String c "") [] [] s'). split; [exists 1%nat; rewrite peg_eq, E; reflexivity|]. cbn [alike]. auto.
      * exists No. split; [exists 1%nat; rewrite peg_eq, E'; reflexivity|exact I].
  - discriminate X.
  - rewrite peg_eq in H. destruct (peg n (gram q) s) as [o1|] eqn:E; [|discriminate H]. destruct (IH _ _ _ _ (safe_rules q X) A E) as (o1' & (m & E') & R).
    destruct o1 as [|c ns ts r], o1' as [|c' ns' ts' r']; try contradiction R; injection H as <-.
    + exists No. split; [exists (S m); rewrite peg_eq, E'; reflexivity|exact I].
    + destruct R as (Rc & Rn & Rt & Ra). eexists. split; [exists (S m); rewrite peg_eq, E'; reflexivity|]. cbn [alike]. repeat split; [exact Rc| |exact Ra].
      exact (node_alike q s s' _ _ _ _ _ _ _ _ (token_rules q X) K K' (ex_intro _ _ E) (ex_intro _ _ E') Rc Rn Rt).
  - apply orb_true_iff in X as [X|X]; [apply orb_true_iff in X as [X|X]|].
    + (* WS? first *)
      apply andb_true_iff in X as [O X]. apply is_opt_ws_eq in O; subst a. destruct (opt_ws_alike s s' (at_any _ _ A)) as (w & w' & W & W' & Y & Y').
      destruct (skip_any s s' (at_any _ _ A)) as (A2 & F & F').
      assert (G : exists o2 o2', yields b (skip s) o2 /\ yields b (skip s') o2' /\ alike o2 o2').
      { apply orb_true_iff in X as [X|X]; [apply loose_alike; assumption|].
        rewrite peg_eq in H. destruct (peg n (Opt (Ref R_WS)) s) as [o1|] eqn:E; [|discriminate H]. rewrite <- (yields_fun _ _ _ _ Y (ex_intro _ _ E)) in H.
        destruct (peg n b (skip s)) as [o2|] eqn:E2; [|discriminate H]. destruct (IH _ _ _ _ X A2 E2) as (o2' & Y2 & R). exists o2, o2'. split; [exists n; exact E2|auto]. }
      destruct G as (o2 & o2' & Y2 & Y2' & R). rewrite <- (yields_fun _ _ _ _ (yields_seq _ _ _ _ _ _ _ _ Y Y2) (ex_intro _ _ H)).
      eexists. split; [exact (yields_seq _ _ _ _ _ _ _ _ Y' Y2')|]. destruct o2 as [|c ns ts r], o2' as [|c' ns' ts' r']; try contradiction R; [exact I|].
      destruct R as (Rc & Rn & Rt & Ra). cbn [alike]. rewrite !strip_app, (strip_blank w W), (strip_blank w' W'). auto.
    + (* WS first *)
      apply andb_true_iff in X as [O X]. apply andb_true_iff in O as [O P]. apply is_ws_ref_eq in O; subst a.
      assert (Both : headed s = true -> headed s' = true -> exists o', yields (Seq (Ref R_WS) b) s' o' /\ alike o o').
      { intros F F'. destruct (ws_ok s K F) as (w & W & _ & Y). destruct (ws_ok s' K' F') as (w' & W' & _ & Y').
        rewrite peg_eq in H. destruct (peg n (Ref R_WS) s) as [o1|] eqn:E; [|discriminate H]. rewrite <- (yields_fun _ _ _ _ Y (ex_intro _ _ E)) in H.
        destruct (peg n b (skip s)) as [o2|] eqn:E2; [|discriminate H]. destruct (IH _ _ _ _ X (proj1 (skip_any _ _ (at_any _ _ A))) E2) as (o2' & Y2 & R).
        exists (match o2' with No => No | Yes c' ns' ts' r' => Yes (w' ++ c') ([] ++ ns')%list ([] ++ ts')%list r' end). split; [exact (yields_seq _ _ _ _ _ _ _ _ Y' Y2)|].
        destruct o2 as [|c ns ts r], o2' as [|c' ns' ts' r']; try contradiction R; injection H as <-; [exact I|].
        destruct R as (Rc & Rn & Rt & Ra). cbn [alike]. rewrite !strip_app, (strip_blank w W), (strip_blank w' W'). auto. }
      assert (None' : (headed s = false \/ forall a, tame a = true -> starts a (skip s) = false) -> (headed s' = false \/ forall a, tame a = true -> starts a (skip s') = false) ->
        exists o', yields (Seq (Ref R_WS) b) s' o' /\ alike o o').
      { assert (Z : forall t, clean t -> headed t = false \/ (forall a, tame a = true -> starts a (skip t) = false) -> yields (Seq (Ref R_WS) b) t No).
        { intros t Kt Ft. destruct (headed t) eqn:B; [|apply yields_seq_no, ws_no; assumption]. destruct Ft as [Ft|Ft]; [discriminate Ft|].
          destruct (ws_ok t Kt B) as (w & W & _ & Y). exact (yields_seq _ _ _ _ _ _ _ No Y (starts_plain_no b _ P Ft)). }
        intros F F'. rewrite (yields_fun _ _ _ _ (ex_intro _ _ H) (Z s K F)). exists No. split; [apply Z; assumption|exact I]. }
      apply at_position in A. destruct A as [p c d s s' D Q C R _|p c s s' F F' _|p c d w w' s s' W W' F F' Q R _|w w' W W'].
      * apply None'; left; exact D.
      * apply Both; assumption.
      * pose proof (proj1 (free_before_loose _ _ F)) as Ld. assert (T : forall v t, all_blank v = true -> forall a, tame a = true -> starts a (skip (v ++ String d t)) = false).
        { intros v t V a Ta. rewrite skip_app; [|exact V|exact (loose_not_blank d Ld)]. cbn [starts]. destruct (Ascii.eqb a d) eqn:E; [|reflexivity]. apply Ascii.eqb_eq in E; subst d.
          rewrite (tame_not_loose a Ta) in Ld. discriminate Ld. }
        apply None'; right; apply T; assumption.
      * assert (T : forall v, all_blank v = true -> forall a : ascii, tame a = true -> starts a (skip v) = false).
        { intros v V a Ta. rewrite <- (app_nil_s v), skip_app by (assumption || reflexivity). reflexivity. }
        apply None'; right; apply T; assumption.
    + apply andb_true_iff in X as [Xa Xb]. rewrite peg_eq in H. destruct (peg n a s) as [o1|] eqn:E; [|discriminate H]. destruct (IH _ _ _ _ Xa A E) as (o1' & Y1 & R).
      destruct o1 as [|c ns ts r], o1' as [|c' ns' ts' r']; try contradiction R.
      * injection H as <-. exists No. split; [apply yields_seq_no, Y1|exact I].
      * destruct R as (Rc & Rn & Rt & Ra). destruct (peg n b r) as [o2|] eqn:E2; [|discriminate H]. destruct (IH _ _ _ _ Xb Ra E2) as (o2' & Y2 & R).
        eexists. split; [exact (yields_seq _ _ _ _ _ _ _ _ Y1 Y2)|]. destruct o2 as [|c2 ns2 ts2 r2], o2' as [|c2' ns2' ts2' r2']; try contradiction R; injection H as <-; [exact I|].
        destruct R as (Rc2 & Rn2 & Rt2 & Ra2). cbn [alike]. rewrite !strip_app, !map_app. split; [congruence|]. split; [congruence|]. split; [congruence|exact Ra2].
  - apply andb_true_iff in X as [Xa Xb]. rewrite peg_eq in H. destruct (peg n a s) as [o1|] eqn:E; [|discriminate H]. destruct (IH _ _ _ _ Xa A E) as (o1' & (m & Y1) & R).
    destruct o1 as [|c ns ts r], o1' as [|c' ns' ts' r']; try contradiction R.
    + destruct (IH _ _ _ _ Xb A H) as (o2' & (k & Y2) & R2). exists o2'. split; [|exact R2]. exists (S (m + k)). rewrite peg_eq, (max_l _ k _ _ _ Y1), (max_r m _ _ _ _ Y2). reflexivity.
    + injection H as <-. eexists. split; [exists (S m); rewrite peg_eq, Y1; reflexivity|exact R].
  - assert (Xs : safe (Star e) = true) by (cbn [safe]; rewrite X; apply orb_true_r).
    rewrite peg_eq in H. destruct (peg n e s) as [o1|] eqn:E; [|discriminate H]. destruct (IH _ _ _ _ X A E) as (o1' & (m & Y1) & R).
    destruct o1 as [|c ns ts r], o1' as [|c' ns' ts' r']; try contradiction R.
    + injection H as <-. exists (Yes "" [] [] s'). split; [exists (S m); rewrite peg_eq, Y1; reflexivity|]. cbn [alike]. auto.
    + destruct R as (Rc & Rn & Rt & Ra). destruct (peg n (Star e) r) as [o2|] eqn:E2; [|discriminate H]. destruct (IH _ _ _ _ Xs Ra E2) as (o2' & (k & Y2) & R).
      exists (match o2' with No => No | Yes c2 ns2 ts2 r2 => Yes (c' ++ c2) (ns' ++ ns2)%list (ts' ++ ts2)%list r2 end).
      split; [exists (S (m + k)); rewrite peg_eq, (max_l _ k _ _ _ Y1), (max_r m _ _ _ _ Y2); destruct o2'; reflexivity|].
      destruct o2 as [|c2 ns2 ts2 r2], o2' as [|c2' ns2' ts2' r2']; try contradiction R; injection H as <-; [exact I|].
      destruct R as (Rc2 & Rn2 & Rt2 & Ra2). cbn [alike]. rewrite !strip_app, !map_app. split; [congruence|]. split; [congruence|]. split; [congruence|exact Ra2].
  - rewrite peg_eq in H. destruct (IH (Seq e (Star e)) s s' o) as (o' & (m & Y) & R); [|exact A|exact H|].
    { cbn [safe]. rewrite X, !orb_true_r. reflexivity. }
    exists o'. split; [exists (S m); rewrite peg_eq; exact Y|exact R].
  - destruct (is_ws_ref e) eqn:O.
    + apply is_ws_ref_eq in O; subst e. destruct (opt_ws_alike s s' (at_any _ _ A)) as (w & w' & W & W' & Y & Y'). rewrite <- (yields_fun _ _ _ _ Y (ex_intro _ _ H)).
      eexists. split; [exact Y'|]. cbn [alike]. rewrite (strip_blank w W), (strip_blank w' W'). repeat split. apply skip_any, at_any, A.
    + cbn [orb] in X. rewrite peg_eq in H. destruct (peg n e s) as [o1|] eqn:E; [|discriminate H]. destruct (IH _ _ _ _ X A E) as (o1' & (m & Y1) & R).
      destruct o1 as [|c ns ts r], o1' as [|c' ns' ts' r']; try contradiction R; injection H as <-.
      * exists (Yes "" [] [] s'). split; [exists (S m); rewrite peg_eq, Y1; reflexivity|]. cbn [alike]. auto.
      * eexists. split; [exists (S m); rewrite peg_eq, Y1; reflexivity|exact R].
  - rewrite peg_eq in H. destruct (peg n e s) as [o1|] eqn:E; [|discriminate H]. destruct (IH _ _ _ _ X A E) as (o1' & (m & Y1) & R).
    destruct o1 as [|c ns ts r], o1' as [|c' ns' ts' r']; try contradiction R; injection H as <-.
    + exists (Yes "" [] [] s'). split; [exists (S m); rewrite peg_eq, Y1; reflexivity|]. cbn [alike]. auto.
    + exists No. split; [exists (S m); rewrite peg_eq, Y1; reflexivity|exact I].
  - rewrite peg_eq in H. destruct (peg n e s) as [o1|] eqn:E; [|discriminate H]. destruct (IH _ _ _ _ X A E) as (o1' & (m & Y1) & R).
    destruct o1 as [|c ns ts r], o1' as [|c' ns' ts' r']; try contradiction R; injection H as <-.
    + exists No. split; [exists (S m); rewrite peg_eq, Y1; reflexivity|exact I].
    + eexists. split; [exists (S m); rewrite peg_eq, Y1; reflexivity|]. destruct R as (Rc & Rn & Rt & Ra). cbn [alike map]. repeat split; try assumption. congruence.
  - rewrite peg_eq in H. destruct (peg n e s) as [o1|] eqn:E; [|discriminate H]. destruct (IH _ _ _ _ X A E) as (o1' & (m & Y1) & R).
    destruct o1 as [|c ns ts r], o1' as [|c' ns' ts' r']; try contradiction R; injection H as <-.
    + exists No. split; [exists (S m); rewrite peg_eq, Y1; reflexivity|exact I].
    + eexists. split; [exists (S m); rewrite peg_eq, Y1; reflexivity|]. destruct R as (Rc & Rn & Rt & Ra). cbn [alike map]. repeat split; assumption.
Qed.
