(** The matcher: the outcome does not depend on the fuel, what is consumed is a prefix of the text. *)
From Verif Require Import Base Peg0 Grammar Peg ModuleFacts IdlLitFacts.
Local Open Scope string_scope.

(** One step of the matcher, on the outcomes of the parts. *)
Lemma peg_eq : forall n e s, peg (S n) e s =
  match e with
  | Eps => Some (Yes "" [] [] s)
  | Lit l => match after l s with Some r => Some (Yes l [] [] r) | None => Some No end
  | Cls l => match s with
             | String c r => if in_class c l then Some (Yes (String c "") [] [] r) else Some No
             | EmptyString => Some No
             end
  | Any => match s with String c r => Some (Yes (String c "") [] [] r) | EmptyString => Some No end
  | Ref r => match peg n (gram r) s with Some (Yes c ns ts s') => Some (Yes c (node_of r c ns ts) [] s') | o => o end
  | Seq a b => match peg n a s with
               | Some (Yes c ns ts s') =>
                   match peg n b s' with
                   | Some (Yes c' ns' ts' s'') => Some (Yes (c ++ c') (ns ++ ns')%list (ts ++ ts')%list s'')
                   | o => o
                   end
               | o => o
               end
  | Alt a b => match peg n a s with Some No => peg n b s | o => o end
  | Star e => match peg n e s with
              | Some (Yes c ns ts s') =>
                  match peg n (Star e) s' with
                  | Some (Yes c' ns' ts' s'') => Some (Yes (c ++ c') (ns ++ ns')%list (ts ++ ts')%list s'')
                  | o => o
                  end
              | Some No => Some (Yes "" [] [] s)
              | None => None
              end
  | Plus e => peg n (Seq e (Star e)) s
  | Opt e => match peg n e s with Some No => Some (Yes "" [] [] s) | o => o end
  | Not e => match peg n e s with Some No => Some (Yes "" [] [] s) | Some _ => Some No | None => None end
  | Tok e => match peg n e s with Some (Yes c ns ts s') => Some (Yes c ns (c :: ts) s') | o => o end
  | Ign e => match peg n e s with Some (Yes c ns ts s') => Some (Yes c [] [] s') | o => o end
  end.
Proof. reflexivity. Qed.

Lemma peg_mono1 : forall n e s o, peg n e s = Some o -> peg (S n) e s = Some o.
Proof.
  induction n as [|n IH]; intros e s o H; [discriminate H|].
  rewrite peg_eq in H |- *.
  destruct e as [|l|l| |r|a b|a b|e|e|e|e|e|e].
  1-4: exact H.
  - destruct (peg n (gram r) s) as [x|] eqn:E; [|discriminate H].
    rewrite (IH _ _ _ E). exact H.
  - destruct (peg n a s) as [x|] eqn:E; [|discriminate H].
    rewrite (IH _ _ _ E). destruct x as [|c ns ts s']; [exact H|].
    destruct (peg n b s') as [y|] eqn:E2; [|discriminate H]. rewrite (IH _ _ _ E2). exact H.
  - destruct (peg n a s) as [x|] eqn:E; [|discriminate H].
    rewrite (IH _ _ _ E). destruct x as [|c ns ts s']; [|exact H]. apply IH; exact H.
  - destruct (peg n e s) as [x|] eqn:E; [|discriminate H].
    rewrite (IH _ _ _ E). destruct x as [|c ns ts s']; [exact H|].
    destruct (peg n (Star e) s') as [y|] eqn:E2; [|discriminate H]. rewrite (IH _ _ _ E2). exact H.
  - apply IH; exact H.
  - destruct (peg n e s) as [x|] eqn:E; [|discriminate H]. rewrite (IH _ _ _ E). exact H.
  - destruct (peg n e s) as [x|] eqn:E; [|discriminate H]. rewrite (IH _ _ _ E). exact H.
  - destruct (peg n e s) as [x|] eqn:E; [|discriminate H]. rewrite (IH _ _ _ E). exact H.
  - destruct (peg n e s) as [x|] eqn:E; [|discriminate H]. rewrite (IH _ _ _ E). exact H.
Qed.
Lemma peg_mono : forall n m e s o, (n <= m)%nat -> peg n e s = Some o -> peg m e s = Some o.
Proof.
  intros n m e s o H; induction H as [|m H IH]; intros E; [exact E|]. apply peg_mono1, IH, E.
Qed.
Lemma peg_fun : forall n m e s o o', peg n e s = Some o -> peg m e s = Some o' -> o = o'.
Proof.
  intros n m e s o o' H H'. destruct (Nat.le_ge_cases n m) as [L|L].
  - rewrite (peg_mono _ _ _ _ _ L H) in H'. congruence.
  - rewrite (peg_mono _ _ _ _ _ L H') in H. congruence.
Qed.

Lemma after_app : forall l s r, after l s = Some r -> s = l ++ r.
Proof.
  induction l as [|a l IH]; intros s r H; [cbn in H |- *; congruence|].
  destruct s as [|b s]; [discriminate H|]. cbn in H.
  destruct (Ascii.eqb a b) eqn:E; [|discriminate H]. apply Ascii.eqb_eq in E; subst b. cbn; f_equal; apply IH, H.
Qed.
(** What is consumed and the rest make up the text. *)
Lemma peg_split : forall n e s c ns ts r, peg n e s = Some (Yes c ns ts r) -> s = c ++ r.
Proof.
  induction n as [|n IH]; intros e s c ns ts r H; [discriminate H|].
  rewrite peg_eq in H.
  destruct e as [|l|l| |q|a b|a b|e|e|e|e|e|e].
  - injection H as <- _ _ <-; reflexivity.
  - destruct (after l s) as [r'|] eqn:E; [|discriminate H]. injection H as <- _ _ <-. apply after_app, E.
  - destruct s as [|k s]; [discriminate H|]. destruct (in_class k l); [|discriminate H]. injection H as <- _ _ <-; reflexivity.
  - destruct s as [|k s]; [discriminate H|]. injection H as <- _ _ <-; reflexivity.
  - destruct (peg n (gram q) s) as [[|]|] eqn:E; [discriminate H| |discriminate H]. injection H as <- _ _ <-. apply IH in E; exact E.
  - destruct (peg n a s) as [[|c1 n1 t1 s1]|] eqn:E; [discriminate H| |discriminate H].
    destruct (peg n b s1) as [[|c2 n2 t2 s2]|] eqn:E2; [discriminate H| |discriminate H].
    injection H as <- _ _ <-. apply IH in E, E2. subst s s1. symmetry; apply app_assoc_s.
  - destruct (peg n a s) as [[|c1 n1 t1 s1]|] eqn:E; [| |discriminate H].
    + apply IH in H; exact H.
    + injection H as <- _ _ <-. apply IH in E; exact E.
  - destruct (peg n e s) as [[|c1 n1 t1 s1]|] eqn:E; [|
      destruct (peg n (Star e) s1) as [[|c2 n2 t2 s2]|] eqn:E2; [discriminate H| |discriminate H]|discriminate H].
    + injection H as <- _ _ <-; reflexivity.
    + injection H as <- _ _ <-. apply IH in E, E2. subst s s1. symmetry; apply app_assoc_s.
  - apply IH in H; exact H.
  - destruct (peg n e s) as [[|c1 n1 t1 s1]|] eqn:E; [| |discriminate H].
    + injection H as <- _ _ <-; reflexivity.
    + injection H as <- _ _ <-. apply IH in E; exact E.
  - destruct (peg n e s) as [[|c1 n1 t1 s1]|] eqn:E; [|discriminate H|discriminate H].
    injection H as <- _ _ <-; reflexivity.
  - destruct (peg n e s) as [[|c1 n1 t1 s1]|] eqn:E; [discriminate H| |discriminate H].
    injection H as <- _ _ <-. apply IH in E; exact E.
  - destruct (peg n e s) as [[|c1 n1 t1 s1]|] eqn:E; [discriminate H| |discriminate H].
    injection H as <- _ _ <-. apply IH in E; exact E.
Qed.

(** *** Termination: the grammar has no left recursion and repeats no expression that can match the empty text. *)

(** The rules that can match the empty text. *)
Definition may_be_empty (r : rule) : bool :=
  match r with
  | R_EOL | R_SEQUENCE_SIZE | R_MAP_SIZE | R_ANY_DECLARATOR | R_ANY_DECLARATORS | R_ANNOTATION_BODY | R_STRING_WS | R_END_KW => true
  | _ => false
  end.
Fixpoint empty_exp (e : exp rule) : bool :=
  match e with
  | Eps | Star _ | Opt _ | Not _ => true
  | Lit l => String.eqb l ""
  | Cls _ | Any => false
  | Ref r => may_be_empty r
  | Seq a b => empty_exp a && empty_exp b
  | Alt a b => empty_exp a || empty_exp b
  | Plus e | Tok e | Ign e => empty_exp e
  end.
Lemma may_be_empty_ok : forall r, empty_exp (gram r) = may_be_empty r.
Proof. destruct r; reflexivity. Qed.
(** The rules tried at the first position. *)
Fixpoint left_rules (e : exp rule) : list rule :=
  match e with
  | Ref r => [r]
  | Seq a b => left_rules a ++ (if empty_exp a then left_rules b else [])
  | Alt a b => left_rules a ++ left_rules b
  | Star e | Plus e | Opt e | Not e | Tok e | Ign e => left_rules e
  | _ => []
  end.
Fixpoint stars_consume (e : exp rule) : bool :=
  match e with
  | Star e | Plus e => negb (empty_exp e) && stars_consume e
  | Seq a b | Alt a b => stars_consume a && stars_consume b
  | Opt e | Not e | Tok e | Ign e => stars_consume e
  | _ => true
  end.
Lemma gram_stars : forall r, stars_consume (gram r) = true.
Proof. destruct r; reflexivity. Qed.

(** The rules tried first by a rule have a lower rank. *)
Definition rank (r : rule) : nat :=
  match r with
  | R_SCOPED_NAME | R_LINE_COMMENT | R_BLOCK_COMMENT | R_ENUMERATOR | R_ARRAY_DECLARATOR | R_SIMPLE_DECLARATOR | R_BIT_VALUE | R_INTEGER_LITERAL | R_STRING_LITERAL | R_WIDE_SUBSTRING_LITERAL | R_FLOAT_LITERAL | R_EXP_OR_SUFFIX | R_ESCAPE_SEQUENCE | R_ES_OCTAL_NUMBER | R_ES_HEX_NUMBER | R_ES_UNICODE_CHAR | R_END_KW => 1
  | R_COMMENT | R_POSITIVE_INT_CONST | R_ANY_DECLARATOR | R_DECLARATOR | R_FIXED_PT_LITERAL => 2
  | R_LITERAL | R_DECLARATORS | R_WS => 3
  | R_PREPROCESSOR_DIRECTIVE | R_SCOPED_OR_LITERAL | R_STRING_WS | R_KW_CONST | R_KW_MODULE | R_KW_SEQUENCE | R_KW_STRING | R_KW_WSTRING | R_KW_FIXED | R_KW_UNION | R_KW_STRUCT | R_KW_ENUM | R_KW_SWITCH | R_KW_CASE | R_KW_DEFAULT | R_KW_NATIVE | R_KW_TYPEDEF | R_KW_ANY | R_KW_MAP | R_KW_BITSET | R_KW_BITFIELD | R_KW_BITMASK | R_KW_ANNOTATION | R_KW_SHORT | R_KW_INT16 | R_KW_LONG | R_KW_LONG_LONG | R_KW_INT32 | R_KW_INT64 | R_KW_UNSIGNED_LONG | R_KW_UNSIGNED_LONG_LONG | R_KW_UNSIGNED_SHORT | R_KW_UINT16 | R_KW_UINT32 | R_KW_UINT64 | R_KW_INT8 | R_KW_UINT8 | R_KW_CHAR | R_KW_WCHAR | R_KW_BOOLEAN | R_KW_OCTET | R_KW_FLOAT | R_KW_DOUBLE | R_KW_LONG_DOUBLE | R_SEMICOLON | R_COLON | R_COMMA | R_OPEN_PARENTHESES | R_CLOSE_PARENTHESES | R_OPEN_BRACKET | R_CLOSE_BRACKET | R_OPEN_ANG_BRACKET | R_CLOSE_ANG_BRACKET | R_OPEN_BRACE | R_CLOSE_BRACE | R_EQUAL_OP | R_OR_OP | R_XOR_OP | R_AND_OP | R_LSHIFT_OP | R_RSHIFT_OP | R_ADD_OP | R_SUB_OP | R_MULT_OP | R_DIV_OP | R_MOD_OP | R_NEG_OP => 4
  | R_MODULE_DCL | R_CONST_DCL | R_PRIMARY_EXPR | R_ANY_SHITF_OP | R_ANY_ADD_OP | R_ANY_MULT_OP | R_FLOAT_TYPE | R_DOUBLE_TYPE | R_LONG_DOUBLE_TYPE | R_SIGNED_SHORT_INT | R_SIGNED_LONG_INT | R_SIGNED_LONGLONG_INT | R_UNSIGNED_SHORT_INT | R_UNSIGNED_LONG_INT | R_UNSIGNED_LONGLONG_INT | R_SIGNED_TINY_INT | R_UNSIGNED_TINY_INT | R_CHAR_TYPE | R_WIDE_CHAR_TYPE | R_BOOLEAN_TYPE | R_OCTET_TYPE | R_ANY_TYPE | R_SEQUENCE_TYPE | R_STRING_TYPE | R_WIDE_STRING_TYPE | R_FIXED_PT_TYPE | R_FIXED_PT_CONST_TYPE | R_STRING_SIZE | R_WSTRING_SIZE | R_COLLECTION_SIZE | R_STRUCT_DEF | R_INHERITANCE | R_STRUCT_FORWARD_DCL | R_UNION_DEF | R_CASE_LABEL | R_UNION_FORWARD_DCL | R_ENUM_DCL | R_FIXED_ARRAY_SIZE | R_NATIVE_DCL | R_TYPEDEF_DLC | R_ANY_DECLARATORS | R_MAP_TYPE | R_BITSET_DCL | R_BITFIELD_SPEC | R_BITMASK_DCL | R_ANNOTATION_HEADER | R_ANY_CONST_TYPE | R_UNARY_OP => 5
  | R_UNARY_EXPR | R_SIGNED_INT | R_UNSIGNED_INT | R_TEMPLATE_TYPE_SPEC | R_SEQUENCE_SIZE | R_STRUCT_DCL | R_UNION_DCL | R_CASE | R_MAP_SIZE | R_BITFIELD | R_ANNOTATION_DCL => 6
  | R_MULT_EXPR | R_INTEGER_TYPE | R_CONSTR_TYPE_DLC | R_SWITCH_BODY => 7
  | R_CONST_TYPE | R_ADD_EXPR | R_TYPE_DCL | R_BASE_TYPE_SPEC | R_SWITCH_TYPE_SPEC | R_DESTINATION_TYPE => 8
  | R_DEFINITION | R_SHIFT_EXPR | R_SIMPLE_TYPE_SPEC | R_ANNOTATION_MEMBER_TYPE => 9
  | R_SPECIFICATION | R_AND_EXPR | R_TYPE_SPEC | R_TYPE_DECLARATOR | R_ANNOTATION_MEMBER => 10
  | R_DOCUMENT | R_XOR_EXPR | R_SEQUENCE_INNER_TYPE | R_MEMBER | R_ELEMENT_SPEC | R_MAP_INNER_TYPE | R_MAP_KEY_TYPE | R_ANNOTATION_BODY => 11
  | R_CONST_EXPR => 12
  | R_ANNOTATION_APPL_PARAM => 13
  | R_ANNOTATION_APPL_PARAMS => 14
  | _ => 0
  end.
Lemma rank_ok : forall r, forallb (fun q => Nat.ltb (rank q) (rank r)) (left_rules (gram r)) = true.
Proof. destruct r; reflexivity. Qed.

Lemma append_nil : forall a b : string, a ++ b = "" -> a = "" /\ b = "".
Proof. intros [|x a] b H; [auto|discriminate H]. Qed.
Lemma peg_consumes : forall n e s ns ts r, peg n e s = Some (Yes "" ns ts r) -> empty_exp e = true.
Proof.
  induction n as [|n IH]; intros e s ns ts r H; [discriminate H|].
  rewrite peg_eq in H.
  destruct e as [|l|l| |q|a b|a b|e|e|e|e|e|e]; cbn [empty_exp]; try reflexivity.
  - destruct (after l s) as [r'|]; [|discriminate H]. injection H as -> _ _ _. reflexivity.
  - destruct s as [|k s]; [discriminate H|]. destruct (in_class k l); discriminate H.
  - destruct s as [|k s]; discriminate H.
  - rewrite <- may_be_empty_ok.
    destruct (peg n (gram q) s) as [[|c1 n1 t1 s1]|] eqn:E; [discriminate H| |discriminate H].
    injection H as -> _ _ _. eapply IH, E.
  - destruct (peg n a s) as [[|c1 n1 t1 s1]|] eqn:E; [discriminate H| |discriminate H].
    destruct (peg n b s1) as [[|c2 n2 t2 s2]|] eqn:E2; [discriminate H| |discriminate H].
    injection H as Hc _ _ _. apply append_nil in Hc as [-> ->].
    rewrite (IH _ _ _ _ _ E), (IH _ _ _ _ _ E2). reflexivity.
  - destruct (peg n a s) as [[|c1 n1 t1 s1]|] eqn:E; [| |discriminate H].
    + rewrite (IH _ _ _ _ _ H). apply orb_true_r.
    + injection H as -> _ _ _. rewrite (IH _ _ _ _ _ E). reflexivity.
  - pose proof (IH _ _ _ _ _ H) as H'. cbn [empty_exp] in H'. rewrite andb_true_r in H'. exact H'.
  - destruct (peg n e s) as [[|c1 n1 t1 s1]|] eqn:E; [discriminate H| |discriminate H].
    injection H as -> _ _ _. eapply IH, E.
  - destruct (peg n e s) as [[|c1 n1 t1 s1]|] eqn:E; [discriminate H| |discriminate H].
    injection H as -> _ _ _. eapply IH, E.
Qed.

Definition ends (e : exp rule) (s : string) : Prop := exists n o, peg n e s = Some o.
Definition below (k : nat) (e : exp rule) : Prop := forall q, In q (left_rules e) -> (rank q < k)%nat.

Lemma max_l : forall n m e s o, peg n e s = Some o -> peg (n + m) e s = Some o.
Proof. intros n m e s o; apply peg_mono; lia. Qed.
Lemma max_r : forall n m e s o, peg m e s = Some o -> peg (n + m) e s = Some o.
Proof. intros n m e s o; apply peg_mono; lia. Qed.

Lemma ends_below : forall len,
  (forall e s, (String.length s < len)%nat -> stars_consume e = true -> ends e s) ->
  forall k e s, String.length s = len -> stars_consume e = true -> below k e -> ends e s.
Proof.
  intros len IHl k; induction k as [k IHk] using lt_wf_ind.
  induction e as [|l|l| |q|a IHa b IHb|a IHa b IHb|e IHe|e IHe|e IHe|e IHe|e IHe|e IHe]; intros s Hs Hw Hk.
  - exists 1%nat, (Yes "" [] [] s); reflexivity.
  - exists 1%nat; rewrite peg_eq. destruct (after l s); eauto.
  - exists 1%nat; rewrite peg_eq. destruct s as [|c s]; [eauto|]. destruct (in_class c l); eauto.
  - exists 1%nat; rewrite peg_eq. destruct s as [|c s]; eauto.
  - assert (Hq : (rank q < k)%nat) by (apply Hk; left; reflexivity).
    destruct (IHk (rank q) Hq (gram q) s Hs (gram_stars q)) as (n & o & E).
    { intros x Hx. pose proof (rank_ok q) as R. rewrite forallb_forall in R. apply Nat.ltb_lt, R, Hx. }
    exists (S n); rewrite peg_eq, E. destruct o; eauto.
  - cbn [stars_consume] in Hw. apply andb_true_iff in Hw as [Wa Wb].
    assert (Ka : below k a) by (intros x Hx; apply Hk; cbn [left_rules]; apply in_or_app; left; exact Hx).
    destruct (IHa s Hs Wa Ka) as (n & o & E).
    destruct o as [|c ns ts s1]; [exists (S n); rewrite peg_eq, E; eauto|].
    assert (ends b s1) as (m & o & E2).
    { pose proof (peg_split _ _ _ _ _ _ _ E) as Es.
      destruct c as [|ch c].
      - apply peg_consumes in E as He. cbn in Es; subst s1. apply IHb; [exact Hs|exact Wb|].
        intros x Hx; apply Hk; cbn [left_rules]. rewrite He. apply in_or_app; right; exact Hx.
      - apply IHl; [|exact Wb]. rewrite <- Hs, Es, str_app_length. cbn; lia. }
    exists (S (n + m)); rewrite peg_eq, (max_l _ m _ _ _ E), (max_r n _ _ _ _ E2). destruct o; eauto.
  - cbn [stars_consume] in Hw. apply andb_true_iff in Hw as [Wa Wb].
    destruct (IHa s Hs Wa) as (n & o & E); [intros x Hx; apply Hk; cbn [left_rules]; apply in_or_app; left; exact Hx|].
    destruct (IHb s Hs Wb) as (m & o' & E2); [intros x Hx; apply Hk; cbn [left_rules]; apply in_or_app; right; exact Hx|].
    exists (S (n + m)); rewrite peg_eq, (max_l _ m _ _ _ E), (max_r n _ _ _ _ E2). destruct o; eauto.
  - pose proof Hw as Hw0. cbn [stars_consume] in Hw. apply andb_true_iff in Hw as [Wn We]. apply negb_true_iff in Wn.
    destruct (IHe s Hs We Hk) as (n & o & E).
    destruct o as [|c ns ts s1]; [exists (S n); rewrite peg_eq, E; eauto|].
    pose proof (peg_split _ _ _ _ _ _ _ E) as Es.
    destruct c as [|ch c]; [apply peg_consumes in E; congruence|].
    destruct (IHl (Star e) s1) as (m & o & E2); [rewrite <- Hs, Es, str_app_length; cbn; lia|exact Hw0|].
    exists (S (n + m)); rewrite peg_eq, (max_l _ m _ _ _ E), (max_r n _ _ _ _ E2). destruct o; eauto.
  - pose proof Hw as Hw0. cbn [stars_consume] in Hw. apply andb_true_iff in Hw as [Wn We]. apply negb_true_iff in Wn.
    destruct (IHe s Hs We Hk) as (n & o & E).
    destruct o as [|c ns ts s1]; [exists (S (S n)); rewrite !peg_eq, E; eauto|].
    pose proof (peg_split _ _ _ _ _ _ _ E) as Es.
    destruct c as [|ch c]; [apply peg_consumes in E; congruence|].
    destruct (IHl (Star e) s1) as (m & o & E2); [rewrite <- Hs, Es, str_app_length; cbn; lia|exact Hw0|].
    exists (S (S (n + m))); rewrite !peg_eq, (max_l _ m _ _ _ E), (max_r n _ _ _ _ E2). destruct o; eauto.
  - destruct (IHe s Hs Hw Hk) as (n & o & E). exists (S n); rewrite peg_eq, E. destruct o; eauto.
  - destruct (IHe s Hs Hw Hk) as (n & o & E). exists (S n); rewrite peg_eq, E. destruct o; eauto.
  - destruct (IHe s Hs Hw Hk) as (n & o & E). exists (S n); rewrite peg_eq, E. destruct o; eauto.
  - destruct (IHe s Hs Hw Hk) as (n & o & E). exists (S n); rewrite peg_eq, E. destruct o; eauto.
Qed.

(** Matching any expression of the grammar against any text ends. *)
Lemma peg_ends : forall e s, stars_consume e = true -> ends e s.
Proof.
  intros e s; remember (String.length s) as len eqn:Hl. revert e s Hl.
  induction len as [len IH] using lt_wf_ind. intros e s Hl Hw.
  apply (ends_below len) with (k := S (list_max (map rank (left_rules e)))); [|congruence|exact Hw|].
  - intros e' s' Hs' Hw'. apply (IH _ Hs'); [reflexivity|exact Hw'].
  - intros q Hq. apply Nat.lt_succ_r.
    apply (proj1 (Forall_forall _ _) (proj1 (list_max_le (map rank (left_rules e)) _) (le_n _))). apply in_map, Hq.
Qed.
Lemma rule_ends : forall r s, exists n0 o, forall n, (n0 <= n)%nat -> peg n (Ref r) s = Some o.
Proof.
  intros r s. destruct (peg_ends (Ref r) s eq_refl) as (n & o & E). exists n, o. intros m Hm. eapply peg_mono; eassumption.
Qed.
