(** Rules to derive the outcome of matching, without fuel. *)
From Verif Require Import Base Peg0 Grammar Peg PegFacts ModuleFacts IdlLitFacts.
Local Open Scope string_scope.

(** [e] matches a prefix of [s] with these nodes and tokens and leaves [r]. *)
Definition ok (e : exp rule) (s : string) (ns : list ast) (ts : list string) (r : string) : Prop := exists n c, peg n e s = Some (Yes c ns ts r).
(** [e] does not match at the beginning of [s]. *)
Definition no (e : exp rule) (s : string) : Prop := exists n, peg n e s = Some No.

Lemma ok_at : forall n e s c ns ts r, peg n e s = Some (Yes c ns ts r) -> ok e s ns ts r.
Proof. intros n e s c ns ts r H; exists n, c; exact H. Qed.
Lemma no_at : forall n e s, peg n e s = Some No -> no e s.
Proof. intros n e s H; exists n; exact H. Qed.
Lemma ok_eps : forall s, ok Eps s [] [] s.
Proof. intros; eapply (ok_at 1); reflexivity. Qed.
Lemma ok_lit : forall l s r, after l s = Some r -> ok (Lit l) s [] [] r.
Proof. intros l s r H; eapply (ok_at 1); rewrite peg_eq, H; reflexivity. Qed.
Lemma no_lit : forall l s, after l s = None -> no (Lit l) s.
Proof. intros l s H; apply (no_at 1); rewrite peg_eq, H; reflexivity. Qed.
Lemma ok_cls : forall l c r, in_class c l = true -> ok (Cls l) (String c r) [] [] r.
Proof. intros l c r H; eapply (ok_at 1); rewrite peg_eq, H; reflexivity. Qed.
Lemma no_cls : forall l s, (forall c r, s = String c r -> in_class c l = false) -> no (Cls l) s.
Proof. intros l s H; apply (no_at 1); rewrite peg_eq. destruct s as [|c r]; [reflexivity|]. rewrite (H c r eq_refl); reflexivity. Qed.
Lemma ok_any : forall c r, ok Any (String c r) [] [] r.
Proof. intros; eapply (ok_at 1); reflexivity. Qed.
Lemma ok_seq : forall a b s ns ts r ns' ts' r', ok a s ns ts r -> ok b r ns' ts' r' -> ok (Seq a b) s (ns ++ ns')%list (ts ++ ts')%list r'.
Proof.
  intros a b s ns ts r ns' ts' r' (n & c & H) (m & c' & H'). exists (S (n + m)), (c ++ c').
  rewrite peg_eq, (max_l _ m _ _ _ H), (max_r n _ _ _ _ H'). reflexivity.
Qed.
Lemma no_seq_l : forall a b s, no a s -> no (Seq a b) s.
Proof. intros a b s (n & H). exists (S n). rewrite peg_eq, H. reflexivity. Qed.
Lemma no_seq_r : forall a b s ns ts r, ok a s ns ts r -> no b r -> no (Seq a b) s.
Proof.
  intros a b s ns ts r (n & c & H) (m & H'). exists (S (n + m)). rewrite peg_eq, (max_l _ m _ _ _ H), (max_r n _ _ _ _ H'). reflexivity.
Qed.
Lemma ok_alt_l : forall a b s ns ts r, ok a s ns ts r -> ok (Alt a b) s ns ts r.
Proof. intros a b s ns ts r (n & c & H). exists (S n), c. rewrite peg_eq, H. reflexivity. Qed.
Lemma ok_alt_r : forall a b s ns ts r, no a s -> ok b s ns ts r -> ok (Alt a b) s ns ts r.
Proof.
  intros a b s ns ts r (n & H) (m & c & H'). exists (S (n + m)), c. rewrite peg_eq, (max_l _ m _ _ _ H), (max_r n _ _ _ _ H'). reflexivity.
Qed.
Lemma no_alt : forall a b s, no a s -> no b s -> no (Alt a b) s.
Proof. intros a b s (n & H) (m & H'). exists (S (n + m)). rewrite peg_eq, (max_l _ m _ _ _ H), (max_r n _ _ _ _ H'). reflexivity. Qed.
Lemma ok_star_end : forall e s, no e s -> ok (Star e) s [] [] s.
Proof. intros e s (n & H). exists (S n), "". rewrite peg_eq, H. reflexivity. Qed.
Lemma ok_star_more : forall e s ns ts r ns' ts' r', ok e s ns ts r -> ok (Star e) r ns' ts' r' -> ok (Star e) s (ns ++ ns')%list (ts ++ ts')%list r'.
Proof.
  intros e s ns ts r ns' ts' r' (n & c & H) (m & c' & H'). exists (S (n + m)), (c ++ c').
  rewrite peg_eq, (max_l _ m _ _ _ H), (max_r n _ _ _ _ H'). reflexivity.
Qed.
Lemma ok_plus : forall e s ns ts r ns' ts' r', ok e s ns ts r -> ok (Star e) r ns' ts' r' -> ok (Plus e) s (ns ++ ns')%list (ts ++ ts')%list r'.
Proof. intros e s ns ts r ns' ts' r' H H'. destruct (ok_seq _ _ _ _ _ _ _ _ _ H H') as (n & c & E). exists (S n), c. rewrite peg_eq; exact E. Qed.
Lemma no_plus : forall e s, no e s -> no (Plus e) s.
Proof. intros e s H. destruct (no_seq_l e (Star e) s H) as (n & E). exists (S n). rewrite peg_eq; exact E. Qed.
Lemma ok_opt_some : forall e s ns ts r, ok e s ns ts r -> ok (Opt e) s ns ts r.
Proof. intros e s ns ts r (n & c & H). exists (S n), c. rewrite peg_eq, H. reflexivity. Qed.
Lemma ok_opt_none : forall e s, no e s -> ok (Opt e) s [] [] s.
Proof. intros e s (n & H). exists (S n), "". rewrite peg_eq, H. reflexivity. Qed.
Lemma ok_not : forall e s, no e s -> ok (Not e) s [] [] s.
Proof. intros e s (n & H). exists (S n), "". rewrite peg_eq, H. reflexivity. Qed.
Lemma no_not : forall e s ns ts r, ok e s ns ts r -> no (Not e) s.
Proof. intros e s ns ts r (n & c & H). exists (S n). rewrite peg_eq, H. reflexivity. Qed.
Lemma ok_ign : forall e s ns ts r, ok e s ns ts r -> ok (Ign e) s [] [] r.
Proof. intros e s ns ts r (n & c & H). exists (S n), c. rewrite peg_eq, H. reflexivity. Qed.
Lemma no_ign : forall e s, no e s -> no (Ign e) s.
Proof. intros e s (n & H). exists (S n). rewrite peg_eq, H. reflexivity. Qed.
Lemma no_tok : forall e s, no e s -> no (Tok e) s.
Proof. intros e s (n & H). exists (S n). rewrite peg_eq, H. reflexivity. Qed.
Lemma no_ref : forall q s, no (gram q) s -> no (Ref q) s.
Proof. intros q s (n & H). exists (S n). rewrite peg_eq, H. reflexivity. Qed.

Lemma app_cancel : forall a b r : string, a ++ r = b ++ r -> a = b.
Proof.
  assert (L : forall a b r : string, a ++ r = b ++ r -> String.length a = String.length b).
  { intros a b r H. apply (f_equal String.length) in H. rewrite !str_app_length in H. lia. }
  induction a as [|x a IH]; intros b r H; pose proof (L _ _ _ H) as Hl; destruct b as [|y b]; try discriminate Hl; [reflexivity|].
  cbn in H. injection H as -> H. f_equal. eapply IH, H.
Qed.
(** The text of a token is what was consumed. *)
Lemma ok_tok : forall e x ns ts r, ok e (x ++ r) ns ts r -> ok (Tok e) (x ++ r) ns (x :: ts) r.
Proof.
  intros e x ns ts r (n & c & H). pose proof (peg_split _ _ _ _ _ _ _ H) as Hs. apply app_cancel in Hs. subst c.
  exists (S n), x. rewrite peg_eq, H. reflexivity.
Qed.
Lemma ok_ref_node : forall q s ns ts r, ok (gram q) s ns ts r -> ignored q = false -> is_token_rule q = false -> ok (Ref q) s [Ast q q "" ns] [] r.
Proof. intros q s ns ts r (n & c & H) I T. exists (S n), c. rewrite peg_eq, H. unfold node_of. rewrite I, T. reflexivity. Qed.
Lemma ok_ref_ignored : forall q s ns ts r, ok (gram q) s ns ts r -> ignored q = true -> ok (Ref q) s [] [] r.
Proof. intros q s ns ts r (n & c & H) I. exists (S n), c. rewrite peg_eq, H. unfold node_of. rewrite I. reflexivity. Qed.
Lemma ok_ref_token : forall q s ns t ts r, ok (gram q) s ns (t :: ts) r -> ignored q = false -> is_token_rule q = true -> ok (Ref q) s [Ast q q t []] [] r.
Proof. intros q s ns t ts r (n & c & H) I T. exists (S n), c. rewrite peg_eq, H. unfold node_of. rewrite I, T. reflexivity. Qed.
Lemma ok_ref_text : forall q x ns r, ok (gram q) (x ++ r) ns [] r -> ignored q = false -> is_token_rule q = true -> ok (Ref q) (x ++ r) [Ast q q x []] [] r.
Proof.
  intros q x ns r (n & c & H) I T. pose proof (peg_split _ _ _ _ _ _ _ H) as Hs. apply app_cancel in Hs. subst c.
  exists (S n), x. rewrite peg_eq, H. unfold node_of. rewrite I, T. reflexivity.
Qed.

(** *** Spaces, identifiers, keywords, punctuation *)
Definition is_ws (c : ascii) : bool := in_class c [(" ", " "); ("009", "009"); ("013", "013"); ("010", "010")]%char.
Fixpoint all_chars (P : ascii -> bool) (s : string) : bool := match s with EmptyString => true | String c r => P c && all_chars P r end.
Definition first_is (P : ascii -> bool) (s : string) : bool := match s with EmptyString => false | String c _ => P c end.
(** No space and no comment begins here. *)
Definition solid (s : string) : Prop := first_is (fun c => is_ws c || Ascii.eqb c "/") s = false.
Definition id_first (c : ascii) : bool := in_class c [("a", "z"); ("A", "Z"); ("_", "_")]%char.
Definition id_char (c : ascii) : bool := in_class c [("0", "9"); ("a", "z"); ("A", "Z"); ("_", "_")]%char.
(** An IDL identifier. *)
Definition is_ident (x : string) : bool := first_is id_first x && all_chars id_char x.

Lemma all_ascii : forall P : ascii -> bool, forallb P (map ascii_of_nat (seq 0 256)) = true -> forall c, P c = true.
Proof.
  intros P H c. rewrite forallb_forall in H. apply H. apply in_map_iff. exists (nat_of_ascii c). split; [apply ascii_nat_embedding|].
  apply in_seq. pose proof (nat_ascii_bounded c). lia.
Qed.
Lemma id_first_char : forall c, id_first c = true -> id_char c = true.
Proof. intros c H. pose proof (all_ascii (fun c => implb (id_first c) (id_char c)) eq_refl c) as K. cbv beta in K. rewrite H in K. exact K. Qed.
Lemma id_char_solid : forall c, id_char c = true -> is_ws c || Ascii.eqb c "/" = false.
Proof. intros c H. pose proof (all_ascii (fun c => implb (id_char c) (negb (is_ws c || Ascii.eqb c "/"))) eq_refl c) as K. cbv beta in K. rewrite H in K. apply negb_true_iff in K. exact K. Qed.
Lemma ident_solid : forall x s, is_ident x = true -> solid (x ++ s).
Proof. intros [|c x] s H; [discriminate H|]. apply andb_true_iff in H as [H _]. apply id_char_solid, id_first_char, H. Qed.

Lemma solid_char : forall c s, solid (String c s) -> is_ws c = false /\ Ascii.eqb c "/" = false.
Proof. intros c s H. change (is_ws c || Ascii.eqb c "/" = false) in H. destruct (is_ws c); [discriminate H|]. split; [reflexivity|exact H]. Qed.
(** A run of characters of a class. *)
Lemma star_class : forall l s r, all_chars (fun c => in_class c l) s = true -> first_is (fun c => in_class c l) r = false -> ok (Star (Cls l)) (s ++ r) [] [] r.
Proof.
  intros l s r Hs Hr. induction s as [|c s IH].
  - apply ok_star_end, no_cls. intros c q E. subst r. exact Hr.
  - cbn [all_chars] in Hs. apply andb_true_iff in Hs as [Hc Hs]. exact (ok_star_more _ _ [] [] _ [] [] _ (ok_cls l c (s ++ r) Hc) (IH Hs)).
Qed.
Lemma solid_no_comment : forall s, solid s -> no (Lit "//") s /\ no (Lit "/*") s.
Proof.
  intros [|c s] H; [split; apply no_lit; reflexivity|].
  assert (E : Ascii.eqb "/" c = false).
  { apply solid_char in H as [_ H]. rewrite Ascii.eqb_sym; exact H. }
  split; apply no_lit; cbn [after]; rewrite E; reflexivity.
Qed.
(** Spaces and line ends before a solid text: [ \n]* of the comment rules takes a part of them. *)
Lemma sp_nl_split : forall w s, all_chars is_ws w = true -> solid s -> exists w1 w2, w = w1 ++ w2 /\
  ok (Star (Cls [(" ", " "); ("010", "010")]%char)) (w ++ s) [] [] (w2 ++ s) /\ no (Lit "//") (w2 ++ s) /\ no (Lit "/*") (w2 ++ s).
Proof.
  intros w s. induction w as [|c w IH]; intros Hw Hs.
  - exists "", "". split; [reflexivity|]. cbn [append]. split; [|apply solid_no_comment, Hs].
    apply ok_star_end, no_cls. intros c r ->. apply solid_char in Hs as [Hs _].
    pose proof (all_ascii (fun c => implb (in_class c [(" ", " "); ("010", "010")]%char) (is_ws c)) eq_refl c) as K. cbv beta in K. rewrite Hs in K.
    destruct (in_class c [(" "%char, " "%char); ("010"%char, "010"%char)]); [discriminate K|reflexivity].
  - cbn [all_chars] in Hw. apply andb_true_iff in Hw as [Hc Hw]. destruct (in_class c [(" ", " "); ("010", "010")]%char) eqn:E.
    + destruct (IH Hw Hs) as (w1 & w2 & -> & H & N). exists (String c w1), w2. split; [reflexivity|]. split; [|exact N].
      exact (ok_star_more _ _ [] [] _ [] [] _ (ok_cls _ c _ E) H).
    + exists "", (String c w). split; [reflexivity|]. split.
      * apply ok_star_end, no_cls. intros c' r H. cbn in H. injection H as <- _. exact E.
      * assert (K : Ascii.eqb "/" c = false).
        { pose proof (all_ascii (fun c => implb (is_ws c) (negb (Ascii.eqb "/" c))) eq_refl c) as K. cbv beta in K. rewrite Hc in K. apply negb_true_iff in K; exact K. }
        split; apply no_lit; cbn [after append]; rewrite K; reflexivity.
Qed.
Lemma no_comment : forall w s, all_chars is_ws w = true -> solid s -> no (Ref R_COMMENT) (w ++ s).
Proof.
  intros w s Hw Hs. destruct (sp_nl_split w s Hw Hs) as (w1 & w2 & -> & H & N1 & N2). apply no_ref. cbn [gram].
  apply no_alt; apply no_ref; cbn [gram]; (eapply no_seq_r; [exact H|]); apply no_seq_l, no_ref; cbn [gram]; apply no_tok; assumption.
Qed.
(** WS? takes all the spaces. *)
Lemma opt_ws : forall w s, all_chars is_ws w = true -> solid s -> ok (Opt (Ref R_WS)) (w ++ s) [] [] s.
Proof.
  intros w s Hw Hs. assert (F : first_is is_ws s = false) by (destruct s as [|c s]; [reflexivity|]; apply solid_char in Hs as [Hs _]; exact Hs).
  pose proof (no_comment w s Hw Hs) as NC. destruct w as [|c w].
  - apply ok_opt_none, no_ref. cbn [gram]. apply no_alt; [exact NC|]. apply no_plus, no_cls. intros c r E. cbn in E; subst s. exact F.
  - cbn [all_chars] in Hw. apply andb_true_iff in Hw as [Hc Hw]. apply ok_opt_some. eapply ok_ref_ignored; [|reflexivity]. cbn [gram]. apply ok_alt_r; [exact NC|].
    exact (ok_plus _ _ [] [] _ [] [] _ (ok_cls _ c (w ++ s) Hc) (star_class _ w s Hw F)).
Qed.
Lemma opt_ws0 : forall s, solid s -> ok (Opt (Ref R_WS)) s [] [] s.
Proof. intros s H. exact (opt_ws "" s eq_refl H). Qed.

(** Identifiers. *)
Lemma ok_ident_exp : forall x s, is_ident x = true -> first_is id_char s = false -> ok (gram R_IDENTIFIER) (x ++ s) [] [] s.
Proof.
  intros [|c x] s H F; [discriminate H|]. apply andb_true_iff in H as [Hc H]. cbn in H. apply andb_true_iff in H as [_ H].
  cbn [gram append]. exact (ok_seq _ _ _ [] [] _ [] [] _ (ok_cls _ c (x ++ s) Hc) (star_class _ x s H F)).
Qed.
Lemma ok_ident : forall x s, is_ident x = true -> first_is id_char s = false -> ok (Ref R_IDENTIFIER) (x ++ s) [Ast R_IDENTIFIER R_IDENTIFIER x []] [] s.
Proof. intros x s H F. eapply ok_ref_text; [apply ok_ident_exp; eassumption|reflexivity|reflexivity]. Qed.
Lemma no_ident : forall s, first_is id_first s = false -> no (Ref R_IDENTIFIER) s.
Proof. intros s H. apply no_ref. cbn [gram]. apply no_seq_l, no_cls. intros c r ->. exact H. Qed.
Lemma end_kw : forall s, first_is id_first s = false -> ok (Ref R_END_KW) s [] [] s.
Proof. intros s H. eapply ok_ref_ignored; [|reflexivity]. cbn [gram]. apply ok_not, no_ident, H. Qed.

(** A keyword rule: spaces, the keyword, no letter, spaces. *)
Definition keyword (q : rule) (k : string) : Prop := gram q = Seq (Opt (Ref R_WS)) (Seq (Tok (Lit k)) (Seq (Ref R_END_KW) (Opt (Ref R_WS)))) /\ ignored q = true /\ is_ident k = true.
Lemma after_self : forall l r, after l (l ++ r) = Some r.
Proof. induction l as [|a l IH]; intros r; [reflexivity|]. cbn. rewrite Ascii.eqb_refl. apply IH. Qed.
Lemma ok_keyword : forall q k w w' s, keyword q k -> all_chars is_ws w = true -> all_chars is_ws w' = true -> solid s -> first_is id_first (w' ++ s) = false ->
  ok (Ref q) (w ++ k ++ w' ++ s) [] [] s.
Proof.
  intros q k w w' s (G & I & K) Hw Hw' Hs F. eapply ok_ref_ignored; [|exact I]. rewrite G.
  refine (ok_seq _ _ _ [] [] _ [] _ _ (opt_ws w _ Hw (ident_solid k _ K)) _).
  refine (ok_seq _ _ _ [] _ _ [] [] _ (ok_tok _ k [] [] _ (ok_lit k _ _ (after_self k _))) _).
  exact (ok_seq _ _ _ [] [] _ [] [] _ (end_kw _ F) (opt_ws w' s Hw' Hs)).
Qed.
(** An identifier that is not the keyword, nor the keyword followed by a digit, is not taken for the keyword. *)
Definition clash (k x : string) : bool := match after k x with Some r => negb (first_is id_first r) | None => false end.
Lemma after_prefix : forall k x s, all_chars id_char k = true -> first_is id_char s = false -> after k (x ++ s) = match after k x with Some r => Some (r ++ s) | None => None end.
Proof.
  induction k as [|a k IH]; intros x s Hk F; [reflexivity|]. cbn [all_chars] in Hk. apply andb_true_iff in Hk as [Ha Hk].
  destruct x as [|b x]; cbn [append after].
  - destruct s as [|b s]; [reflexivity|]. destruct (Ascii.eqb a b) eqn:E; [|reflexivity]. apply Ascii.eqb_eq in E; subst b. cbn [first_is] in F. congruence.
  - destruct (Ascii.eqb a b); [apply IH; assumption|reflexivity].
Qed.
Lemma no_keyword : forall q k w x s, keyword q k -> all_chars is_ws w = true -> is_ident x = true -> first_is id_char s = false -> clash k x = false -> no (Ref q) (w ++ x ++ s).
Proof.
  intros q k w x s (G & I & K) Hw Hx F C. apply no_ref. rewrite G. eapply no_seq_r; [apply (opt_ws w _ Hw), ident_solid, Hx|].
  apply andb_true_iff in K as [K1 K2]. unfold clash in C. destruct (after k x) as [r|] eqn:E.
  - apply negb_false_iff in C. eapply no_seq_r.
    + rewrite (after_app _ _ _ E), app_assoc_s. apply ok_tok, ok_lit, after_self.
    + apply no_seq_l, no_ref. cbn [gram]. destruct r as [|c r]; [discriminate C|]. cbn [first_is] in C.
      eapply no_not. eapply (ok_ident (String c r) s); [|exact F]. unfold is_ident. cbn [first_is]. rewrite C. cbn [andb].
      apply andb_true_iff in Hx as [_ Hx]. rewrite (after_app _ _ _ E) in Hx. clear - Hx. revert Hx. induction k as [|a k IH]; [auto|]. cbn [append all_chars]. intros H. apply andb_true_iff in H as [_ H]. auto.
  - apply no_seq_l, no_tok, no_lit. rewrite after_prefix, E; [reflexivity|exact K2|exact F].
Qed.
(** A keyword rule does not match other characters. *)
Lemma no_keyword_char : forall q k w s, keyword q k -> all_chars is_ws w = true -> solid s -> first_is id_first s = false -> no (Ref q) (w ++ s).
Proof.
  intros q k w s (G & I & K) Hw Hs F. apply no_ref. rewrite G. eapply no_seq_r; [apply (opt_ws w _ Hw Hs)|].
  apply no_seq_l, no_tok, no_lit. destruct k as [|a k]; [discriminate K|]. apply andb_true_iff in K as [K _]. destruct s as [|c s]; [reflexivity|].
  cbn [after]. destruct (Ascii.eqb a c) eqn:E; [|reflexivity]. apply Ascii.eqb_eq in E; subst c. cbn [first_is] in *; congruence.
Qed.

(** Punctuation: spaces, the character, spaces. *)
Definition punct (q : rule) (c : ascii) : Prop := gram q = Seq (Opt (Ref R_WS)) (Seq (Tok (Lit (String c ""))) (Opt (Ref R_WS))) /\ solid (String c "").
Lemma ok_punct_exp : forall q c w w' s, punct q c -> all_chars is_ws w = true -> all_chars is_ws w' = true -> solid s ->
  ok (gram q) (w ++ String c (w' ++ s)) [] [String c ""] s.
Proof.
  intros q c w w' s (G & C) Hw Hw' Hs. rewrite G.
  refine (ok_seq _ _ _ [] [] _ [] _ _ (opt_ws w (String c (w' ++ s)) Hw C) _).
  refine (ok_seq _ _ _ [] _ _ [] [] _ (ok_tok _ (String c "") [] [] _ (ok_lit _ _ _ (after_self (String c "") _))) (opt_ws w' s Hw' Hs)).
Qed.
Lemma ok_punct : forall q c w w' s, punct q c -> ignored q = true -> all_chars is_ws w = true -> all_chars is_ws w' = true -> solid s ->
  ok (Ref q) (w ++ String c (w' ++ s)) [] [] s.
Proof. intros q c w w' s P I Hw Hw' Hs. eapply ok_ref_ignored; [eapply ok_punct_exp; eassumption|exact I]. Qed.
Lemma no_punct : forall q c w s, punct q c -> all_chars is_ws w = true -> solid s -> first_is (Ascii.eqb c) s = false -> no (Ref q) (w ++ s).
Proof.
  intros q c w s (G & C) Hw Hs F. apply no_ref. rewrite G. eapply no_seq_r; [apply (opt_ws w _ Hw Hs)|].
  apply no_seq_l, no_tok, no_lit. destruct s as [|d s]; [reflexivity|]. cbn [first_is] in F. cbn [after]. rewrite F. reflexivity.
Qed.
