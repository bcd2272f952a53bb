(** WS? takes the blanks and comments of a gap. *)
From Verif Require Import Base Peg0 Grammar Peg PegFacts PegRules IdlLitFacts TypeText.
From Verif Require Import GapSpec.
Local Open Scope string_scope.

Lemma space_line_ws : forall c, space_or_line c = true -> is_ws c = true.
Proof. intros c H. pose proof (all_ascii (fun c => implb (space_or_line c) (is_ws c)) eq_refl c) as K. cbv beta in K. rewrite H in K. exact K. Qed.
(** The characters of a line. *)
Lemma no_eol : forall c s, in_class c [("013", "013"); ("010", "010")]%char = false -> no (Ref R_EOL) (String c s).
Proof.
  intros c s H. assert (C : Ascii.eqb "013" c = false /\ Ascii.eqb "010" c = false).
  { pose proof (all_ascii (fun c => implb (negb (in_class c [("013", "013"); ("010", "010")]%char)) (negb (Ascii.eqb "013" c) && negb (Ascii.eqb "010" c))) eq_refl c) as K. cbv beta in K. rewrite H in K.
    apply andb_true_iff in K as [A B]. split; apply negb_true_iff; assumption. }
  destruct C as [C1 C2]. apply no_ref. cbn [gram]. repeat apply no_alt.
  - apply no_lit. unfold CR, NL. cbn [append after]. rewrite C1. reflexivity.
  - apply no_lit. unfold NL. cbn [after]. rewrite C2. reflexivity.
  - apply no_lit. unfold CR. cbn [after]. rewrite C1. reflexivity.
  - eapply no_not, ok_any.
Qed.
(** A rule that is no token: the text is taken, whatever the node. *)
Lemma ref_takes : forall q s ns ts r, is_token_rule q = false -> ok (gram q) s ns ts r -> exists ns', ok (Ref q) s ns' [] r.
Proof. intros q s ns ts r T H. destruct (ignored q) eqn:I; eexists; [exact (ok_ref_ignored q s ns ts r H I)|exact (ok_ref_node q s ns ts r H I T)]. Qed.
Lemma eol_ok : forall e s, e = NL \/ e = String "013" NL -> exists ns, ok (Ref R_EOL) (e ++ s) ns [] s.
Proof.
  intros e s [->| ->].
  - exists [Ast R_EOL R_EOL NL []]. apply (ok_ref_text R_EOL NL [] s); [|reflexivity|reflexivity]. cbn [gram]. apply ok_alt_r; [apply no_lit; reflexivity|]. apply ok_alt_l, ok_lit. reflexivity.
  - exists [Ast R_EOL R_EOL (String "013" NL) []]. apply (ok_ref_text R_EOL (String "013" NL) [] s); [|reflexivity|reflexivity]. cbn [gram]. apply ok_alt_l, ok_lit. reflexivity.
Qed.
Lemma no_escape : forall c s, Ascii.eqb "\" c = false -> no (Ref R_NL_ESCAPE) (String c s).
Proof. intros c s H. apply no_ref. cbn [gram]. apply no_seq_l, no_lit. cbn [after]. rewrite H. reflexivity. Qed.
Lemma line_chars : forall t e s, all_chars on_the_line t = true -> unescaped t = true -> e = NL \/ e = String "013" NL ->
  ok (Star (Alt (Ref R_NL_ESCAPE) (Seq (Not (Ref R_EOL)) Any))) (t ++ e ++ s) [] [] (e ++ s).
Proof.
  intros t e s T Us E. induction t as [|c t IH].
  - cbn [append]. apply ok_star_end. apply no_alt; [destruct E as [->| ->]; apply no_escape; reflexivity|].
    apply no_seq_l. destruct (eol_ok e s E) as [z Z]. eapply no_not, Z.
  - cbn [all_chars] in T. apply andb_true_iff in T as [C T]. cbn [append]. assert (D : forall d, on_the_line d = true -> in_class d [("013", "013"); ("010", "010")]%char = false) by (intros d H; apply negb_true_iff, H).
    assert (X : no (Ref R_NL_ESCAPE) (String c (t ++ e ++ s)) /\ unescaped t = true).
    { destruct t as [|d t].
      - cbn [unescaped] in Us. apply negb_true_iff in Us. split; [|reflexivity]. apply no_escape. rewrite Ascii.eqb_sym. exact Us.
      - split; [|exact Us]. cbn [all_chars] in T. apply andb_true_iff in T as [Cd _]. destruct (Ascii.eqb "\" c) eqn:Q; [|apply no_escape, Q].
        apply Ascii.eqb_eq in Q. subst c. apply no_ref. cbn [gram]. eapply no_seq_r; [apply ok_lit, (after_self "\" _)|]. cbn [append]. apply no_eol, D, Cd. }
    destruct X as [X1 X2]. refine (ok_star_more _ _ [] [] _ [] [] _ (ok_alt_r _ _ _ _ _ _ X1 _) (IH T X2)).
    exact (ok_seq _ _ _ [] [] _ [] [] _ (ok_not _ _ (no_eol _ _ (D _ C))) (ok_any c _)).
Qed.
Lemma block_chars : forall t s, unclosed (t ++ "*") = true -> ok (Star (Seq (Not (Ref R_KW_CLOSE_BLOCK_COMMENT)) Any)) (t ++ "*/" ++ s) [] [] ("*/" ++ s).
Proof.
  intros t s. induction t as [|c t IH]; intros T.
  - apply ok_star_end, no_seq_l. eapply no_not. eapply ok_ref_ignored; [|reflexivity]. cbn [gram].
    exact (ok_tok _ "*/" [] [] _ (ok_lit _ _ _ (after_self "*/" s))).
  - cbn [append] in *. assert (N : no (Ref R_KW_CLOSE_BLOCK_COMMENT) (String c (t ++ "*/" ++ s)) /\ unclosed (t ++ "*") = true).
    { split.
      - apply no_ref. cbn [gram]. apply no_tok, no_lit. cbn [after]. destruct (Ascii.eqb_spec "*" c) as [<-|]; [|reflexivity].
        destruct t as [|d t]; [reflexivity|]. cbn [append]. destruct (Ascii.eqb_spec "/" d) as [<-|]; [discriminate T|reflexivity].
      - destruct c as [[] [] [] [] [] [] [] []]; try exact T. destruct t as [|d t]; [reflexivity|]. cbn [append] in *. destruct d as [[] [] [] [] [] [] [] []]; try exact T. discriminate T. }
    destruct N as [N T']. refine (ok_star_more _ _ [] [] _ [] [] _ _ (IH T')).
    exact (ok_seq _ _ _ [] [] _ [] [] _ (ok_not _ _ N) (ok_any c _)).
Qed.
(** A comment with the gap after it. *)
Lemma ws_comment : forall s ns ts r, ok (gram R_COMMENT) s ns ts r -> ok (Opt (Ref R_WS)) s [] [] r.
Proof.
  intros s ns ts r H. destruct (ref_takes R_COMMENT _ _ _ _ eq_refl H) as [z Z]. apply ok_opt_some. eapply ok_ref_ignored; [|reflexivity]. cbn [gram]. apply ok_alt_l, Z.
Qed.
Lemma opt_gap : forall w s, gap w -> solid s -> ok (Opt (Ref R_WS)) (w ++ s) [] [] s.
Proof.
  intros w s H S. induction H as [w W|b t e g B T Us E G IH|b t g B T G IH].
  - exact (opt_ws w s W S).
  - rewrite !app_assoc_s. destruct (eol_ok e (g ++ s) E) as [z Z].
    assert (L : ok (gram R_LINE_COMMENT) (b ++ "//" ++ t ++ e ++ g ++ s) z [] s).
    { cbn [gram]. refine (ok_seq _ _ _ [] [] _ z [] _ (star_class _ b ("//" ++ t ++ e ++ g ++ s) B eq_refl) _).
      refine (ok_seq _ _ _ [] [] _ z [] _ (ok_ref_ignored R_KW_LINE_COMMENT _ _ _ _ (ok_tok _ "//" [] [] _ (ok_lit _ _ _ (after_self "//" _))) eq_refl) _).
      refine (ok_seq _ _ _ [] [] _ z [] _ (line_chars t e _ T Us E) _). rewrite <- (app_nil_r z). exact (ok_seq _ _ _ z [] _ [] [] _ Z IH). }
    destruct (ref_takes R_LINE_COMMENT _ _ _ _ eq_refl L) as [z' Z']. exact (ws_comment _ _ _ _ (ok_alt_l _ _ _ _ _ _ Z')).
  - rewrite !app_assoc_s.
    assert (L : ok (gram R_BLOCK_COMMENT) (b ++ "/*" ++ t ++ "*/" ++ g ++ s) [] [] s).
    { cbn [gram]. refine (ok_seq _ _ _ [] [] _ [] [] _ (star_class _ b ("/*" ++ t ++ "*/" ++ g ++ s) B eq_refl) _).
      refine (ok_seq _ _ _ [] [] _ [] [] _ (ok_ref_ignored R_KW_OPEN_BLOCK_COMMENT _ _ _ _ (ok_tok _ "/*" [] [] _ (ok_lit _ _ _ (after_self "/*" _))) eq_refl) _).
      refine (ok_seq _ _ _ [] [] _ [] [] _ (block_chars t _ T) _).
      exact (ok_seq _ _ _ [] [] _ [] [] _ (ok_ref_ignored R_KW_CLOSE_BLOCK_COMMENT _ _ _ _ (ok_tok _ "*/" [] [] _ (ok_lit _ _ _ (after_self "*/" _))) eq_refl) IH). }
    destruct (ref_takes R_BLOCK_COMMENT _ _ _ _ eq_refl L) as [z' Z']. refine (ws_comment _ _ _ _ (ok_alt_r _ _ _ _ _ _ _ Z')).
    apply no_ref. cbn [gram]. eapply no_seq_r; [exact (star_class _ b ("/*" ++ t ++ "*/" ++ g ++ s) B eq_refl)|]. apply no_seq_l, no_ref. cbn [gram]. apply no_tok, no_lit. reflexivity.
Qed.
Lemma ok_punct_gap : forall q c w w' s, punct q c -> ignored q = true -> all_chars is_ws w = true -> gap w' -> solid s ->
  ok (Ref q) (w ++ String c (w' ++ s)) [] [] s.
Proof.
  intros q c w w' s (G & C) I Hw Hw' Hs. eapply ok_ref_ignored; [|exact I]. rewrite G.
  refine (ok_seq _ _ _ [] [] _ [] _ _ (opt_ws w (String c (w' ++ s)) Hw C) _).
  exact (ok_seq _ _ _ [] _ _ [] [] _ (ok_tok _ (String c "") [] [] _ (ok_lit _ _ _ (after_self (String c "") _))) (opt_gap w' s Hw' Hs)).
Qed.
Lemma ok_close_gap : forall q c w s, punct q c -> ignored q = true -> gap w -> solid s -> ok (Ref q) (String c (w ++ s)) [] [] s.
Proof. intros q c w s P I W S. exact (ok_punct_gap q c "" w s P I eq_refl W S). Qed.
Ltac blanks := apply gap_blank; reflexivity.
Lemma gap_none : gap "".
Proof. blanks. Qed.
Lemma gap_space : gap " ".
Proof. blanks. Qed.
Lemma gap_nl : gap NL.
Proof. blanks. Qed.
