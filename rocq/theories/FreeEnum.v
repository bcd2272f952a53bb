(** The sentence of an enumeration with any layout and with comments. *)
From Verif Require Import Base Types TypeBuild Compat Module Peg0 Grammar Peg PegFacts PegRules NumText GapSpec GapText StructRead IntFacts IdlLitFacts GrowFacts IdlParse IdlParseFacts GenIdl GenSpec TypeText StructText DocFacts EnumText EnumSpec.
Local Open Scope string_scope.

Lemma gap_no_id : forall w c s, gap w -> id_char c = false -> first_is id_char (w ++ String c s) = false.
Proof.
  assert (WS : forall d, is_ws d = true -> id_char d = false). { intros d H. pose proof (all_ascii (fun d => implb (is_ws d) (negb (id_char d))) eq_refl d) as K. cbv beta in K. rewrite H in K. apply negb_true_iff in K. exact K. }
  assert (SL : forall b r, all_chars space_or_line b = true -> first_is id_char (b ++ String "/" r) = false). { intros [|d b] r H; [reflexivity|]. apply andb_true_iff in H as [H _]. apply WS, space_line_ws, H. }
  intros w c s G C. destruct G as [w W|b t e g B T Us E G|b t g B T G].
  - destruct w as [|d w]; [exact C|]. apply andb_true_iff in W as [W _]. apply WS, W.
  - rewrite !app_assoc_s. apply SL, B.
  - rewrite !app_assoc_s. apply SL, B.
Qed.
Lemma ok_gap_punct : forall q c w w' s, punct q c -> ignored q = true -> gap w -> gap w' -> solid s -> ok (Ref q) (w ++ String c (w' ++ s)) [] [] s.
Proof.
  intros q c w w' s (G & C) I Hw Hw' Hs. eapply ok_ref_ignored; [|exact I]. rewrite G.
  refine (ok_seq _ _ _ [] [] _ [] _ _ (opt_gap w (String c (w' ++ s)) Hw C) _).
  exact (ok_seq _ _ _ [] _ _ [] [] _ (ok_tok _ (String c "") [] [] _ (ok_lit _ _ _ (after_self (String c "") _))) (opt_gap w' s Hw' Hs)).
Qed.
Lemma no_gap_punct : forall q c w s, punct q c -> gap w -> solid s -> first_is (Ascii.eqb c) s = false -> no (Ref q) (w ++ s).
Proof.
  intros q c w s (G & C) Hw Hs F. apply no_ref. rewrite G. eapply no_seq_r; [apply (opt_gap w _ Hw Hs)|].
  apply no_seq_l, no_tok, no_lit. destruct s as [|d s]; [reflexivity|]. cbn [first_is] in F. cbn [after]. rewrite F. reflexivity.
Qed.
(** The enumerators, to the closing brace. *)
Lemma enumerators_start : forall l s, enumerators_say l s -> forall r, solid (s ++ r) /\ first_is (Ascii.eqb "@") (s ++ r) = false.
Proof. intros l s H r. destruct H; rewrite !app_assoc_s; (split; [apply ident_solid|apply ident_at]; assumption). Qed.
Lemma ok_enumerators : forall l s, enumerators_say l s -> forall (vals : list (string * N)) r, map fst vals = l -> solid r ->
  exists v vals' m close, vals = v :: vals' /\ is_ident (fst v) = true /\ s = fst v ++ m /\ first_is id_char (m ++ "}" ++ r) = false /\
    ok (Star (Seq (Ref R_COMMA) (Ref R_ENUMERATOR))) (m ++ "}" ++ r) (map enumerator_node vals') [] close /\ ok (Ref R_CLOSE_BRACE) close [] [] r.
Proof.
  intros l s H. induction H as [e w I G|e w w' l s I G G' H IH]; intros vals r E So.
  - destruct vals as [|[f v] [|]]; try discriminate E. cbn [map fst] in E. injection E as ->. exists (e, v), [], w, (w ++ "}" ++ r).
    split; [reflexivity|]. split; [exact I|]. split; [reflexivity|]. split; [exact (gap_no_id w "}"%char r G eq_refl)|]. split.
    + apply ok_star_end, no_seq_l. apply (no_gap_punct R_COMMA ","%char w ("}" ++ r)); [kw|exact G|reflexivity|reflexivity].
    + apply (ok_gap_punct R_CLOSE_BRACE "}"%char w "" r); [kw|reflexivity|exact G|apply gap_none|exact So].
  - destruct vals as [|v vals]; try discriminate E. cbn [map fst] in E. injection E as Ev E. destruct (IH vals r E So) as (v2 & vals2 & m & close & -> & I2 & -> & F2 & St & Cl).
    exists v, (v2 :: vals2), (w ++ "," ++ w' ++ fst v2 ++ m), close. subst e. split; [reflexivity|]. split; [exact I|]. split; [reflexivity|]. rewrite !app_assoc_s.
    split; [exact (gap_no_id w ","%char _ G eq_refl)|]. split; [|exact Cl]. cbn [map].
    refine (ok_star_more _ _ [_] [] _ _ [] _ _ St). refine (ok_seq _ _ _ [] [] _ [_] [] _ _ (ok_enumerator v2 _ I2 F2)).
    apply (ok_gap_punct R_COMMA ","%char w w'); [kw|reflexivity|exact G|exact G'|apply ident_solid, I2].
Qed.
Lemma ok_free_enum : forall x w1 w2 l body (vals : list (string * N)) w s, is_ident x = true -> gap w1 -> gap w2 -> enumerators_say l body -> map fst vals = l -> gap w -> solid s ->
  ok (Ref R_DEFINITION) (free_enum_text x w1 w2 body ++ ";" ++ w ++ s) [enum_definition x vals] [] s.
Proof.
  intros x w1 w2 l body vals w s I G1 G2 ES Ev W So. unfold free_enum_text. rewrite !app_assoc_s.
  destruct (ok_enumerators l body ES vals (";" ++ w ++ s) Ev eq_refl) as (v & vals' & m & close & -> & Iv & -> & Fm & St & Cl). rewrite !app_assoc_s.
  eapply ok_ref_node; [|reflexivity|reflexivity]. cbn [gram]. apply ok_alt_l.
  refine (ok_seq _ _ _ [_] [] _ [] [] _ _ (ok_close_gap R_SEMICOLON ";" w s ltac:(kw) eq_refl W So)).
  apply ok_alt_r; [no_by_text|]. apply ok_alt_r; [no_by_text|]. apply ok_alt_l.
  eapply ok_ref_node; [|reflexivity|reflexivity]. cbn [gram]. apply ok_alt_l. eapply ok_ref_node; [|reflexivity|reflexivity]. cbn [gram].
  refine (ok_seq _ _ _ [] [] _ [_] [] _ (ok_star_end _ _ _) _); [no_by_text|]. apply ok_alt_r; [no_by_text|]. apply ok_alt_r; [no_by_text|]. apply ok_alt_l.
  eapply ok_ref_node; [|reflexivity|reflexivity]. cbn [gram].
  refine (ok_seq _ _ _ [] [] _ _ [] _ (ok_keyword R_KW_ENUM "enum" "" " " _ _ eq_refl eq_refl _ _) _); [kw|apply ident_solid, I|reflexivity|].
  refine (ok_seq _ _ _ [_] [] _ _ [] _ (ok_ident x _ I (gap_no_id w1 "{"%char _ G1 eq_refl)) _).
  refine (ok_seq _ _ _ [] [] _ _ [] _ (ok_gap_punct R_OPEN_BRACE "{"%char w1 w2 _ _ eq_refl G1 G2 _) _); [kw|apply ident_solid, Iv|].
  refine (ok_seq _ _ _ [_] [] _ _ [] _ (ok_enumerator v _ Iv Fm) _).
  pose proof (ok_seq _ _ _ _ _ _ _ _ _ St Cl) as Q. rewrite !app_nil_r in Q. exact Q.
Qed.
