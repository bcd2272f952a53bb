(** Matching does not depend on the blanks between tokens. *)
From Verif Require Import Base Peg0 Grammar Peg PegFacts IdlLitFacts PegRules BlankSpec.
Local Open Scope string_scope.
Local Arguments blank : simpl never.
Local Arguments one_of : simpl never.
Local Arguments loose_char : simpl never.
Local Arguments doubling : simpl never.
Local Arguments free_after : simpl never.
Local Arguments free_before : simpl never.

Definition yields (e : exp rule) (s : string) (o : out) : Prop := exists n, peg n e s = Some o.
Lemma yields_fun : forall e s o o', yields e s o -> yields e s o' -> o = o'.
Proof. intros e s o o' (n & H) (m & H'). eapply peg_fun; eassumption. Qed.

(** *** Positions *)
Definition headed (s : string) : bool := match s with String c _ => blank c | EmptyString => false end.
(** The two texts may differ here only in front of a loose character. *)
Definition at_ (s s' : string) : Prop := exists p c, respaced p c s s' /\ (free_after p c = false \/ (headed s = false /\ headed s' = false)).
Definition any_ (s s' : string) : Prop := exists p c, respaced p c s s'.
Lemma at_any : forall s s', at_ s s' -> any_ s s'.
Proof. intros s s' (p & c & R & _). exists p, c; exact R. Qed.

Lemma all_blank_head : forall w d s, all_blank w = true -> headed (w ++ String d s) = false -> w = "".
Proof. intros [|a w] d s H F; [reflexivity|]. cbn in H, F. rewrite F in H. discriminate H. Qed.
Lemma headed_blank : forall w, all_blank w = true -> headed w = false -> w = "".
Proof. intros [|a w] H F; [reflexivity|]. cbn in H, F. rewrite F in H. discriminate H. Qed.
Lemma headed_app : forall w s, all_blank w = true -> w <> "" -> headed (w ++ s) = true.
Proof. intros [|a w] s H F; [congruence|]. cbn in H |- *. apply andb_true_iff in H as [H _]. exact H. Qed.
Lemma loose_not_blank : forall c, loose_char c = true -> blank c = false.
Proof. intros c H. pose proof (all_ascii (fun c => implb (loose_char c) (negb (blank c))) eq_refl c) as K. cbv beta in K. rewrite H in K. apply negb_true_iff in K; exact K. Qed.

(** The cases of a position. *)
Inductive position : string -> string -> Prop :=
| pos_same : forall p c d s s', blank d = false -> one_of """'#" d = false -> (c = "/"%char -> one_of "/*" d = false) -> respaced c d s s' -> respaced p c (String d s) (String d s') -> position (String d s) (String d s')
| pos_blanks : forall p c s s', headed s = true -> headed s' = true -> respaced p c s s' -> position s s'
| pos_mixed : forall p c d w w' s s', all_blank w = true -> all_blank w' = true -> free_before d s = true -> free_before d s' = true -> one_of """'#" d = false -> respaced c d s s' ->
    respaced p c (w ++ String d s) (w' ++ String d s') -> position (w ++ String d s) (w' ++ String d s')
| pos_end : forall w w', all_blank w = true -> all_blank w' = true -> position w w'.
Lemma at_position : forall s s', at_ s s' -> position s s'.
Proof.
  intros s s' (p & c & R & F). destruct R as [p c w w' W W'|p c d w w' s s' W W' D Q G C R].
  - apply pos_end; assumption.
  - assert (R0 : respaced p c (w ++ String d s) (w' ++ String d s')) by (constructor; assumption).
    destruct F as [F|[F F']].
    + destruct G as [G|(N & [G|[G G']])]; [|congruence|].
      * destruct w as [|a w].
        -- rewrite (proj1 G eq_refl) in *. apply (pos_same p c); try assumption. intros E. destruct (one_of "/*" d) eqn:K; [|reflexivity]. destruct (C E eq_refl) as [X _]. congruence.
        -- apply (pos_blanks p c); [apply headed_app; [exact W|discriminate]|apply headed_app; [exact W'|]|exact R0]. intros ->. discriminate (proj2 G eq_refl).
      * apply (pos_mixed p c); assumption.
    + apply all_blank_head in F; [|exact W]. apply all_blank_head in F'; [|exact W']. subst w w'.
      apply (pos_same p c); try assumption. intros E. destruct (one_of "/*" d) eqn:K; [|reflexivity]. destruct (C E eq_refl) as [X _]. congruence.
Qed.

(** *** No comment, no quote begins in such a text *)
Fixpoint clean (s : string) : Prop :=
  match s with
  | EmptyString => True
  | String c r => one_of """'#" c = false /\ (c = "/"%char -> match r with String d _ => one_of "/*" d = false | EmptyString => True end) /\ clean r
  end.
Lemma clean_blanks : forall w s, all_blank w = true -> clean s -> clean (w ++ s).
Proof.
  induction w as [|c w IH]; intros s H K; [exact K|]. cbn in H. apply andb_true_iff in H as [H H']. cbn [append clean].
  pose proof (all_ascii (fun c => implb (blank c) (negb (one_of """'#" c) && negb (Ascii.eqb c "/"))) eq_refl c) as X. cbv beta in X. rewrite H in X.
  apply andb_true_iff in X as [X Y]. apply negb_true_iff in X, Y. split; [exact X|]. split; [intros ->; discriminate Y|]. apply IH; assumption.
Qed.
Lemma respaced_clean : forall p c s s', respaced p c s s' -> (clean s /\ (c = "/"%char -> match s with String d _ => one_of "/*" d = false | EmptyString => True end)) /\
  (clean s' /\ (c = "/"%char -> match s' with String d _ => one_of "/*" d = false | EmptyString => True end)).
Proof.
  assert (B : forall w, all_blank w = true -> clean w).
  { intros w W. rewrite <- (app_nil_s w). apply clean_blanks; [exact W|exact I]. }
  assert (B2 : forall w d s, all_blank w = true -> (w <> "" \/ one_of "/*" d = false) -> match w ++ String d s with String d' _ => one_of "/*" d' = false | EmptyString => True end).
  { intros [|a w] d s W H; [destruct H as [H|H]; [congruence|exact H]|]. cbn in W |- *. apply andb_true_iff in W as [W _].
    pose proof (all_ascii (fun c => implb (blank c) (negb (one_of "/*" c))) eq_refl a) as X. cbv beta in X. rewrite W in X. apply negb_true_iff in X; exact X. }
  intros p c s s' R. induction R as [p c w w' W W'|p c d w w' s s' W W' D Q G C R IH].
  - split; (split; [apply B; assumption|]); intros _.
    + destruct w as [|a w]; [exact I|]. cbn in W. apply andb_true_iff in W as [W _]. pose proof (all_ascii (fun c => implb (blank c) (negb (one_of "/*" c))) eq_refl a) as X. cbv beta in X. rewrite W in X. apply negb_true_iff in X; exact X.
    + destruct w' as [|a w']; [exact I|]. cbn in W'. apply andb_true_iff in W' as [W' _]. pose proof (all_ascii (fun c => implb (blank c) (negb (one_of "/*" c))) eq_refl a) as X. cbv beta in X. rewrite W' in X. apply negb_true_iff in X; exact X.
  - destruct IH as [[K1 K2] [K3 K4]].
    assert (Y : c = "/"%char -> (w <> "" \/ one_of "/*" d = false) /\ (w' <> "" \/ one_of "/*" d = false)).
    { intros E. destruct (one_of "/*" d); [|auto]. destruct (C E eq_refl). auto. }
    split; split.
    + apply clean_blanks; [exact W|]. cbn [clean]. auto.
    + intros E. apply B2; [exact W|apply Y, E].
    + apply clean_blanks; [exact W'|]. cbn [clean]. auto.
    + intros E. apply B2; [exact W'|apply Y, E].
Qed.
Lemma any_clean : forall s s', any_ s s' -> clean s /\ clean s'.
Proof. intros s s' (p & c & R). apply respaced_clean in R as [[H _] [H' _]]. auto. Qed.

(** Expressions that match nowhere in a clean text. *)
Definition never_lit (l : string) : bool := match l with String c _ => one_of """'#" c || String.eqb l "//" || String.eqb l "/*" | EmptyString => false end.
Definition never_rule (q : rule) : bool :=
  match q with
  | R_KW_LINE_COMMENT | R_KW_OPEN_BLOCK_COMMENT | R_LINE_COMMENT | R_BLOCK_COMMENT | R_COMMENT | R_PREPROCESSOR_DIRECTIVE
  | R_CHAR_LITERAL | R_WIDE_CHAR_LITERAL | R_STRING_LITERAL | R_SUBSTRING_LITERAL | R_WIDE_STRING_LITERAL | R_WIDE_SUBSTRING_LITERAL => true
  | _ => false
  end.
Fixpoint never (e : exp rule) : bool :=
  match e with
  | Lit l => never_lit l
  | Ref q => never_rule q
  | Seq a b => never a || never b
  | Alt a b => never a && never b
  | Plus e | Tok e | Ign e => never e
  | _ => false
  end.
Lemma never_rules : forall q, never_rule q = true -> never (gram q) = true.
Proof. destruct q; intros H; try discriminate H; reflexivity. Qed.
Lemma clean_after : forall c r s, s = c ++ r -> clean s -> clean r.
Proof. induction c as [|a c IH]; intros r s -> H; [exact H|]. cbn in H. apply (IH r (c ++ r) eq_refl). tauto. Qed.
Lemma peg_clean : forall n e s c ns ts r, peg n e s = Some (Yes c ns ts r) -> clean s -> clean r.
Proof. intros n e s c ns ts r H K. eapply clean_after; [eapply peg_split, H|exact K]. Qed.
Lemma never_lit_no : forall l s, never_lit l = true -> clean s -> after l s = None.
Proof.
  intros [|a l] [|b s] H K; try discriminate H; [reflexivity|]. cbn [after]. destruct (Ascii.eqb a b) eqn:E; [|reflexivity]. apply Ascii.eqb_eq in E; subst b.
  cbn [clean] in K. destruct K as (Q & C & _). unfold never_lit in H. rewrite Q in H. cbn [orb] in H.
  apply orb_true_iff in H as [H|H]; apply String.eqb_eq in H; injection H as -> ->; specialize (C eq_refl); destruct s as [|d s]; try reflexivity; cbn [after].
  - destruct (Ascii.eqb "/" d) eqn:E; [|reflexivity]. apply Ascii.eqb_eq in E; subst d. discriminate C.
  - destruct (Ascii.eqb "*" d) eqn:E; [|reflexivity]. apply Ascii.eqb_eq in E; subst d. discriminate C.
Qed.
Lemma never_no : forall n e s o, never e = true -> clean s -> peg n e s = Some o -> o = No.
Proof.
  induction n as [|n IH]; intros e s o N K H; [discriminate H|]. rewrite peg_eq in H. destruct e as [|l|l| |q|a b|a b|e|e|e|e|e|e]; try discriminate N; cbn [never] in N.
  - rewrite (never_lit_no l s N K) in H. congruence.
  - destruct (peg n (gram q) s) as [o1|] eqn:E; [|discriminate H]. rewrite (IH _ _ _ (never_rules q N) K E) in H. congruence.
  - destruct (peg n a s) as [[|c ns ts r]|] eqn:E; [congruence| |discriminate H]. apply orb_true_iff in N as [N|N]; [discriminate (IH _ _ _ N K E)|].
    destruct (peg n b r) as [o2|] eqn:E2; [|discriminate H]. rewrite (IH _ _ _ N (peg_clean _ _ _ _ _ _ _ E K) E2) in H. congruence.
  - apply andb_true_iff in N as [Na Nb]. destruct (peg n a s) as [o1|] eqn:E; [|discriminate H]. rewrite (IH _ _ _ Na K E) in H. exact (IH _ _ _ Nb K H).
  - refine (IH (Seq e (Star e)) s o _ K H). cbn [never]. rewrite N. reflexivity.
  - destruct (peg n e s) as [o1|] eqn:E; [|discriminate H]. rewrite (IH _ _ _ N K E) in H. congruence.
  - destruct (peg n e s) as [o1|] eqn:E; [|discriminate H]. rewrite (IH _ _ _ N K E) in H. congruence.
Qed.
Lemma never_yields : forall e s, never e = true -> stars_consume e = true -> clean s -> yields e s No.
Proof. intros e s N W K. destruct (peg_ends e s W) as (n & o & E). rewrite (never_no n e s o N K E) in E. exists n; exact E. Qed.

(** *** WS takes all the blanks *)
Fixpoint skip (s : string) : string := match s with String c r => if blank c then skip r else s | EmptyString => "" end.
Lemma skip_split : forall s, exists w, all_blank w = true /\ s = w ++ skip s /\ headed (skip s) = false /\ (headed s = true -> w <> "").
Proof.
  induction s as [|c s (w & W & E & H & _)]; [exists ""; repeat split; discriminate|]. cbn [skip]. destruct (blank c) eqn:B.
  - exists (String c w). cbn [all_blank append]. rewrite B, <- E. repeat split; [exact W|exact H|discriminate].
  - exists "". cbn [headed append]. rewrite B. repeat split. discriminate.
Qed.
Lemma skip_app : forall w s, all_blank w = true -> headed s = false -> skip (w ++ s) = s.
Proof.
  induction w as [|c w IH]; intros s W H.
  - destruct s as [|c s]; [reflexivity|]. cbn in *. rewrite H. reflexivity.
  - cbn in W. apply andb_true_iff in W as [B W]. cbn [append skip]. rewrite B. apply IH; assumption.
Qed.
Lemma comment_never : forall s, clean s -> no (Ref R_COMMENT) s.
Proof. intros s K. exact (never_yields (Ref R_COMMENT) s eq_refl eq_refl K). Qed.
Lemma all_blank_chars : forall w, all_blank w = true -> all_chars (fun c => in_class c [(" ", " "); ("009", "009"); ("013", "013"); ("010", "010")]%char) w = true.
Proof. induction w as [|c w IH]; intros W; [reflexivity|]. cbn [all_blank all_chars] in *. apply andb_true_iff in W as [B W]. apply andb_true_iff. split; [exact B|apply IH, W]. Qed.
Lemma headed_first : forall s, headed s = first_is (fun c => in_class c [(" ", " "); ("009", "009"); ("013", "013"); ("010", "010")]%char) s.
Proof. intros [|c s]; reflexivity. Qed.
Lemma ok_yields : forall e w r ns ts, ok e (w ++ r) ns ts r -> yields e (w ++ r) (Yes w ns ts r).
Proof. intros e w r ns ts (n & c & H). pose proof (peg_split _ _ _ _ _ _ _ H) as E. apply app_cancel in E. subst c. exists n; exact H. Qed.
Lemma ws_ok : forall s, clean s -> headed s = true -> exists w, all_blank w = true /\ s = w ++ skip s /\ yields (Ref R_WS) s (Yes w [] [] (skip s)).
Proof.
  intros s K B. destruct (skip_split s) as (w & W & E & H & N). exists w. split; [exact W|]. split; [exact E|]. specialize (N B).
  pose proof (comment_never s K) as NC. rewrite E in NC |- *. rewrite skip_app by assumption. apply ok_yields. eapply ok_ref_ignored; [|reflexivity]. cbn [gram]. apply ok_alt_r; [exact NC|].
  destruct w as [|c w]; [congruence|]. cbn [all_blank] in W. apply andb_true_iff in W as [Bc W]. rewrite headed_first in H.
  exact (ok_plus _ _ [] [] _ [] [] _ (ok_cls _ c (w ++ skip s) Bc) (star_class _ w (skip s) (all_blank_chars w W) H)).
Qed.
Lemma ws_no : forall s, clean s -> headed s = false -> yields (Ref R_WS) s No.
Proof.
  intros s K B. apply no_ref. cbn [gram]. apply no_alt; [exact (comment_never s K)|]. apply no_plus, no_cls. intros c r ->. exact B.
Qed.
Lemma opt_ok : forall s, clean s -> exists w, all_blank w = true /\ s = w ++ skip s /\ yields (Opt (Ref R_WS)) s (Yes w [] [] (skip s)).
Proof.
  intros s K. destruct (headed s) eqn:B.
  - destruct (ws_ok s K B) as (w & W & E & n & H). exists w. split; [exact W|]. split; [exact E|]. exists (S n). rewrite peg_eq, H. reflexivity.
  - destruct (ws_no s K B) as (n & H). exists "". split; [reflexivity|].
    assert (E : skip s = s) by (destruct s as [|c s]; [reflexivity|]; cbn in B |- *; rewrite B; reflexivity). rewrite E. split; [reflexivity|]. exists (S n). rewrite peg_eq, H. reflexivity.
Qed.
Lemma forget_before : forall p c s s', respaced p c s s' -> respaced " " c s s'.
Proof.
  intros p c s s' R. destruct R as [p c w w' W W'|p c d w w' s s' W W' D Q G C R]; [apply rs_end; assumption|]. apply rs_char; try assumption.
  destruct G as [G|[N [G|G]]]; [left; exact G|right; split; [exact N|left]|right; split; [exact N|right; exact G]].
  unfold free_after in *. apply andb_true_iff in G as [G _]. rewrite G. cbn [andb].
  pose proof (all_ascii (fun c => negb (doubling c && Ascii.eqb " " c)) eq_refl c) as K. exact K.
Qed.
Lemma skip_any : forall s s', any_ s s' -> at_ (skip s) (skip s') /\ headed (skip s) = false /\ headed (skip s') = false.
Proof.
  intros s s' (p & c & R). destruct R as [p c w w' W W'|p c d w w' s s' W W' D Q G C R].
  - rewrite <- (app_nil_s w), <- (app_nil_s w'), !skip_app by (assumption || reflexivity). split; [|split; reflexivity].
    exists " "%char, " "%char. split; [apply rs_end; reflexivity|left; reflexivity].
  - rewrite !skip_app by (assumption || exact D). split; [|split; exact D]. exists " "%char, " "%char. split; [|left; reflexivity].
    apply (rs_char " " " " d "" "" s s'); try assumption; try discriminate; try reflexivity; [left; tauto|eapply forget_before, R].
Qed.

(** *** Literals and classes *)
Definition tame (c : ascii) : bool := negb (blank c) && negb (loose_char c).
Fixpoint plain_lit (l : string) : bool := match l with EmptyString => true | String c r => tame c && plain_lit r end.
Definition double_lit (l : string) : bool := match l with String c (String d EmptyString) => doubling c && Ascii.eqb c d | _ => false end.
Definition single_lit (l : string) : bool := match l with String c EmptyString => loose_char c | _ => false end.
Lemma after_other : forall a l s, starts a s = false -> after (String a l) s = None.
Proof. intros a l [|d s] H; [reflexivity|]. cbn in *. rewrite H. reflexivity. Qed.
Lemma tame_blanks : forall a s, tame a = true -> headed s = true -> starts a s = false.
Proof.
  intros a [|d s] T H; [discriminate H|]. cbn in *. destruct (Ascii.eqb a d) eqn:E; [|reflexivity]. apply Ascii.eqb_eq in E; subst d.
  unfold tame in T. rewrite H in T. discriminate T.
Qed.
Lemma loose_blanks : forall a s, blank a = false -> headed s = true -> starts a s = false.
Proof. intros a [|d s] T H; [discriminate H|]. cbn in *. destruct (Ascii.eqb a d) eqn:E; [|reflexivity]. apply Ascii.eqb_eq in E; subst d. congruence. Qed.
Lemma starts_blank : forall a w s, blank a = false -> all_blank w = true -> w <> "" -> starts a (w ++ s) = false.
Proof. intros a w s T W N. apply loose_blanks; [exact T|apply headed_app; assumption]. Qed.
Lemma tame_not_blank : forall a, tame a = true -> blank a = false.
Proof. intros a T. unfold tame in T. destruct (blank a); [discriminate T|reflexivity]. Qed.
Lemma tame_not_loose : forall a, tame a = true -> loose_char a = false.
Proof. intros a T. unfold tame in T. destruct (loose_char a); [rewrite andb_false_r in T; discriminate T|reflexivity]. Qed.
Lemma starts_end : forall a w, blank a = false -> all_blank w = true -> starts a w = false.
Proof. intros a [|c w] B W; [reflexivity|]. apply loose_blanks; [exact B|]. cbn in W |- *. apply andb_true_iff in W. tauto. Qed.
Lemma free_before_loose : forall d s, free_before d s = true -> loose_char d = true /\ (doubling d = true -> starts d s = false).
Proof. intros d s H. unfold free_before in H. apply andb_true_iff in H as [H K]. split; [exact H|]. intros D. rewrite D in K. cbn [andb] in K. apply negb_true_iff in K; exact K. Qed.
Lemma tame_mixed : forall a w d s, tame a = true -> all_blank w = true -> free_before d s = true -> starts a (w ++ String d s) = false.
Proof.
  intros a [|c w] d s T W F.
  - cbn. destruct (Ascii.eqb a d) eqn:E; [|reflexivity]. apply Ascii.eqb_eq in E; subst d. apply free_before_loose in F as [F _]. rewrite (tame_not_loose a T) in F. discriminate F.
  - apply starts_blank; [apply tame_not_blank, T|exact W|discriminate].
Qed.
Definition agree (P : string -> string -> Prop) (o o' : option string) : Prop :=
  match o, o' with Some r, Some r' => P r r' | None, None => True | _, _ => False end.
Lemma free_after_tame : forall p c, tame c = true -> free_after p c = false.
Proof. intros p c T. unfold free_after. rewrite (tame_not_loose c T). reflexivity. Qed.
Lemma plain_at : forall l s s', plain_lit l = true -> at_ s s' -> agree at_ (after l s) (after l s').
Proof.
  induction l as [|a l IH]; intros s s' L A; [exact A|]. cbn [plain_lit] in L. apply andb_true_iff in L as [T L].
  apply at_position in A. destruct A as [p c d s s' D Q C R _|p c s s' H H' _|p c d w w' s s' W W' F F' Q R _|w w' W W'].
  - cbn [after]. destruct (Ascii.eqb a d) eqn:E; [|exact I]. apply Ascii.eqb_eq in E; subst d. apply IH; [exact L|].
    exists c, a. split; [exact R|left; apply free_after_tame, T].
  - rewrite !after_other by (apply tame_blanks; assumption). exact I.
  - rewrite !after_other by (apply tame_mixed; assumption). exact I.
  - rewrite !after_other by (apply starts_end; [apply tame_not_blank, T|assumption]). exact I.
Qed.
Lemma doubling_loose : forall c, doubling c = true -> loose_char c = true.
Proof. intros c H. pose proof (all_ascii (fun c => implb (doubling c) (loose_char c)) eq_refl c) as K. cbv beta in K. rewrite H in K. exact K. Qed.
Lemma double_at : forall l s s', double_lit l = true -> at_ s s' -> agree at_ (after l s) (after l s').
Proof.
  intros l s s' L A. destruct l as [|c [|c' [|? ?]]]; try discriminate L. cbn [double_lit] in L. apply andb_true_iff in L as [D E]. apply Ascii.eqb_eq in E; subst c'.
  pose proof (loose_not_blank c (doubling_loose c D)) as B. apply at_position in A.
  destruct A as [p c0 d s s' _ _ _ R _|p c0 s s' H H' _|p c0 d w w' s s' W W' F F' _ _ _|w w' W W'].
  - cbn [after]. destruct (Ascii.eqb c d) eqn:E; [|exact I]. apply Ascii.eqb_eq in E; subst d.
    destruct R as [p1 c w w' W W'|p1 c d w w' s s' W W' D' Q G C R].
    + change (agree at_ (after (String c "") w) (after (String c "") w')). rewrite !after_other by (apply starts_end; assumption). exact I.
    + change (agree at_ (after (String c "") (w ++ String d s)) (after (String c "") (w' ++ String d s'))).
      destruct (Ascii.eqb c d) eqn:E.
      * destruct G as [G|[G _]]; [|rewrite D in G; discriminate G]. apply Ascii.eqb_eq in E; subst d. destruct w as [|a w].
        -- rewrite (proj1 G eq_refl). cbn [after append]. rewrite !Ascii.eqb_refl. exists c, c. split; [exact R|left]. unfold free_after. rewrite D, Ascii.eqb_refl, andb_false_r. reflexivity.
        -- rewrite !after_other; [exact I| |]; apply starts_blank; try assumption; [|discriminate]. intros ->. discriminate (proj2 G eq_refl).
      * assert (X : forall v t, all_blank v = true -> starts c (v ++ String d t) = false).
        { intros [|a v] t V; [exact E|]. apply starts_blank; [exact B|exact V|discriminate]. }
        rewrite !after_other by (apply X; assumption). exact I.
  - rewrite !after_other by (apply loose_blanks; assumption). exact I.
  - assert (X : forall v t, all_blank v = true -> free_before d t = true -> after (String c (String c "")) (v ++ String d t) = None).
    { intros [|a v] t V Ft; [|apply after_other, starts_blank; [exact B|exact V|discriminate]]. cbn [append after]. destruct (Ascii.eqb c d) eqn:E; [|reflexivity].
      apply Ascii.eqb_eq in E; subst d. apply free_before_loose in Ft as [_ Ft]. specialize (Ft D). change (after (String c "") t = None). apply after_other, Ft. }
    rewrite !X by assumption. exact I.
  - rewrite !after_other by (apply starts_end; assumption). exact I.
Qed.
Lemma single_any : forall l s s', single_lit l = true -> at_ s s' -> headed s = false -> headed s' = false -> agree any_ (after l s) (after l s').
Proof.
  intros l s s' L A H H'. destruct l as [|c [|? ?]]; try discriminate L. cbn [single_lit] in L. apply at_position in A.
  destruct A as [p c0 d s s' _ _ _ R _|p c0 s s' X X' _|p c0 d w w' s s' W W' F F' _ R _|w w' W W'].
  - cbn [after]. destruct (Ascii.eqb c d); [|exact I]. exists c0, d; exact R.
  - congruence.
  - apply all_blank_head in H; [|exact W]. apply all_blank_head in H'; [|exact W']. subst w w'. cbn [after append]. destruct (Ascii.eqb c d); [|exact I]. exists c0, d; exact R.
  - apply headed_blank in H; [|exact W]. apply headed_blank in H'; [|exact W']. subst w w'. exact I.
Qed.
Definition tame_class (l : list (ascii * ascii)) : bool := forallb (fun c => implb (in_class c l) (tame c)) (map ascii_of_nat (seq 0 256)).
Definition take (l : list (ascii * ascii)) (s : string) : option (ascii * string) := match s with String c r => if in_class c l then Some (c, r) else None | EmptyString => None end.
Lemma class_at : forall l s s', tame_class l = true -> at_ s s' ->
  match take l s, take l s' with Some (c, r), Some (c', r') => c = c' /\ at_ r r' | None, None => True | _, _ => False end.
Proof.
  intros l s s' L A. pose proof (all_ascii _ L) as T. cbv beta in T.
  assert (N : forall s, headed s = true -> take l s = None).
  { intros [|c t] H; [reflexivity|]. cbn in H |- *. specialize (T c). destruct (in_class c l); [|reflexivity]. cbn [implb] in T. rewrite (tame_not_blank c T) in H. discriminate H. }
  assert (NL' : forall c t, loose_char c = true -> take l (String c t) = None).
  { intros c t H. cbn. specialize (T c). destruct (in_class c l); [|reflexivity]. cbn [implb] in T. rewrite (tame_not_loose c T) in H. discriminate H. }
  apply at_position in A. destruct A as [p c d s s' D Q C R _|p c s s' H H' _|p c d w w' s s' W W' F F' Q R _|w w' W W'].
  - cbn [take]. specialize (T d). destruct (in_class d l); [|exact I]. split; [reflexivity|]. exists c, d. split; [exact R|left; apply free_after_tame, T].
  - rewrite !N by assumption. exact I.
  - apply free_before_loose in F as [F _]. assert (X : forall v t, all_blank v = true -> take l (v ++ String d t) = None).
    { intros [|a v] t V; [apply NL', F|]. apply N, headed_app; [exact V|discriminate]. }
    rewrite !X by assumption. exact I.
  - assert (X : forall v, all_blank v = true -> take l v = None).
    { intros [|a v] V; [reflexivity|]. apply N. cbn in V |- *. apply andb_true_iff in V. tauto. }
    rewrite !X by assumption. exact I.
Qed.
