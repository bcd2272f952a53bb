(** C36 the preprocessor gets the text. *)
From Verif Require Import Base Shell.
Local Open Scope nat_scope.

(** ** Specification *)
(** Texts that get through the shell unchanged.  [seen]: a quote has been seen.  No dollar, backquote or NUL; a backslash is
    followed by a character that the shell does not treat specially behind it, or by a quote that is not the first one. *)
Definition special (c : ascii) : Prop := c = dollar \/ c = backquote \/ c = nul.
Inductive passes : bool -> text -> Prop :=
| ps_nil b : passes b []
| ps_quote b r : passes true r -> passes b (quote :: r)
| ps_char b c r : c <> quote -> c <> backslash -> ~ special c -> passes b r -> passes b (c :: r)
| ps_escaped b c r : ~ special c -> c <> backslash -> c <> newline -> c <> quote -> passes b r -> passes b (backslash :: c :: r)
| ps_escaped_quote r : passes true r -> passes true (backslash :: quote :: r).

(** ** The escaping *)
Definition is_bs (c : ascii) : bool := Ascii.eqb c backslash.
Fixpoint esc (prev : ascii) (s : text) : text :=
  match s with
  | [] => []
  | c :: r => if Ascii.eqb c quote then (if is_bs prev then [backslash; backslash; quote] else [backslash; quote]) ++ esc c r else c :: esc c r
  end.
Fixpoint escape_text (s : text) : text :=
  match s with [] => [] | c :: r => if Ascii.eqb c quote then [backslash; quote] ++ esc quote r else c :: escape_text r end.
Fixpoint quotes (s : text) : nat := match s with [] => 0 | c :: r => (if Ascii.eqb c quote then 1 else 0) + quotes r end.
Lemma find_quote_spec s : match find_quote s with
  | None => ~ In quote s /\ quotes s = 0
  | Some k => exists pre post, s = pre ++ quote :: post /\ List.length pre = k /\ ~ In quote pre /\ quotes s = S (quotes post)
  end.
Proof.
  induction s as [|c r IH]; [cbn; auto|]. cbn [find_quote quotes]. destruct (Ascii.eqb_spec c quote) as [->|Hc].
  - exists [], r. cbn. auto.
  - destruct (find_quote r) as [k|]; cbn [option_map].
    + destruct IH as (pre & post & -> & Hl & Hn & Hq). exists (c :: pre), post. cbn. rewrite Hl, Hq. intuition congruence.
    + cbn. intuition congruence.
Qed.
Lemma find_from_app d r : find_from (d ++ r) (List.length d) = option_map (Nat.add (List.length d)) (find_quote r).
Proof. unfold find_from. rewrite skipn_app, skipn_all, Nat.sub_diag. reflexivity. Qed.
Lemma replace_app d c r new : replace_at (d ++ c :: r) (List.length d) new = d ++ new ++ r.
Proof.
  unfold replace_at. rewrite firstn_app, firstn_all, Nat.sub_diag. cbn [firstn]. rewrite app_nil_r. f_equal. f_equal.
  replace (S (List.length d)) with (List.length (d ++ [c])) by (rewrite app_length; cbn; lia). replace (d ++ c :: r) with ((d ++ [c]) ++ r) by (rewrite <- app_assoc; reflexivity).
  rewrite skipn_app, skipn_all, Nat.sub_diag. reflexivity.
Qed.
Lemma esc_plain s : ~ In quote s -> forall p, esc p s = s.
Proof. induction s as [|c r IH]; intros H p; [reflexivity|]. cbn. destruct (Ascii.eqb_spec c quote) as [->|_]; [destruct H; left; reflexivity|]. rewrite IH; [reflexivity|]. intros Hin; apply H; right; exact Hin. Qed.
Lemma esc_app pre post p : ~ In quote pre -> esc p (pre ++ quote :: post) = pre ++ (if is_bs (List.last pre p) then [backslash; backslash; quote] else [backslash; quote]) ++ esc quote post.
Proof.
  revert p. induction pre as [|c r IH]; intros p H; [reflexivity|]. cbn [app esc]. destruct (Ascii.eqb_spec c quote) as [->|_]; [destruct H; left; reflexivity|].
  f_equal. rewrite IH by (intros Hin; apply H; right; exact Hin). destruct r; [reflexivity|]. f_equal. f_equal. f_equal. clear. cbn [List.last]. revert a. induction r as [|x r IH]; intros a; [reflexivity|]. apply IH.
Qed.
Lemma last_nth (d : text) c (pre : text) x : nth (List.length (d ++ c :: pre) - 1) ((d ++ c :: pre) ++ x) nul = List.last pre c.
Proof.
  replace (d ++ c :: pre) with ((d ++ [c]) ++ pre) by (rewrite <- app_assoc; reflexivity). destruct pre as [|y pre] using rev_ind.
  - rewrite app_nil_r. rewrite app_nth1 by (rewrite app_length; cbn; lia). rewrite app_nth2 by (rewrite app_length; cbn; lia). rewrite app_length. cbn. replace (List.length d + 1 - 1 - List.length d) with 0 by lia. reflexivity.
  - clear IHpre. rewrite last_last, app_assoc. rewrite app_nth1 by (rewrite app_length; cbn; lia). rewrite app_nth2 by (rewrite app_length; cbn; lia). rewrite app_length. cbn.
    replace (_ - _) with 0 by lia. reflexivity.
Qed.
Definition finish (oob : option ascii) (s : text) : res text :=
  match oob with None => Fail UB | Some c => if Ascii.eqb c backslash then Fail Throw else Ok s end.
Lemma loops oob q : forall rest d n m, quotes rest <= q -> quotes rest < n -> quotes rest < m ->
  (do sp <- inner oob n ((d ++ [quote]) ++ rest) (find_from ((d ++ [quote]) ++ rest) (List.length (d ++ [quote]))); outer oob m (fst sp) (snd sp)) = finish oob ((d ++ [quote]) ++ esc quote rest).
Proof.
  induction q as [|q IH]; intros rest d n m Hq Hn Hm; (destruct n as [|n]; [lia|]); (destruct m as [|m]; [lia|]); rewrite find_from_app; pose proof (find_quote_spec rest) as Hs; destruct (find_quote rest) as [k|]; cbn [option_map].
  - destruct Hs as (pre & post & _ & _ & _ & H). lia.
  - destruct Hs as [Hs _]. rewrite esc_plain by exact Hs. cbn [inner]. unfold finish. destruct oob as [c|]; [|reflexivity]. destruct (Ascii.eqb c backslash); reflexivity.
  - destruct Hs as (pre & post & -> & Hl & Hnq & Hqq). rewrite esc_app by exact Hnq. cbn [inner]. rewrite <- Hl.
    assert (El : List.length (d ++ [quote]) + List.length pre = List.length (d ++ quote :: pre)) by (rewrite !app_length; cbn; lia). rewrite El.
    assert (Ea : (d ++ [quote]) ++ pre ++ quote :: post = (d ++ quote :: pre) ++ quote :: post) by (rewrite <- !app_assoc; reflexivity). rewrite Ea. rewrite last_nth.
    destruct (Ascii.eqb (List.last pre quote) backslash) eqn:Eb; unfold is_bs; rewrite Eb.
    + rewrite replace_app. set (d' := (d ++ quote :: pre) ++ [backslash; backslash]).
      assert (E1 : (d ++ quote :: pre) ++ [backslash; backslash; quote] ++ post = (d' ++ [quote]) ++ post) by (unfold d'; rewrite <- !app_assoc; reflexivity).
      assert (E2 : List.length (d ++ quote :: pre) + 3 = List.length (d' ++ [quote])) by (unfold d'; rewrite !app_length; cbn; lia).
      assert (E3 : (d ++ [quote]) ++ pre ++ [backslash; backslash; quote] ++ esc quote post = (d' ++ [quote]) ++ esc quote post) by (unfold d'; rewrite <- !app_assoc; cbn; rewrite <- ?app_assoc; reflexivity).
      rewrite E1, E2, E3. apply IH; lia.
    + cbn [bind fst snd]. cbn [outer]. rewrite replace_app. set (d' := (d ++ quote :: pre) ++ [backslash]).
      assert (E1 : (d ++ quote :: pre) ++ [backslash; quote] ++ post = (d' ++ [quote]) ++ post) by (unfold d'; rewrite <- !app_assoc; reflexivity).
      assert (E2 : List.length (d ++ quote :: pre) + 2 = List.length (d' ++ [quote])) by (unfold d'; rewrite !app_length; cbn; lia).
      assert (E3 : (d ++ [quote]) ++ pre ++ [backslash; quote] ++ esc quote post = (d' ++ [quote]) ++ esc quote post) by (unfold d'; rewrite <- !app_assoc; cbn; rewrite <- ?app_assoc; reflexivity).
      rewrite E1, E2, E3. apply IH; [lia| |lia]. rewrite app_length. assert (Hle : forall s, quotes s <= List.length s) by (induction s as [|x s IHs]; [cbn; lia|cbn; destruct (Ascii.eqb x quote); lia]). pose proof (Hle post). lia.
  - destruct Hs as [Hs _]. rewrite esc_plain by exact Hs. cbn [inner]. unfold finish. destruct oob as [c|]; [|reflexivity]. destruct (Ascii.eqb c backslash); reflexivity.
Qed.
Lemma escape_plain s : ~ In quote s -> escape_text s = s.
Proof. induction s as [|c r IH]; intros H; [reflexivity|]. cbn. destruct (Ascii.eqb_spec c quote) as [->|_]; [destruct H; left; reflexivity|]. rewrite IH; [reflexivity|]. intros Hin; apply H; right; exact Hin. Qed.
Lemma escape_app pre post : ~ In quote pre -> escape_text (pre ++ quote :: post) = pre ++ [backslash; quote] ++ esc quote post.
Proof. induction pre as [|c r IH]; intros H; [reflexivity|]. cbn [app escape_text]. destruct (Ascii.eqb_spec c quote) as [->|_]; [destruct H; left; reflexivity|]. f_equal. apply IH. intros Hin; apply H; right; exact Hin. Qed.
Lemma quotes_le s : quotes s <= List.length s.
Proof. induction s as [|x s IH]; [cbn; lia|]. cbn. destruct (Ascii.eqb x quote); lia. Qed.
Lemma replace_all_spec oob s : replace_all oob s = if in_dec ascii_dec quote s then finish oob (escape_text s) else Ok s.
Proof.
  unfold replace_all, find_from. cbn [skipn]. pose proof (find_quote_spec s) as Hs. destruct (find_quote s) as [k|]; cbn [option_map Nat.add].
  - destruct Hs as (pre & post & -> & Hl & Hn & Hq). destruct (in_dec ascii_dec quote (pre ++ quote :: post)) as [_|Hx]; [|destruct Hx; apply in_or_app; right; left; reflexivity].
    rewrite escape_app by exact Hn. cbn [outer]. subst k. rewrite replace_app.
    assert (E1 : pre ++ [backslash; quote] ++ post = ((pre ++ [backslash]) ++ [quote]) ++ post) by (rewrite <- !app_assoc; reflexivity).
    assert (E2 : List.length pre + 2 = List.length ((pre ++ [backslash]) ++ [quote])) by (rewrite !app_length; cbn; lia).
    assert (E3 : pre ++ [backslash; quote] ++ esc quote post = ((pre ++ [backslash]) ++ [quote]) ++ esc quote post) by (rewrite <- !app_assoc; reflexivity).
    rewrite E1, E2, E3. apply (loops oob (quotes post)); [lia| |]; rewrite !app_length; cbn; pose proof (quotes_le post); lia.
  - destruct Hs as [Hs _]. destruct (in_dec ascii_dec quote s) as [Hx|_]; [contradiction|]. cbn [outer]. reflexivity.
Qed.

(** ** The shell *)
Lemma eqb_no c d : c <> d -> Ascii.eqb c d = false.
Proof. apply Ascii.eqb_neq. Qed.
Lemma dquoted_char c r a t : c <> quote -> c <> dollar -> c <> backquote -> c <> backslash -> dquoted r = Some (a, t) -> dquoted (c :: r) = Some (c :: a, t).
Proof. intros H1 H2 H3 H4 E. cbn [dquoted]. rewrite !eqb_no by assumption. cbn [orb]. rewrite E. reflexivity. Qed.
Lemma dquoted_keep c r a t : c <> quote -> c <> dollar -> c <> backquote -> c <> backslash -> c <> newline -> dquoted r = Some (a, t) -> dquoted (backslash :: c :: r) = Some (backslash :: c :: a, t).
Proof. intros H1 H2 H3 H4 H5 E. cbn [dquoted]. change (Ascii.eqb backslash quote) with false. change (Ascii.eqb backslash dollar) with false. change (Ascii.eqb backslash backquote) with false. change (Ascii.eqb backslash backslash) with true. cbn [orb]. rewrite E. rewrite !eqb_no by assumption. reflexivity. Qed.
Lemma dquoted_quote r a t : dquoted r = Some (a, t) -> dquoted (backslash :: quote :: r) = Some (quote :: a, t).
Proof. intros E. cbn [dquoted]. change (Ascii.eqb backslash quote) with false. change (Ascii.eqb backslash dollar) with false. change (Ascii.eqb backslash backquote) with false. change (Ascii.eqb backslash backslash) with true. cbn [orb]. rewrite E. reflexivity. Qed.
Lemma dquoted_bs r a t : dquoted r = Some (a, t) -> dquoted (backslash :: backslash :: r) = Some (backslash :: a, t).
Proof. intros E. cbn [dquoted]. change (Ascii.eqb backslash quote) with false. change (Ascii.eqb backslash dollar) with false. change (Ascii.eqb backslash backquote) with false. change (Ascii.eqb backslash backslash) with true. cbn [orb]. rewrite E. reflexivity. Qed.
Lemma dquoted_esc s tail : passes true s -> forall prev, prev <> backslash -> dquoted (esc prev s ++ quote :: tail) = Some (s, tail).
Proof.
  remember true as b eqn:Eb. intros H. induction H as [b|b r H IH|b c r H1 H2 H3 H IH|b c r H1 H2 H3 H4 H IH|r H IH]; intros prev Hp.
  - cbn. reflexivity.
  - cbn [esc]. change (Ascii.eqb quote quote) with true. unfold is_bs. rewrite (eqb_no _ _ Hp). cbn [app]. apply dquoted_quote. apply IH; [reflexivity|discriminate].
  - cbn [esc]. rewrite (eqb_no _ _ H1). cbn [app]. unfold special in H3. apply dquoted_char; try assumption; try (intros ->; apply H3; auto). apply IH; [exact Eb|exact H2].
  - cbn [esc]. change (Ascii.eqb backslash quote) with false. rewrite (eqb_no _ _ H4). cbn [app]. unfold special in H1. apply dquoted_keep; try assumption; try (intros ->; apply H1; auto). apply IH; [exact Eb|exact H2].
  - cbn [esc]. change (Ascii.eqb backslash quote) with false. change (Ascii.eqb quote quote) with true. change (is_bs backslash) with true. cbn [app]. apply dquoted_bs, dquoted_quote. apply IH; [reflexivity|discriminate].
Qed.
Lemma dquoted_escape s tail : passes false s -> dquoted (escape_text s ++ quote :: tail) = Some (s, tail).
Proof.
  remember false as b eqn:Eb. intros H. induction H as [b|b r H IH|b c r H1 H2 H3 H IH|b c r H1 H2 H3 H4 H IH|r H IH].
  - reflexivity.
  - cbn [escape_text]. change (Ascii.eqb quote quote) with true. cbn [app]. apply dquoted_quote. apply dquoted_esc; [exact H|discriminate].
  - cbn [escape_text]. rewrite (eqb_no _ _ H1). cbn [app]. unfold special in H3. apply dquoted_char; try assumption; try (intros ->; apply H3; auto). apply IH, Eb.
  - cbn [escape_text]. change (Ascii.eqb backslash quote) with false. rewrite (eqb_no _ _ H4). cbn [app]. unfold special in H1. apply dquoted_keep; try assumption; try (intros ->; apply H1; auto). apply IH, Eb.
  - discriminate Eb.
Qed.
Lemma c_string_id s : ~ In nul s -> c_string s = s.
Proof. induction s as [|c r IH]; intros H; [reflexivity|]. cbn. rewrite eqb_no by (intros ->; apply H; left; reflexivity). rewrite IH; [reflexivity|]. intros Hin; apply H; right; exact Hin. Qed.
Lemma passes_nul b s : passes b s -> ~ In nul s.
Proof. induction 1 as [b|b r H IH|b c r H1 H2 H3 H IH|b c r H1 H2 H3 H4 H IH|r H IH]; cbn; unfold special in *; intuition (try congruence; try discriminate). Qed.
Lemma esc_in p s c : In c (esc p s) -> c = backslash \/ In c s.
Proof.
  revert p. induction s as [|x r IH]; intros p; [auto|]. cbn [esc]. destruct (Ascii.eqb_spec x quote) as [->|_].
  - intros H. apply in_app_or in H as [H|H]; [destruct (is_bs p); cbn in H; intuition (subst; auto; try (right; left; reflexivity))|]. apply IH in H as [->|H]; [auto|right; right; exact H].
  - intros [->|H]; [right; left; reflexivity|]. apply IH in H as [->|H]; [auto|right; right; exact H].
Qed.
Lemma escape_in s c : In c (escape_text s) -> c = backslash \/ In c s.
Proof.
  induction s as [|x r IH]; [auto|]. cbn [escape_text]. destruct (Ascii.eqb_spec x quote) as [->|_].
  - intros H. apply in_app_or in H as [H|H]; [cbn in H; intuition (subst; auto; try (right; left; reflexivity))|]. apply esc_in in H as [->|H]; [auto|right; right; exact H].
  - intros [->|H]; [right; left; reflexivity|]. apply IH in H as [->|H]; [auto|right; right; exact H].
Qed.
Lemma esc_length p s : List.length (esc p s) <= 3 * List.length s.
Proof. revert p. induction s as [|x r IH]; intros p; [cbn; lia|]. cbn [esc]. destruct (Ascii.eqb x quote); [|cbn; pose proof (IH x); lia]. rewrite app_length. pose proof (IH x). destruct (is_bs p); cbn; lia. Qed.
Lemma escape_length s : List.length (escape_text s) <= 3 * List.length s.
Proof. induction s as [|x r IH]; [cbn; lia|]. cbn [escape_text]. destruct (Ascii.eqb x quote); [|cbn; lia]. rewrite app_length. pose proof (esc_length quote r). cbn; lia. Qed.
Lemma xsi_id s : ~ In backslash s -> xsi_text s = s.
Proof. induction s as [|c r IH]; intros H; [reflexivity|]. cbn. rewrite eqb_no by (intros ->; apply H; left; reflexivity). rewrite IH; [reflexivity|]. intros Hin; apply H; right; exact Hin. Qed.

(** ** C36 *)
(** A text that passes reaches the preprocessor, with a newline behind it; with an echo that interprets backslashes the
    text must have none.  Texts with a quote: provided that the character read outside of the string is not a backslash.
    Missing for the full property: all other texts ([C36_*_refuted]). *)
Theorem C36_received_partial : forall xsi oob tail s, passes false s -> hd_error s <> Some "-"%char -> (xsi = true -> ~ In backslash s) ->
  (In quote s -> exists c, oob = Some c /\ c <> backslash) -> ~ In nul tail -> (3 * N.of_nat (List.length s) + N.of_nat (List.length tail) + 8 <= arg_limit)%N ->
  received xsi oob tail s = Ok (Some (s ++ [newline])).
Proof.
  intros xsi oob tail s Hp Hm Hx Hq Ht Hl. unfold received.
  assert (E : replace_all oob s = Ok (escape_text s)).
  { rewrite replace_all_spec. destruct (in_dec ascii_dec quote s) as [Hi|Hi]; [|rewrite escape_plain by exact Hi; reflexivity]. destruct (Hq Hi) as (c & -> & Hc). unfold finish. rewrite (eqb_no _ _ Hc). reflexivity. }
  rewrite E. cbn [bind]. rewrite c_string_id.
  2:{ intros Hin. apply in_app_or in Hin as [Hin|Hin]; [vm_compute in Hin; intuition discriminate|]. apply in_app_or in Hin as [Hin|[Hin|Hin]]; [|discriminate Hin|contradiction]. apply escape_in in Hin as [Hin|Hin]; [discriminate Hin|]. exact (passes_nul _ _ Hp Hin). }
  assert (El : (arg_limit <=? N.of_nat (List.length (prefix ++ escape_text s ++ quote :: tail)))%N = false).
  { apply N.leb_gt. rewrite !app_length. cbn [List.length]. change (List.length prefix) with 6. pose proof (escape_length s). unfold arg_limit in *. lia. }
  rewrite El. rewrite skipn_app, skipn_all, Nat.sub_diag. cbn [skipn app]. rewrite (dquoted_escape _ _ Hp). destruct (list_eq_dec ascii_dec tail tail) as [_|Hn]; [|congruence].
  f_equal. unfold echo. destruct s as [|c r]; [reflexivity|]. rewrite eqb_no by (intros ->; apply Hm; reflexivity). destruct xsi; [rewrite xsi_id by (apply Hx; reflexivity)|]; reflexivity.
Qed.
(** Every text with a quote makes replace_all_string read outside of the string. *)
Theorem C36_out_of_bounds_refuted : forall xsi tail s, In quote s -> received xsi None tail s = Fail UB.
Proof. intros xsi tail s Hi. unfold received. rewrite replace_all_spec. destruct (in_dec ascii_dec quote s) as [_|Hn]; [reflexivity|contradiction]. Qed.
(** A text without quotes is safe from it. *)
Theorem C36_no_quotes : forall oob s, ~ In quote s -> replace_all oob s = Ok s.
Proof. intros oob s Hn. rewrite replace_all_spec. destruct (in_dec ascii_dec quote s); [contradiction|reflexivity]. Qed.
Definition str (s : string) : text := list_ascii_of_string s.
Definition cpp : text := str " | cpp -H  2>/dev/null".
(** The first quote is escaped without regard to a backslash before it: the shell sees the end of the argument. *)
Theorem C36_first_quote_refuted : forall xsi, received xsi (Some nul) cpp (str "// \""") = Ok None /\ received xsi (Some nul) cpp (str "// "" \""") = Ok (Some (str "// "" \""" ++ [newline])).
Proof. intros []; split; vm_compute; reflexivity. Qed.
(** Two backslashes become one. *)
Theorem C36_backslashes_refuted : forall xsi, received xsi (Some nul) cpp (str "// a\\q") = Ok (Some (str "// a\q" ++ [newline])).
Proof. intros []; vm_compute; reflexivity. Qed.
(** A line that is continued with a backslash (a macro of several lines) is joined with the next one. *)
Theorem C36_continuation_refuted : forall xsi, received xsi (Some nul) cpp (str "#define A 1 +\" ++ [newline] ++ str "2") = Ok (Some (str "#define A 1 +2" ++ [newline])).
Proof. intros []; vm_compute; reflexivity. Qed.
(** With an echo that interprets backslashes the escape sequences of IDL strings are replaced. *)
Theorem C36_escapes_refuted : received true (Some nul) cpp (str "const char c = '\n';") = Ok (Some (str "const char c = '" ++ [newline] ++ str "';" ++ [newline])) /\
  received false (Some nul) cpp (str "const char c = '\n';") = Ok (Some (str "const char c = '\n';" ++ [newline])).
Proof. split; vm_compute; reflexivity. Qed.
(** A backquote that gets to the shell starts a command substitution: the text behind it is run as a command. *)
Theorem C36_substitution_refuted : forall oob a b, (forall c, In c a -> c <> quote /\ c <> backslash /\ ~ special c) -> ~ In quote b ->
  exists e, replace_all oob (a ++ backquote :: b) = Ok e /\ e = a ++ backquote :: b /\ forall r, dquoted (e ++ r) = None.
Proof.
  intros oob a b Ha Hb. exists (a ++ backquote :: b). split.
  - apply C36_no_quotes. intros Hin. apply in_app_or in Hin as [Hin|[Hin|Hin]]; [destruct (Ha _ Hin); congruence|discriminate Hin|contradiction].
  - split; [reflexivity|]. intros r. induction a as [|c a IH]; [reflexivity|]. cbn [app]. destruct (Ha c (or_introl eq_refl)) as (H1 & H2 & H3). cbn [dquoted]. unfold special in H3. rewrite !eqb_no by (try assumption; intros ->; apply H3; auto). cbn [orb].
    rewrite IH; [reflexivity|]. intros x Hx. apply Ha. right. exact Hx.
Qed.
(** The output of the preprocessor is read completely if it has no NUL. *)
Lemma fgets_spec n s : n <> 0 -> s <> [] -> exists a b, fgets n s = (a, b) /\ s = a ++ b /\ a <> [].
Proof.
  revert s. induction n as [|n IH]; intros s Hn Hs; [congruence|]. destruct s as [|c r]; [congruence|]. cbn [fgets]. destruct (Ascii.eqb c newline); [exists [c], r; repeat split; discriminate|].
  destruct n as [|n]; [cbn; exists [c], r; repeat split; discriminate|]. destruct r as [|d r]; [exists [c], []; repeat split; discriminate|].
  destruct (IH (d :: r)) as (a & b & E & Es & Ha); [discriminate|discriminate|]. rewrite E. exists (c :: a), b. rewrite Es. repeat split; discriminate.
Qed.
Theorem C36_output : forall s, ~ In nul s -> exec_output s = Ok s.
Proof.
  intros s Hn. unfold exec_output. assert (H : forall k s, ~ In nul s -> List.length s < k -> read_all k s = Ok s).
  { clear. induction k as [|k IH]; intros s Hn Hk; [lia|]. cbn [read_all]. destruct s as [|c r]; [reflexivity|]. destruct (fgets_spec 255 (c :: r)) as (a & b & E & Es & Ha); [discriminate|discriminate|]. rewrite E. rewrite Es in *.
    rewrite app_length in Hk. destruct a as [|x a]; [congruence|]. cbn in Hk. rewrite IH; [|intros Hin; apply Hn, in_or_app; auto|lia]. cbn [bind]. rewrite c_string_id by (intros Hin; apply Hn, in_or_app; auto). reflexivity. }
  apply H; [exact Hn|lia].
Qed.
Theorem C36_output_nul_refuted : exec_output (str "ab" ++ [nul] ++ str "cd" ++ [newline] ++ str "ef") = Ok (str "abef").
Proof. vm_compute. reflexivity. Qed.
Example C36_nontrivial : exists s, passes false s /\ In quote s /\ List.length s = 20 /\ received false (Some nul) cpp s = Ok (Some (s ++ [newline])).
Proof.
  exists (str "const string s=""\a"";"). split; [|split; [vm_compute; tauto|split; vm_compute; reflexivity]].
  unfold str. cbn [list_ascii_of_string]. unfold special. repeat first [apply ps_nil | apply ps_quote | apply ps_escaped; [unfold special; intuition discriminate|discriminate|discriminate|discriminate|] | apply ps_char; [discriminate|discriminate|unfold special; intuition discriminate|]].
Qed.

Print Assumptions C36_received_partial.
Print Assumptions C36_out_of_bounds_refuted.
Print Assumptions C36_no_quotes.
Print Assumptions C36_first_quote_refuted.
Print Assumptions C36_backslashes_refuted.
Print Assumptions C36_continuation_refuted.
Print Assumptions C36_escapes_refuted.
Print Assumptions C36_substitution_refuted.
Print Assumptions C36_output.
Print Assumptions C36_output_nul_refuted.
