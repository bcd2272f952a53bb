(** Facts about the conversion of strings. *)
From Verif Require Import Base Codecvt.

(** ** The encodings *)
(** Unicode scalar values. *)
Definition scalar (c : N) : Prop := c < 55296 \/ (57344 <= c /\ c < 1114112).
Ltac tests := repeat match goal with
  | |- context [?a <? ?b] => first [rewrite (proj2 (N.ltb_lt a b)) by lia | rewrite (proj2 (N.ltb_ge a b)) by lia]
  | |- context [?a <=? ?b] => first [rewrite (proj2 (N.leb_le a b)) by lia | rewrite (proj2 (N.leb_gt a b)) by lia]
  | |- context [?a =? ?b] => first [rewrite (proj2 (N.eqb_eq a b)) by lia | rewrite (proj2 (N.eqb_neq a b)) by lia]
  end.
Lemma cons_same {A} (x y : A) l m : x :: l = y :: m -> x = y /\ l = m.
Proof. intros E. injection E. auto. Qed.
Lemma cont_mod r : r < 64 -> cont (128 + r) = true.
Proof. intros H. unfold cont. replace ((128 + r) / 64) with 2; [reflexivity|]. apply N.div_unique with (r := r); lia. Qed.
Lemma split64 c : exists q r, c = 64 * q + r /\ r < 64 /\ c / 64 = q /\ c mod 64 = r.
Proof. exists (c / 64), (c mod 64). pose proof (N.div_mod c 64 ltac:(lia)). pose proof (N.mod_lt c 64 ltac:(lia)). auto. Qed.
Lemma utf8_2 c : 128 <= c < 2048 -> exists q r, c = 64 * q + r /\ r < 64 /\ utf8 c = [192 + q; 128 + r].
Proof. intros H. destruct (split64 c) as (q & r & E & Hr & Eq & Er). exists q, r. split; [exact E|]. split; [exact Hr|]. unfold utf8. tests. rewrite Eq, Er. reflexivity. Qed.
Lemma utf8_3 c : 2048 <= c < 65536 -> exists p q r, c = 4096 * p + 64 * q + r /\ q < 64 /\ r < 64 /\ utf8 c = [224 + p; 128 + q; 128 + r].
Proof.
  intros H. destruct (split64 c) as (q0 & r & E & Hr & Eq & Er). destruct (split64 q0) as (p & q & E1 & Hq & Eq1 & Er1). exists p, q, r. split; [lia|]. split; [exact Hq|]. split; [exact Hr|].
  unfold utf8. tests. replace 4096 with (64 * 64) by reflexivity. rewrite <- N.div_div by lia. rewrite Eq, Eq1, Er1, Er. reflexivity.
Qed.
Lemma utf8_4 c : 65536 <= c < 1114112 -> exists o p q r, c = 262144 * o + 4096 * p + 64 * q + r /\ p < 64 /\ q < 64 /\ r < 64 /\ utf8 c = [240 + o; 128 + p; 128 + q; 128 + r].
Proof.
  intros H. destruct (split64 c) as (q0 & r & E & Hr & Eq & Er). destruct (split64 q0) as (p0 & q & E1 & Hq & Eq1 & Er1). destruct (split64 p0) as (o & p & E2 & Hp & Eq2 & Er2). exists o, p, q, r. split; [lia|]. split; [exact Hp|]. split; [exact Hq|]. split; [exact Hr|].
  unfold utf8. tests. replace 262144 with (64 * 64 * 64) by reflexivity. replace 4096 with (64 * 64) by reflexivity. rewrite <- !N.div_div by lia. rewrite Eq, Eq1, Eq2, Er2, Er1, Er. reflexivity.
Qed.
Lemma next8_utf8 c r : scalar c -> next8 (utf8 c ++ r) = Char c (List.length (utf8 c)).
Proof.
  intros Hc. unfold scalar in Hc. destruct (N.lt_ge_cases c 128) as [H|H]; [unfold utf8; tests; cbn [app next8]; tests; reflexivity|].
  destruct (N.lt_ge_cases c 2048) as [H1|H1].
  { destruct (utf8_2 c) as (q & s & E & Hs & ->); [lia|]. cbn [app next8 List.length]. tests. rewrite cont_mod by exact Hs. f_equal. lia. }
  destruct (N.lt_ge_cases c 65536) as [H2|H2].
  { destruct (utf8_3 c) as (p & q & s & E & Hq & Hs & ->); [lia|]. cbn [app next8 List.length]. tests. rewrite !cont_mod by assumption. cbn [negb orb].
    replace ((224 + p =? 224) && (128 + q <? 160)) with false; [|symmetry; apply andb_false_iff; destruct (N.eq_dec p 0) as [->|]; [right; apply N.ltb_ge; lia|left; apply N.eqb_neq; lia]].
    replace ((224 + p =? 237) && (160 <=? 128 + q)) with false; [|symmetry; apply andb_false_iff; destruct (N.eq_dec p 13) as [->|]; [right; apply N.leb_gt; lia|left; apply N.eqb_neq; lia]].
    cbn [orb]. f_equal. lia. }
  destruct (utf8_4 c) as (o & p & q & s & E & Hp & Hq & Hs & ->); [lia|]. cbn [app next8 List.length]. tests. rewrite !cont_mod by assumption. cbn [negb orb].
  replace ((240 + o =? 240) && (128 + p <? 144)) with false; [|symmetry; apply andb_false_iff; destruct (N.eq_dec o 0) as [->|]; [right; apply N.ltb_ge; lia|left; apply N.eqb_neq; lia]].
  replace ((240 + o =? 244) && (144 <=? 128 + p)) with false; [|symmetry; apply andb_false_iff; destruct (N.eq_dec o 4) as [->|]; [right; apply N.leb_gt; lia|left; apply N.eqb_neq; lia]].
  cbn [orb]. f_equal. lia.
Qed.
Lemma next8_prefix c a b : scalar c -> utf8 c = a ++ b -> b <> [] -> next8 a = Incomplete.
Proof.
  intros Hc E Hb. destruct a as [|x a]; [reflexivity|]. unfold scalar in Hc. destruct (N.lt_ge_cases c 128) as [H|H]; [unfold utf8 in E; rewrite (proj2 (N.ltb_lt _ _) H) in E; destruct a, b; cbn [app] in E; congruence|].
  destruct (N.lt_ge_cases c 2048) as [H1|H1].
  { destruct (utf8_2 c) as (q & s & Ec & Hs & E2); [lia|]. rewrite E2 in E. cbn [app] in E. apply cons_same in E as [<- E]. destruct a as [|y a]; [|destruct a, b; cbn [app] in E; congruence]. cbn [next8]. tests. reflexivity. }
  destruct (N.lt_ge_cases c 65536) as [H2|H2].
  { destruct (utf8_3 c) as (p & q & s & Ec & Hq & Hs & E2); [lia|]. rewrite E2 in E. cbn [app] in E. apply cons_same in E as [<- E]. cbn [next8]. tests. destruct a as [|y a]; [reflexivity|]. cbn [app] in E. apply cons_same in E as [<- E]. destruct a as [|z a]; [|destruct a, b; cbn [app] in E; congruence].
    rewrite !cont_mod by assumption. cbn [negb orb].
    replace ((224 + p =? 224) && (128 + q <? 160)) with false; [|symmetry; apply andb_false_iff; destruct (N.eq_dec p 0) as [->|]; [right; apply N.ltb_ge; lia|left; apply N.eqb_neq; lia]].
    replace ((224 + p =? 237) && (160 <=? 128 + q)) with false; [|symmetry; apply andb_false_iff; destruct (N.eq_dec p 13) as [->|]; [right; apply N.leb_gt; lia|left; apply N.eqb_neq; lia]]. reflexivity. }
  destruct (utf8_4 c) as (o & p & q & s & Ec & Hp & Hq & Hs & E2); [lia|]. rewrite E2 in E. cbn [app] in E. apply cons_same in E as [<- E]. cbn [next8]. tests. destruct a as [|y a]; [reflexivity|]. cbn [app] in E. apply cons_same in E as [<- E].
  rewrite !cont_mod by assumption. cbn [negb orb].
  replace ((240 + o =? 240) && (128 + p <? 144)) with false; [|symmetry; apply andb_false_iff; destruct (N.eq_dec o 0) as [->|]; [right; apply N.ltb_ge; lia|left; apply N.eqb_neq; lia]].
  replace ((240 + o =? 244) && (144 <=? 128 + p)) with false; [|symmetry; apply andb_false_iff; destruct (N.eq_dec o 4) as [->|]; [right; apply N.leb_gt; lia|left; apply N.eqb_neq; lia]]. cbn [orb].
  destruct a as [|z a]; [reflexivity|]. cbn [app] in E. apply cons_same in E as [<- E]. rewrite cont_mod by assumption. cbn [negb]. destruct a as [|w a]; [reflexivity|]. destruct a, b; cbn [app] in E; congruence.
Qed.
Lemma utf16_2 c : 65536 <= c < 1114112 -> exists q r, c = 1024 * q + r + 65536 /\ r < 1024 /\ q < 1024 /\ utf16 c = [55296 + q; 56320 + r].
Proof.
  intros H. pose proof (N.div_mod (c - 65536) 1024 ltac:(lia)) as E. pose proof (N.mod_lt (c - 65536) 1024 ltac:(lia)) as Hr. exists ((c - 65536) / 1024), ((c - 65536) mod 1024).
  split; [lia|]. split; [exact Hr|]. split; [apply N.div_lt_upper_bound; lia|]. unfold utf16. tests. reflexivity.
Qed.
Lemma next16_utf16 c r : scalar c -> next16 (utf16 c ++ r) = Char c (List.length (utf16 c)).
Proof.
  intros Hc. unfold scalar in Hc. destruct (N.lt_ge_cases c 65536) as [H|H].
  - unfold utf16. tests. cbn [app next16 List.length]. unfold high, low. destruct Hc as [Hc|Hc]; tests; reflexivity.
  - destruct (utf16_2 c) as (q & s & E & Hs & Hq & ->); [lia|]. cbn [app next16 List.length]. unfold high, low. tests. cbn [andb]. f_equal. lia.
Qed.
Lemma next16_prefix c a b : scalar c -> utf16 c = a ++ b -> b <> [] -> next16 a = Incomplete.
Proof.
  intros Hc E Hb. destruct a as [|x a]; [reflexivity|]. unfold scalar in Hc. destruct (N.lt_ge_cases c 65536) as [H|H]; [unfold utf16 in E; rewrite (proj2 (N.ltb_lt _ _) H) in E; destruct a, b; cbn [app] in E; congruence|].
  destruct (utf16_2 c) as (q & s & Ec & Hs & Hq & E2); [lia|]. rewrite E2 in E. cbn [app] in E. apply cons_same in E as [<- E]. destruct a as [|y a]; [|destruct a, b; cbn [app] in E; congruence]. cbn [next16]. unfold high. tests. reflexivity.
Qed.
Lemma utf8_len c : (1 <= List.length (utf8 c) <= 4)%nat.
Proof. unfold utf8. destruct (c <? 128); [cbn; lia|]. destruct (c <? 2048); [cbn; lia|]. destruct (c <? 65536); cbn; lia. Qed.
Lemma utf16_len c : (1 <= List.length (utf16 c) <= 2)%nat.
Proof. unfold utf16. destruct (c <? 65536); cbn; lia. Qed.

(** ** The loop *)
Local Open Scope nat_scope.
Section Loop.
  Variable read : list N -> next.
  Variable enc write : N -> list N.
  Variable at_end : cvt.
  Hypothesis read_enc : forall c r, scalar c -> read (enc c ++ r) = Char c (List.length (enc c)).
  Hypothesis enc_len : forall c, 1 <= List.length (enc c).
  Hypothesis write_len : forall c, 1 <= List.length (write c) <= 64.
  Notation I := (flat_map enc).
  Notation O := (flat_map write).
  (** No character of the output lies across a multiple of 64 units. *)
  Definition aligned (cs : list N) : Prop := forall a c b, cs = a ++ c :: b -> List.length (O a) mod 64 + List.length (write c) <= 64.
  Fixpoint fit (room : nat) (cs : list N) : list N * list N :=
    match cs, room with
    | c :: r, S _ => if Nat.leb (List.length (write c)) room then let (a, b) := fit (room - List.length (write c)) r in (c :: a, b) else ([], cs)
    | _, _ => ([], cs)
    end.
  Lemma fit_spec cs : forall room, let (a, b) := fit room cs in cs = a ++ b /\ List.length (O a) <= room /\ match b with [] => True | c :: _ => room < List.length (O a) + List.length (write c) end.
  Proof.
    induction cs as [|c r IH]; intros room; [cbn; repeat split; lia|]. cbn [fit]. destruct room as [|room]; [cbn; repeat split; [lia|]; pose proof (write_len c); lia|].
    destruct (Nat.leb_spec (List.length (write c)) (S room)) as [H|H].
    - specialize (IH (S room - List.length (write c))). destruct (fit _ r) as [a b]. destruct IH as (-> & H1 & H2). cbn. rewrite app_length. repeat split; [lia|]. destruct b; [exact Logic.I|lia].
    - cbn. repeat split; lia.
  Qed.
  (** [t] stays behind: nothing, or units from which no character can be read. *)
  Lemma translate_spec t : (t = [] \/ exists res, (forall room n, translate read write at_end (S n) t (S room) = (res, t, []))) -> forall cs, Forall scalar cs -> forall n room, List.length (I cs ++ t) <= n ->
    exists res, let (a, b) := fit room cs in translate read write at_end n (I cs ++ t) room = (res, I b ++ t, O a) /\ (b = [] -> t = [] -> res = COk) /\ (b <> [] -> res = COk \/ res = CPartial) /\
      (t <> [] -> b = [] -> room - List.length (O a) = 0 -> res = COk) /\ (t <> [] -> b = [] -> forall k, room - List.length (O a) = S k -> forall m k', translate read write at_end (S m) t (S k') = (res, t, [])).
  Proof.
    intros Ht. induction 1 as [|c r Hc Hr IH]; intros n room Hn.
    - cbn [flat_map app fit List.length] in *. destruct t as [|x t].
      + exists COk. assert (E : forall n room, translate read write at_end n [] room = (COk, [], [])) by (intros [|?] ?; reflexivity). rewrite E. repeat split; congruence.
      + destruct Ht as [Ht|(res & Ht)]; [discriminate Ht|]. destruct n as [|n]; [cbn in Hn; lia|]. destruct room as [|room].
        * exists COk. cbn. repeat split; try congruence; try lia.
        * exists res. rewrite Ht. repeat split; try congruence; try lia; cbn; try lia.
    - cbn [flat_map fit] in *. rewrite <- app_assoc in *. destruct n as [|n]; [rewrite app_length in Hn; pose proof (enc_len c); lia|]. destruct room as [|room].
      + exists COk. destruct (enc c ++ I r ++ t) eqn:E; cbn [translate]; cbn [flat_map]; rewrite <- ?app_assoc, ?E; repeat split; intros; try congruence; try (left; reflexivity).
      + pose proof (read_enc c (I r ++ t) Hc) as Er. pose proof (enc_len c) as Hl. destruct (enc c) as [|x e] eqn:Ee; [cbn in Hl; lia|]. cbn [app] in *. cbn [translate]. rewrite Er.
        destruct (Nat.leb (List.length (write c)) (S room)) eqn:El.
        * cbn [List.length skipn]. rewrite skipn_app, skipn_all, Nat.sub_diag. cbn [skipn app].
          destruct (IH n (S room - List.length (write c))) as (res & H); [rewrite ?app_length in *; cbn in Hn; rewrite ?app_length in Hn; lia|]. destruct (fit (S room - List.length (write c)) r) as [a b]. destruct H as (E & H1 & H2 & H3 & H4). exists res. rewrite E. cbn [flat_map]. rewrite app_length.
          split; [reflexivity|]. split; [exact H1|]. split; [exact H2|]. apply Nat.leb_le in El. split; [intros; apply H3; try assumption; lia|]. intros A B k Hk. apply (H4 A B k). lia.
        * exists CPartial. cbn [flat_map]. rewrite Ee. cbn [app]. rewrite <- ?app_assoc. repeat split; intros; try congruence. right; reflexivity.
  Qed.
  Lemma aligned_fit cs a b : fit 64 cs = (a, b) -> aligned cs <-> (b = [] \/ (List.length (O a) = 64 /\ aligned b)).
  Proof.
    intros E. pose proof (fit_spec cs 64) as H. rewrite E in H. destruct H as (-> & Hle & Hb). split.
    - intros Ha. destruct b as [|c b]; [left; reflexivity|right]. assert (E64 : List.length (O a) = 64).
      { specialize (Ha a c b eq_refl). destruct (Nat.eq_dec (List.length (O a)) 64) as [|Hn]; [assumption|]. rewrite Nat.mod_small in Ha by lia. lia. }
      split; [exact E64|]. intros a' c' b' E'. specialize (Ha (a ++ a') c' b'). rewrite E' in Ha. rewrite <- app_assoc in Ha. specialize (Ha eq_refl). rewrite flat_map_app, app_length, E64 in Ha. replace (64 + List.length (O a')) with (List.length (O a') + 1 * 64) in Ha by lia. rewrite Nat.mod_add in Ha by lia. exact Ha.
    - intros Hd x c y Exy.
      assert (Hin : forall z, a = x ++ c :: z -> List.length (O x) mod 64 + List.length (write c) <= 64).
      { intros z ->. rewrite flat_map_app, app_length in Hle. cbn in Hle. rewrite app_length in Hle. pose proof (write_len c). rewrite Nat.mod_small by lia. lia. }
      assert (Hsplit : (exists z, a = x ++ c :: z) \/ exists a', x = a ++ a' /\ b = a' ++ c :: y).
      { clear - Exy. revert x Exy. induction a as [|u a IH]; intros x Exy; [right; exists x; auto|]. destruct x as [|v x]; cbn in Exy; injection Exy as -> Exy; [left; exists a; reflexivity|].
        destruct (IH x Exy) as [(z & ->)|(a' & -> & Eb)]; [left; exists z; reflexivity|right; exists a'; auto]. }
      destruct Hsplit as [(z & Ez)|(a' & -> & Eb)]; [apply (Hin z Ez)|]. destruct Hd as [Hd|[E64 Hd]]; [rewrite Hd in Eb; destruct a'; discriminate Eb|].
      specialize (Hd a' c y Eb). rewrite flat_map_app, app_length, E64. replace (64 + List.length (O a')) with (List.length (O a') + 1 * 64) by lia. rewrite Nat.mod_add by lia. exact Hd.
  Qed.
  Lemma fit_progress cs a b : fit 64 cs = (a, b) -> cs <> [] -> a <> [].
  Proof. intros E Hn. destruct cs as [|c r]; [congruence|]. cbn [fit] in E. pose proof (write_len c). rewrite (proj2 (Nat.leb_le _ _)) in E by lia. destruct (fit _ r). injection E as <- <-. discriminate. Qed.
  (** The whole loop on characters: it ends; the output is right exactly if the characters are aligned, too long otherwise. *)
  Lemma convert_spec fuel : forall cs buffer output, Forall scalar cs -> List.length buffer = 64 -> List.length cs < fuel ->
    exists r, convert_loop read write at_end fuel (I cs) buffer output = Ok r /\ (aligned cs -> r = output ++ O cs) /\ (~ aligned cs -> List.length output + List.length (O cs) < List.length r) /\ List.length output + List.length (O cs) <= List.length r.
  Proof.
    induction fuel as [|n IH]; intros cs buffer output Hcs Hb Hf; [lia|]. cbn [convert_loop].
    destruct (translate_spec [] (or_introl eq_refl) cs Hcs (List.length (I cs)) 64) as (res & H); [rewrite app_nil_r; lia|]. destruct (fit 64 cs) as [a b] eqn:Ef. destruct H as (E & H1 & H2 & _). rewrite !app_nil_r in E. unfold buffer_size. rewrite E.
    pose proof (fit_spec cs 64) as Hs. rewrite Ef in Hs. destruct Hs as (Ecs & Hle & Hov). pose proof (aligned_fit cs a b Ef) as Hal.
    assert (Hlen : List.length (O a ++ skipn (List.length (O a)) buffer) = 64) by (rewrite app_length, skipn_length; lia).
    destruct b as [|c b].
    - rewrite (H1 eq_refl eq_refl). cbn [flat_map]. exists (output ++ O a). rewrite firstn_app, firstn_all, Nat.sub_diag. cbn [firstn]. rewrite app_nil_r. rewrite app_nil_r in Ecs. subst a. split; [reflexivity|]. split; [reflexivity|]. rewrite app_length. split; [|lia]. intros Hna. exfalso. apply Hna, Hal. left. reflexivity.
    - assert (Hfb : Forall scalar (c :: b)) by (rewrite Ecs in Hcs; apply Forall_app in Hcs; apply Hcs). assert (Ha : a <> []) by (eapply fit_progress; [exact Ef|rewrite Ecs; destruct a; discriminate]).
      destruct (IH (c :: b) (O a ++ skipn (List.length (O a)) buffer) (output ++ O a ++ skipn (List.length (O a)) buffer) Hfb Hlen) as (r & Er & R1 & R2 & R3).
      { rewrite Ecs, app_length in Hf. destruct a; [congruence|]. cbn in *. lia. }
      exists r. split.
      { assert (Hnn : I (c :: b) <> []) by (cbn; pose proof (enc_len c); destruct (enc c); [cbn in *; lia|discriminate]). destruct (H2 ltac:(discriminate)) as [-> | ->]; [destruct (I (c :: b)); [congruence|exact Er]|exact Er]. }
      rewrite Ecs in Hal |- *. rewrite flat_map_app. rewrite app_length in R2, R3. rewrite Hlen in R2, R3. rewrite app_length. split; [|split].
      + intros Hac. apply Hal in Hac as [Hac|[E64 Hac]]; [discriminate Hac|]. rewrite (R1 Hac). rewrite skipn_all2 by lia. rewrite app_nil_r, <- app_assoc. reflexivity.
      + intros Hna. destruct (Nat.eq_dec (List.length (O a)) 64) as [E64|Hne]; [|lia]. assert (~ aligned (c :: b)) by (intros Hx; apply Hna, Hal; right; auto). specialize (R2 H). lia.
      + lia.
  Qed.
  (** Input that ends in an incomplete character: the loop never ends. *)
  Lemma convert_never fuel t : t <> [] -> read t = Incomplete -> (at_end = COk \/ at_end = CPartial) -> forall cs buffer output, Forall scalar cs -> List.length buffer = 64 ->
    convert_loop read write at_end fuel (I cs ++ t) buffer output = Fail Loop.
  Proof.
    intros Ht Hi He. assert (Htr : forall room n, translate read write at_end (S n) t (S room) = (at_end, t, [])) by (intros room n; cbn [translate]; rewrite Hi; destruct t; [congruence|reflexivity]).
    induction fuel as [|n IH]; intros cs buffer output Hcs Hb; [reflexivity|]. cbn [convert_loop].
    destruct (translate_spec t (or_intror (ex_intro _ at_end Htr)) cs Hcs (List.length (I cs ++ t)) 64) as (res & H); [lia|]. destruct (fit 64 cs) as [a b] eqn:Ef. destruct H as (E & _ & H2 & H3 & H4). unfold buffer_size. rewrite E.
    pose proof (fit_spec cs 64) as Hs. rewrite Ef in Hs. destruct Hs as (Ecs & Hle & Hov). assert (Hlen : List.length (O a ++ skipn (List.length (O a)) buffer) = 64) by (rewrite app_length, skipn_length; lia).
    assert (Hfb : Forall scalar b) by (rewrite Ecs in Hcs; apply Forall_app in Hcs; apply Hcs).
    assert (Hres : res = COk \/ res = CPartial).
    { destruct b as [|c b]; [|apply H2; discriminate]. destruct (64 - List.length (O a)) as [|k] eqn:Ek; [left; apply H3; auto|]. pose proof (H4 Ht eq_refl k eq_refl 0 0) as Hx. rewrite Htr in Hx. injection Hx as <-. exact He. }
    assert (Hnn : I b ++ t <> []) by (destruct (I b); [exact Ht|discriminate]). pose proof (IH b (O a ++ skipn (List.length (O a)) buffer) (output ++ O a ++ skipn (List.length (O a)) buffer) Hfb Hlen) as Er.
    destruct Hres as [-> | ->]; [destruct (I b ++ t); [congruence|exact Er]|exact Er].
  Qed.
  Lemma convert_error fuel t : t <> [] -> read t = Invalid -> forall cs buffer output, Forall scalar cs -> List.length buffer = 64 -> List.length cs + 1 < fuel ->
    convert_loop read write at_end fuel (I cs ++ t) buffer output = Fail Throw.
  Proof.
    intros Ht Hi. assert (Htr : forall room n, translate read write at_end (S n) t (S room) = (CError, t, [])) by (intros room n; cbn [translate]; rewrite Hi; destruct t; [congruence|reflexivity]).
    induction fuel as [|n IH]; intros cs buffer output Hcs Hb Hf; [lia|]. cbn [convert_loop].
    destruct (translate_spec t (or_intror (ex_intro _ CError Htr)) cs Hcs (List.length (I cs ++ t)) 64) as (res & H); [lia|]. destruct (fit 64 cs) as [a b] eqn:Ef. destruct H as (E & _ & H2 & H3 & H4). unfold buffer_size. rewrite E.
    pose proof (fit_spec cs 64) as Hs. rewrite Ef in Hs. destruct Hs as (Ecs & Hle & Hov). assert (Hlen : List.length (O a ++ skipn (List.length (O a)) buffer) = 64) by (rewrite app_length, skipn_length; lia).
    assert (Hfb : Forall scalar b) by (rewrite Ecs in Hcs; apply Forall_app in Hcs; apply Hcs).
    assert (Hnn : I b ++ t <> []) by (destruct (I b); [exact Ht|discriminate]).
    assert (Hgo : a <> [] -> convert_loop read write at_end n (I b ++ t) (O a ++ skipn (List.length (O a)) buffer) (output ++ O a ++ skipn (List.length (O a)) buffer) = Fail Throw).
    { intros Ha. apply IH; [exact Hfb|exact Hlen|]. rewrite Ecs, app_length in Hf. destruct a; [congruence|]. cbn in Hf. lia. }
    destruct b as [|c b].
    - destruct (64 - List.length (O a)) as [|k] eqn:Ek.
      + rewrite (H3 Ht eq_refl eq_refl). destruct (I [] ++ t); [congruence|]. apply Hgo. intros ->. cbn in Ek. lia.
      + pose proof (H4 Ht eq_refl k eq_refl 0 0) as Hx. rewrite Htr in Hx. injection Hx as <-. reflexivity.
    - assert (Ha : a <> []) by (eapply fit_progress; [exact Ef|rewrite Ecs; destruct a; discriminate]). destruct (H2 ltac:(discriminate)) as [-> | ->]; [destruct (I (c :: b) ++ t); [congruence|apply Hgo, Ha]|apply Hgo, Ha].
  Qed.
End Loop.
