(** A module that gets one more symbol knows what it knew. *)
From Verif Require Import Base Types TypeBuild Mem Ops ModuleSpec ModuleFacts Module Peg0 Grammar Peg PegRules IdlParse IdlParseFacts GenSpec TypeText StructText StructRead NumText.
Local Open Scope string_scope.

(** The tables agree on every name but [x]. *)
Record same_but (x : string) (tab tab' : tables) : Prop := {
  sb_structs : forall y, y <> x -> assoc y (structs tab') = assoc y (structs tab); sb_unions : forall y, y <> x -> assoc y (unions tab') = assoc y (unions tab);
  sb_aliases : forall y, y <> x -> assoc y (aliases tab') = assoc y (aliases tab); sb_enums : forall y, y <> x -> assoc y (enums tab') = assoc y (enums tab);
  sb_consts : forall y, y <> x -> assoc y (consts tab') = assoc y (consts tab) }.
(** [root'] is [root] where the module at [p] got the symbol [x]. *)
Definition grows (root : modl) (p : place) (x : string) (root' : modl) : Prop :=
  exists_module root p = true /\ declares root x p = false /\ exists tab', retabled root p tab' root' /\ same_but x (tab_at root p) tab'.
Lemma grows_exists : forall root p x root' q, grows root p x root' -> exists_module root' q = exists_module root q.
Proof. intros root p x root' q (_ & _ & tab' & R & _). eapply retabled_exists, R. Qed.
Lemma grows_null : forall root p x root' c, grows root p x root' -> no_null_named root c -> no_null_named root' c.
Proof. intros root p x root' c (_ & _ & tab' & R & _). eapply retabled_null, R. Qed.
Lemma grows_tab : forall root p x root' q, grows root p x root' -> q <> p -> tab_at root' q = tab_at root q.
Proof. intros root p x root' q (E & _ & tab' & R & _) NE. rewrite (retabled_tab _ _ _ _ _ E R). destruct (list_eq_dec string_dec q p); [congruence|reflexivity]. Qed.
Lemma grows_same : forall root p x root', grows root p x root' -> same_but x (tab_at root p) (tab_at root' p).
Proof. intros root p x root' (E & _ & tab' & R & S). rewrite (retabled_tab _ _ _ _ _ E R). destruct (list_eq_dec string_dec p p); [exact S|congruence]. Qed.
Lemma same_symbol : forall x tab tab' y, same_but x tab tab' -> y <> x -> has_symbol_here (Mod "" tab' []) y = has_symbol_here (Mod "" tab []) y.
Proof.
  intros x tab tab' y [A B C D E] NE. unfold has_symbol_here, mem. cbn [m_tab m_inner]. rewrite (A y NE), (B y NE), (C y NE), (D y NE), (E y NE). reflexivity.
Qed.
Lemma grows_declares : forall root p x root' y q, grows root p x root' -> (q = p -> y <> x) -> declares root' y q = declares root y q.
Proof.
  intros root p x root' y q (E & N & tab' & R & S) NE. apply (retabled_declares _ _ _ _ _ _ R). intros H. apply (same_symbol x); auto.
Qed.
Lemma has_symbol_enclosing : forall root p x, has_symbol root p x = match enclosing (declares root x) p with Some _ => match mod_at root p with Some _ => true | None => false end | None => false end.
Proof.
  intros root p x. induction p as [|c p IH]; cbn [has_symbol enclosing]; unfold declares at 1.
  - cbn [mod_at]. destruct (has_symbol_here root x); reflexivity.
  - destruct (mod_at root (c :: p)) as [m|] eqn:E.
    + destruct (has_symbol_here m x); [reflexivity|]. cbn [orb]. rewrite IH. destruct (outer_exists _ _ _ _ E) as (m' & ->). reflexivity.
    + destruct (enclosing (declares root x) p); reflexivity.
Qed.
Lemma grows_symbol : forall root p x root' y q, grows root p x root' -> y <> x -> has_symbol root' q y = has_symbol root q y.
Proof.
  intros root p x root' y q G NE. rewrite !has_symbol_enclosing. rewrite (enclosing_ext (declares root' y) (declares root y) q) by (intros; eapply grows_declares; eauto).
  pose proof (grows_exists _ _ _ _ q G) as X. unfold exists_module in X. destruct (mod_at root' q), (mod_at root q); try discriminate X; reflexivity.
Qed.
Lemma around_antisym : forall q p : place, around q p -> around p q -> q = p.
Proof.
  intros q p (r & ->) (s & E). rewrite app_assoc in E. destruct (s ++ r)%list as [|c l] eqn:El.
  - apply app_eq_nil in El as [_ ->]. reflexivity.
  - apply (f_equal (@List.length string)) in E. rewrite app_length in E. cbn in E. lia.
Qed.
Lemma grows_lookup : forall root p x root' p0 abs qs y q, grows root p x root' -> (y = x -> (abs = true -> around p (rev qs)) -> p = []) -> lookup_name root p0 abs qs y = Some (q, y) ->
  lookup_name root' p0 abs qs y = Some (q, y) /\ (q = p -> y <> x).
Proof.
  intros root p x root' p0 abs qs y q G P L. assert (NQ : q = p -> y <> x).
  { intros -> ->. destruct G as (_ & N & _). unfold lookup_name in L. destruct (named_module root p0 abs qs) as [h|]; [|discriminate L].
    pose proof (enclosing_spec (declares root x) h) as S. destruct (enclosing (declares root x) h) as [q'|]; [|discriminate L]. injection L as ->. destruct S as (_ & S & _). congruence. }
  split; [|exact NQ]. unfold lookup_name in *.
  assert (NM : named_module root' p0 abs qs = named_module root p0 abs qs).
  { unfold named_module. destruct G as (_ & _ & tab' & R & _). destruct abs; [rewrite (retabled_exists _ _ _ _ _ R); reflexivity|]. destruct qs as [|c qs].
    - rewrite (retabled_exists _ _ _ _ _ R). reflexivity.
    - rewrite (enclosing_ext (has_inner root' c) (has_inner root c) p0) by (intros; eapply retabled_inner, R). destruct (enclosing (has_inner root c) p0); [|reflexivity]. rewrite (retabled_exists _ _ _ _ _ R). reflexivity. }
  rewrite NM. destruct (named_module root p0 abs qs) as [h|] eqn:Hh; [|discriminate L].
  pose proof (enclosing_spec (declares root y) h) as S. destruct (enclosing (declares root y) h) as [q'|]; [|discriminate L]. cbn [option_map] in L. injection L as ->. destruct S as (A & B & C).
  pose proof (enclosing_spec (declares root' y) h) as S'. assert (B' : declares root' y q = true) by (rewrite (grows_declares _ _ _ _ _ _ G NQ); exact B).
  destruct (enclosing (declares root' y) h) as [q'|]; [|rewrite (S' q A) in B'; discriminate B'].
  destruct S' as (A1 & B1 & C1). cbn [option_map]. f_equal. f_equal. pose proof (C1 q A B') as Aq.
  destruct (list_eq_dec string_dec q' p) as [->|NE].
  - destruct (string_dec y x) as [->|NY].
    + assert (Hp : p = []).
      { apply (P eq_refl). intros ->. unfold named_module in Hh. rewrite app_nil_r in Hh. destruct (exists_module root (rev qs)); [|discriminate Hh]. injection Hh as <-. exact A1. }
      subst p. apply around_antisym; [|exact Aq]. exists q. rewrite app_nil_r. reflexivity.
    + rewrite (grows_declares _ _ _ _ _ _ G (fun _ => NY)) in B1. apply around_antisym; [|exact Aq]. apply C; assumption.
  - rewrite (grows_declares _ _ _ _ _ _ G (fun E => False_ind _ (NE E))) in B1. apply around_antisym; [|exact Aq]. apply C; assumption.
Qed.

Lemma resolves_resolve : forall root p x r, resolves root p x r <-> exists n, resolve n root p x = Ok r.
Proof. intros; reflexivity. Qed.
Lemma ident_path_names : forall qs y, ident_path qs y -> Forall ident qs /\ ident y.
Proof.
  intros qs y H. apply Forall_app in H as [A B]. inversion B; subst. split; [|apply is_ident_name; assumption]. eapply Forall_impl; [|exact A]. intros; apply is_ident_name; assumption.
Qed.
Lemma path_resolves : forall root p abs qs y r n, no_nulls root -> exists_module root p = true -> ident_path qs y -> resolve n root p (render abs qs y) = Ok r -> r = lookup_name root p abs qs y.
Proof.
  intros root p abs qs y r n N E I H. destruct (ident_path_names _ _ I) as [Iq Iy].
  pose proof (resolves_name root p abs qs y (proj2 (Forall_forall _ _) (fun c _ => N c)) E Iq Iy) as K.
  eapply resolves_unique; [exists n; exact H|exact K].
Qed.
Lemma path_lookup : forall root p abs qs y, no_nulls root -> exists_module root p = true -> ident_path qs y -> exists n, resolve n root p (render abs qs y) = Ok (lookup_name root p abs qs y).
Proof.
  intros root p abs qs y N E I. destruct (ident_path_names _ _ I) as [Iq Iy]. exact (resolves_name root p abs qs y (proj2 (Forall_forall _ _) (fun c _ => N c)) E Iq Iy).
Qed.
Lemma lookup_name_same : forall root p abs qs y q z, lookup_name root p abs qs y = Some (q, z) -> z = y.
Proof. intros root p abs qs y q z H. unfold lookup_name in H. destruct (named_module root p abs qs); [|discriminate H]. destruct (enclosing _ _); [|discriminate H]. injection H as _ ->. reflexivity. Qed.
Lemma grows_resolve : forall root p x root' p0 abs qs y q z n, no_nulls root -> grows root p x root' -> exists_module root p0 = true -> ident_path qs y -> (y = x -> (abs = true -> around p (rev qs)) -> p = []) ->
  resolve n root p0 (render abs qs y) = Ok (Some (q, z)) -> z = y /\ (q = p -> y <> x) /\ exists n', resolve n' root' p0 (render abs qs y) = Ok (Some (q, y)).
Proof.
  intros root p x root' p0 abs qs y q z n N G E I P H. pose proof (path_resolves _ _ _ _ _ _ _ N E I H) as L. symmetry in L. pose proof (lookup_name_same _ _ _ _ _ _ _ L) as ->.
  destruct (grows_lookup _ _ _ _ _ _ _ _ _ G P L) as [L' NQ]. split; [reflexivity|]. split; [exact NQ|].
  destruct (path_lookup root' p0 abs qs y) as (n' & R); [intros c; eapply grows_null; [exact G|apply N]|rewrite (grows_exists _ _ _ _ _ G); exact E|exact I|]. exists n'. rewrite R, L'. reflexivity.
Qed.
Lemma tab_kept : forall root p x root' q y, grows root p x root' -> (q = p -> y <> x) ->
  assoc y (structs (tab_at root' q)) = assoc y (structs (tab_at root q)) /\ assoc y (unions (tab_at root' q)) = assoc y (unions (tab_at root q)) /\
  assoc y (aliases (tab_at root' q)) = assoc y (aliases (tab_at root q)) /\ assoc y (enums (tab_at root' q)) = assoc y (enums (tab_at root q)) /\
  assoc y (consts (tab_at root' q)) = assoc y (consts (tab_at root q)).
Proof.
  intros root p x root' q y G NQ. destruct (list_eq_dec string_dec q p) as [->|NE].
  - destruct (grows_same _ _ _ _ G) as [A B C D E]. specialize (NQ eq_refl). auto 10.
  - rewrite (grows_tab _ _ _ _ _ G NE). auto 10.
Qed.
Lemma grows_type : forall root p x root' p0 abs qs y t, no_nulls root -> grows root p x root' -> exists_module root p0 = true -> ident_path qs y -> (y = x -> (abs = true -> around p (rev qs)) -> p = []) ->
  names_type root p0 (render abs qs y) t -> names_type root' p0 (render abs qs y) t.
Proof.
  intros root p x root' p0 abs qs y t N G E I P (n & H). unfold type_named in H. destruct (resolve n root p0 (render abs qs y)) as [[[q z]|]|] eqn:R; try discriminate H.
  destruct (grows_resolve _ _ _ _ _ _ _ _ _ _ _ N G E I P R) as (-> & NQ & n' & R'). exists n'. unfold type_named. rewrite R'. cbn [bind] in *. unfold type_of in *.
  destruct (tab_kept _ _ _ _ _ _ G NQ) as (-> & -> & -> & -> & _). exact H.
Qed.
Lemma grows_struct : forall root p x root' p0 abs qs y t, no_nulls root -> grows root p x root' -> exists_module root p0 = true -> ident_path qs y -> (y = x -> (abs = true -> around p (rev qs)) -> p = []) ->
  names_struct root p0 (render abs qs y) t -> names_struct root' p0 (render abs qs y) t.
Proof.
  intros root p x root' p0 abs qs y t N G E I P (n & q & z & H). unfold lookup in H. destruct (resolve n root p0 (render abs qs y)) as [[[q' z']|]|] eqn:R; try discriminate H.
  destruct (grows_resolve _ _ _ _ _ _ _ _ _ _ _ N G E I P R) as (-> & NQ & n' & R'). exists n', q, z. unfold lookup. rewrite R'. cbn [bind] in *. cbn [get_table] in *.
  destruct (tab_kept _ _ _ _ _ _ G NQ) as (-> & _). exact H.
Qed.
Lemma not_symbol_const : forall root p x, exists_module root p = true -> no_colon x = true -> has_symbol root p x = false -> eventually (fun n => find_in n root p consts x = Ok None).
Proof.
  intros root p x E C H. rewrite has_symbol_enclosing in H. unfold exists_module in E. destruct (mod_at root p) as [m|] eqn:M; [|discriminate E].
  destruct (plain_ends root x x C p m M true eq_refl) as (n & R). apply ev_steady; [apply steady_find| |discriminate]. exists n. unfold find_in, resolve. rewrite R. cbn [bind].
  destruct (enclosing (declares root x) p); [discriminate H|reflexivity].
Qed.
Lemma digits_no_colon : forall s, all_chars digit s = true -> no_colon s = true.
Proof.
  induction s as [|c s IH]; intros H; [reflexivity|]. cbn [all_chars no_colon] in *. apply andb_true_iff in H as [Hc H].
  pose proof (all_ascii (fun c => implb (digit c) (negb (Ascii.eqb c ":"))) eq_refl c) as K. cbv beta in K. rewrite Hc in K. cbn [implb] in K. rewrite K. apply IH, H.
Qed.
Lemma number_not_ident : forall b, is_ident (to_string b) = false.
Proof.
  intros b. destruct (number_cons b) as (c & r & -> & D & _). unfold is_ident. cbn [first_is].
  pose proof (all_ascii (fun c => implb (digit c) (negb (id_first c))) eq_refl c) as K. cbv beta in K. rewrite D in K. apply negb_true_iff in K. rewrite K. reflexivity.
Qed.
Lemma number_no_const : forall root p b, exists_module root p = true -> idents_only root p -> eventually (fun n => find_in n root p consts (if (0 <? b)%N then to_string b else "") = Ok None).
Proof.
  intros root p b E I. destruct (0 <? b)%N; apply not_symbol_const; try exact E; try reflexivity.
  - apply digits_no_colon, to_string_spec.
  - destruct (has_symbol root p (to_string b)) eqn:H; [|reflexivity]. apply I in H. rewrite number_not_ident in H. discriminate H.
  - destruct (has_symbol root p "") eqn:H; [|reflexivity]. apply I in H. discriminate H.
Qed.

Lemma knows_named : forall name root p t, exists_module root p = true -> idents_only root p -> named_in name root p t -> readable name t -> eventually (fun n => knows name n root p t).
Proof.
  intros name root p t E I. induction t as [pr|nm sz vals|k b|nm c IHc b|c IHc b|k IHk v IHv b|k IHk v IHv|nm sz ms|nm sz ms ls dv iv d|nm a IHa]; intros H R; cbn [named_in knows readable] in *; try contradiction.
  - apply ev_const, Logic.I.
  - apply ev_steady; [apply steady_type_named|exact H|discriminate].
  - apply number_no_const; assumption.
  - apply IHc; tauto.
  - apply ev_and; [apply IHk|apply IHv]; tauto.
  - apply ev_steady; [apply steady_type_named|exact H|discriminate].
  - apply ev_steady; [apply steady_type_named|exact H|discriminate].
  - apply ev_steady; [apply steady_type_named|exact H|discriminate].
Qed.
Lemma unshadowed_root : forall name x t, unshadowed name [] x t.
Proof. intros name x t. induction t; cbn [unshadowed]; auto; intros ? ? ? ?; reflexivity. Qed.
Lemma grows_named : forall name root p x root' p0 t, no_nulls root -> grows root p x root' -> exists_module root p0 = true -> readable name t -> unshadowed name p x t -> named_in name root p0 t -> named_in name root' p0 t.
Proof.
  intros name root p x root' p0 t N G E. assert (X : forall s t', plain_scoped s -> not_hidden p x s -> names_type root p0 s t' -> names_type root' p0 s t').
  { intros s t' (abs & qs & y & -> & I & _) NH H. eapply (grows_type root p x root' p0 abs qs y t'); eauto. intros ->. exact (NH abs qs eq_refl). }
  induction t as [pr|nm sz vals|k b|nm c IHc b|c IHc b|k IHk v IHv b|k IHk v IHv|nm sz ms|nm sz ms ls dv iv d|nm a IHa]; intros R U H; cbn [named_in readable unshadowed] in *; try contradiction; auto.
  - apply IHc; tauto.
  - split; [apply IHk|apply IHv]; tauto.
Qed.
