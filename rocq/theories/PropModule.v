(** Theorems about IDL modules: C29-C32, C44. *)
From Verif Require Import Base Types TypeBuild TypeSpec Mem MemSpec Ops OpsSpec ProgSpec MemFacts ConstructFacts ProgFacts DataSpec DataFacts Module ModuleSpec ModuleFacts PropTypes PropData.

(** A symbol is declared in the module at [q]: a structure, union, alias, constant, enumeration or submodule of that
    name. *)
Lemma declares_spec root x q : declares root x q = true <->
  exists m, mod_at root q = Some m /\
    (assoc x (structs (m_tab m)) <> None \/ assoc x (unions (m_tab m)) <> None \/ assoc x (aliases (m_tab m)) <> None \/
     assoc x (consts (m_tab m)) <> None \/ assoc x (enums (m_tab m)) <> None \/ assoc x (m_inner m) <> None).
Proof.
  unfold declares, has_symbol_here, mem. destruct (mod_at root q) as [m|]; [|split; [discriminate|intros (m & H & _); discriminate H]].
  rewrite !orb_true_iff. split.
  - intros H. exists m. split; [reflexivity|].
    destruct H as [[[[[H|H]|H]|H]|H]|H]; [left|right; left|right; right; left|right; right; right; left|do 4 right; left|do 5 right];
      match type of H with match ?a with _ => _ end = true => destruct a; [discriminate|discriminate H] end.
  - intros (m' & [= <-] & H). destruct H as [H|[H|[H|[H|[H|H]]]]]; match type of H with ?a <> None => destruct a; [tauto|congruence] end.
Qed.

(** ** C29 *)
(** Looking up a plain name from the module at [p] finds the innermost enclosing module that declares it, or nothing
    when none does. *)
Theorem C29_unqualified : forall root p x, exists_module root p = true -> ident x ->
  exists r, resolves root p x r /\
    match r with
    | Some (q, y) => y = x /\ around q p /\ declares root x q = true /\ forall q', around q' p -> declares root x q' = true -> around q' q
    | None => forall q', around q' p -> declares root x q' = false
    end.
Proof.
  intros root p x Hp Hx. pose proof (resolves_name root p false [] x (Forall_nil _) Hp (Forall_nil _) Hx) as H.
  exists (lookup_name root p false [] x). split; [exact H|]. unfold lookup_name, named_module. cbn [rev app]. rewrite Hp.
  pose proof (enclosing_spec (declares root x) p) as Hs. destruct (enclosing (declares root x) p) as [q|]; cbn [option_map]; [|exact Hs].
  split; [reflexivity|exact Hs].
Qed.
(** Whatever the text of the name: a successful lookup returns a module that declares the symbol, and there is only one
    answer. *)
Theorem C29_found_declares : forall root p name q x, resolves root p name (Some (q, x)) -> declares root x q = true /\ resolves root q x (Some (q, x)).
Proof. intros root p name q x H. split; [destruct H as [n H]; exact (resolve_found _ _ _ _ _ _ _ _ H)|exact (resolve_again _ _ _ _ _ H)]. Qed.
Theorem C29_one_answer : forall root p name r r', resolves root p name r -> resolves root p name r' -> r = r'.
Proof. exact resolves_unique. Qed.
(** A name starting with "::" is looked up from the root only: ::x finds what the root declares, and ::q1::...::x has
    the same result from every module. *)
Theorem C29_absolute : forall root p x, exists_module root p = true -> ident x ->
  resolves root p ("::" ++ x) (if declares root x [] then Some ([], x) else None).
Proof.
  intros root p x Hp Hx. pose proof (resolves_name root p true [] x (Forall_nil _) Hp (Forall_nil _) Hx) as H. unfold lookup_name, named_module in H. cbn [rev app] in H.
  cbn [render qualified] in H. replace (exists_module root []) with true in H by reflexivity. cbn [enclosing] in H. destruct (declares root x []); exact H.
Qed.
Theorem C29_absolute_everywhere : forall root p p' qs x r, no_nulls root -> exists_module root p = true -> exists_module root p' = true -> Forall ident qs -> ident x ->
  resolves root p (render true qs x) r <-> resolves root p' (render true qs x) r.
Proof.
  intros root p p' qs x r Hn Hp Hp' Hq Hx. assert (HF : Forall (no_null_named root) qs) by (apply Forall_forall; intros c _; apply Hn).
  pose proof (resolves_name root p true qs x HF Hp Hq Hx) as H. pose proof (resolves_name root p' true qs x HF Hp' Hq Hx) as H'.
  split; intros G.
  - rewrite <- (resolves_unique _ _ _ _ _ H G). exact H'.
  - rewrite <- (resolves_unique _ _ _ _ _ H' G). exact H.
Qed.
(** Lookup of every IDL name ends, and its result is the one of [lookup_name].  Missing for the full property: names
    that are not IDL names, see the refutation; trees with null submodules, see C31. *)
Theorem C29_lookup : forall root p abs qs x, no_nulls root -> exists_module root p = true -> Forall ident qs -> ident x ->
  resolves root p (render abs qs x) (lookup_name root p abs qs x).
Proof. intros root p abs qs x Hn. apply resolves_name. apply Forall_forall. intros c _. apply Hn. Qed.
(** has_symbol(x) and symbol_count(x) look through the enclosing modules. *)
Theorem C29_has_symbol : forall root p x, exists_module root p = true ->
  (has_symbol root p x = true <-> exists q, around q p /\ declares root x q = true).
Proof.
  intros root p x. induction p as [|c p IH]; intros Hp; cbn [has_symbol]; unfold exists_module in Hp.
  - cbn [mod_at]. rewrite orb_false_r. split.
    + intros H. exists []. split; [exists []; reflexivity|]. unfold declares. cbn [mod_at]. exact H.
    + intros (q & (r & E) & H). symmetry in E. apply app_eq_nil in E as [_ ->]. exact H.
  - destruct (mod_at root (c :: p)) as [m|] eqn:Hm; [|discriminate Hp]. rewrite orb_true_iff, IH.
    + split.
      * intros [H|(q & (r & ->) & H)]; [|exists q; split; [exists (c :: r); reflexivity|exact H]].
        exists (c :: p). split; [exists []; reflexivity|]. unfold declares. rewrite Hm. exact H.
      * intros (q & ([|d r] & E) & H); cbn [app] in E; [subst q|injection E as -> ->].
        -- left. unfold declares in H. rewrite Hm in H. exact H.
        -- right. exists q. split; [exists r; reflexivity|exact H].
    + destruct (outer_exists _ _ _ _ Hm) as (m' & Hm'). unfold exists_module. rewrite Hm'. reflexivity.
Qed.
Fixpoint suffixes (p : place) : list place := match p with [] => [[]] | _ :: o => p :: suffixes o end.
Theorem C29_symbol_count : forall root p x, symbol_count root p x = N.of_nat (List.length (filter (declares root x) (suffixes p))).
Proof.
  intros root p x. induction p as [|c p IH].
  - cbn [symbol_count suffixes filter]. unfold declares. destruct (mod_at root []) as [m|]; [|reflexivity]. destruct (has_symbol_here m x); reflexivity.
  - cbn [symbol_count suffixes filter]. rewrite IH. unfold declares at 2. destruct (mod_at root (c :: p)) as [m|]; [|reflexivity].
    destruct (has_symbol_here m x); cbn [List.length]; lia.
Qed.

Definition ex_leaf (x : string) : ty := TStruct x 0 [].
Definition tabs (l : list string) : tables := mkTables (map (fun x => (x, ex_leaf x)) l) [] [] [] [] [] [].
(** module { X  A { Y  B { X } } } *)
Definition ex_tree : modl := Mod "" (tabs ["X"]%string) [("A"%string, Some (Mod "A" (tabs ["Y"]%string) [("B"%string, Some (Mod "B" (tabs ["X"]%string) []))]))].
(** On a text that is not an IDL name lookup may never end: with a submodule A, "A::::X" from the root; the recursion of
    the code is unbounded.  With a constant C in the root, type("::C") dereferences a null pointer. *)
Theorem C68_terminates_refuted :
  (forall fuel, resolve_scope fuel ex_tree [] "A::::X" "A::::X" true = Fail Loop) /\ (forall r, ~ resolves ex_tree [] "A::::X" r) /\
  (exists root, resolves root [] "::C" (Some ([], "C"%string)) /\ type_of root "::C" (Some ([], "C"%string)) = Fail UB).
Proof.
  assert (H : forall n, resolve_scope n ex_tree [] "A::::X" "A::::X" true = Fail Loop /\ resolve_scope n ex_tree ["A"%string] "::X" "A::::X" false = Fail Loop).
  { induction n as [|n [IH1 IH2]]; [split; reflexivity|]. split; cbn [resolve_scope mod_at ex_tree]; cbn [split_scope]; cbn; [exact IH2|exact IH1]. }
  split; [intros n; apply H|]. split; [intros r [n Hn]; rewrite (proj1 (H n)) in Hn; discriminate Hn|].
  exists (Mod "" (mkTables [] [] [] [] [] [("C"%string, mkData (TPrim PU8) (fresh 1))] []) []). split; [exists 3%nat; vm_compute; reflexivity|vm_compute; reflexivity].
Qed.

(** ** C30 *)
(** What is proved of the full property: the answer to [::]q1::...::qn::x is in the module q1::...::qn names or in a
    module around it, and when the named module declares x the answer is there.  The full property does not hold. *)
Theorem C30_named_or_around_partial : forall root p abs qs x r, no_nulls root -> exists_module root p = true -> Forall ident qs -> ident x ->
  resolves root p (render abs qs x) r ->
  match named_module root p abs qs with
  | None => r = None
  | Some q => (declares root x q = true -> r = Some (q, x)) /\
      forall q' y, r = Some (q', y) -> y = x /\ around q' q /\ declares root x q' = true
  end.
Proof.
  intros root p abs qs x r Hn Hp Hq Hx H. pose proof (C29_lookup root p abs qs x Hn Hp Hq Hx) as H'. rewrite (resolves_unique _ _ _ _ _ H H').
  unfold lookup_name. destruct (named_module root p abs qs) as [q|]; [|reflexivity]. pose proof (enclosing_spec (declares root x) q) as Hs. split.
  - intros Hd. destruct (enclosing (declares root x) q) as [q'|]; cbn [option_map].
    + destruct Hs as ((s & ->) & _ & Hs). destruct (Hs (s ++ q') (ex_intro _ [] eq_refl) Hd) as (s' & Es). destruct (s' ++ s) as [|z zs] eqn:E.
      * apply app_eq_nil in E as [_ ->]. reflexivity.
      * exfalso. apply (f_equal (@List.length string)) in Es. rewrite !app_length in Es. apply (f_equal (@List.length string)) in E. rewrite app_length in E. cbn in E. lia.
    + rewrite (Hs q (ex_intro _ [] eq_refl)) in Hd. discriminate Hd.
  - intros q' y E. destruct (enclosing (declares root x) q) as [q0|]; [|discriminate E]. cbn in E. injection E as <- <-. destruct Hs as (H1 & H2 & _). auto.
Qed.
(** A::B::Y, ::A::B::Y and A::X name nothing in [ex_tree], but they are found in A and in the root. *)
Theorem C30_escape_refuted :
  declares ex_tree "X" ["A"]%string = false /\ declares ex_tree "Y" ["B"; "A"]%string = false /\
  resolves ex_tree [] "A::X" (Some ([], "X"%string)) /\ resolves ex_tree [] "::A::X" (Some ([], "X"%string)) /\
  resolves ex_tree [] "A::B::Y" (Some (["A"%string], "Y"%string)).
Proof. split; [reflexivity|]. split; [reflexivity|]. split; [exists 9%nat; vm_compute; reflexivity|]. split; [exists 9%nat; vm_compute; reflexivity|exists 9%nat; vm_compute; reflexivity]. Qed.

Lemma ex_tree_no_nulls : no_nulls ex_tree.
Proof.
  intros c q m Hm Ha. rewrite mod_at_walk in Hm. destruct (rev q) as [|a [|b [|d l]]]; cbn [walk] in Hm.
  - injection Hm as <-. cbn in Ha. destruct (String.eqb c "A"); discriminate Ha.
  - cbn in Hm. destruct (String.eqb a "A"); [|discriminate Hm]. injection Hm as <-. cbn in Ha. destruct (String.eqb c "B"); discriminate Ha.
  - cbn in Hm. destruct (String.eqb a "A"); [|discriminate Hm]. cbn in Hm. destruct (String.eqb b "B"); [|discriminate Hm]. injection Hm as <-. discriminate Ha.
  - cbn in Hm. destruct (String.eqb a "A"); [|discriminate Hm]. cbn in Hm. destruct (String.eqb b "B"); [|discriminate Hm]. discriminate Hm.
Qed.
Lemma ex_ident : ident "A" /\ ident "B" /\ ident "X" /\ ident "Y".
Proof. unfold ident. repeat split; try discriminate. Qed.
Example C29_nontrivial : no_nulls ex_tree /\ exists_module ex_tree ["B"; "A"]%string = true /\
  resolves ex_tree ["B"; "A"]%string "X" (Some (["B"; "A"]%string, "X"%string)) /\ resolves ex_tree ["B"; "A"]%string "::X" (Some ([], "X"%string)) /\
  resolves ex_tree ["B"; "A"]%string "Y" (Some (["A"]%string, "Y"%string)) /\ resolves ex_tree ["B"; "A"]%string "Z" None /\ symbol_count ex_tree ["B"; "A"]%string "X" = 2.
Proof.
  split; [exact ex_tree_no_nulls|]. split; [reflexivity|]. split; [exists 9%nat; vm_compute; reflexivity|]. split; [exists 9%nat; vm_compute; reflexivity|].
  split; [exists 9%nat; vm_compute; reflexivity|]. split; [exists 9%nat; vm_compute; reflexivity|reflexivity].
Qed.
Example C30_nontrivial : no_nulls ex_tree /\ Forall ident ["A"; "B"]%string /\ resolves ex_tree [] (render false ["A"; "B"]%string "X") (Some (["B"; "A"]%string, "X"%string)) /\
  named_module ex_tree [] false ["A"; "B"]%string = Some ["B"; "A"]%string.
Proof.
  split; [exact ex_tree_no_nulls|]. destruct ex_ident as (H1 & H2 & _). split; [constructor; [exact H1|constructor; [exact H2|constructor]]|].
  split; [exists 9%nat; vm_compute; reflexivity|reflexivity].
Qed.

(** ** C31 *)
Lemma call_submodule_spec root p x b root' : call_submodule x root p = Ok (b, root') ->
  (exists m, mod_at root p = Some m /\ b = snd (submodule x m)) /\
  forall q, match mod_at root q, mod_at root' q with
  | Some a, Some a' => m_tab a = m_tab a' /\ forall c, b = true \/ c <> x ->
      match assoc c (m_inner a), assoc c (m_inner a') with Some (Some _), Some (Some _) | Some None, Some None | None, None => True | _, _ => False end
  | None, None => True
  | _, _ => False
  end.
Proof.
  unfold call_submodule. destruct (mod_at root p) as [m|] eqn:Hm; [|discriminate]. intros H. apply bind_ok_iff in H as (r & Hr & H). injection H as <- <-.
  split; [exists m; auto|]. destruct (at_module_spec _ _ _ _ Hr) as [(m0 & y & Hx & Hxy & Hy) Hrest]. injection Hxy as Hxy. rewrite <- mod_at_walk, Hm in Hx. injection Hx as <-.
  intros q. rewrite !mod_at_walk. destruct (list_eq_dec string_dec (firstn (List.length (rev p)) (rev q)) (rev p)) as [Hpre|Hpre].
  - rewrite <- (firstn_skipn (List.length (rev p)) (rev q)), Hpre, !walk_app. rewrite <- mod_at_walk, Hm, Hy. subst y.
    assert (Hin : m_tab m = m_tab (fst (submodule x m)) /\ forall c, (snd (submodule x m) = true \/ c <> x -> assoc c (m_inner (fst (submodule x m))) = assoc c (m_inner m)) /\
      (forall z, assoc c (m_inner m) = Some (Some z) <-> assoc c (m_inner (fst (submodule x m))) = Some (Some z))).
    { unfold submodule. destruct (assoc x (m_inner m)) as [[z|]|] eqn:Ex; cbn [fst snd]; try (split; [reflexivity|]; intros c; split; [reflexivity|tauto]).
      cbn [m_tab m_inner]. split; [reflexivity|]. intros c. rewrite emplace_assoc, Ex. split.
      - intros [E|E]; [discriminate E|]. apply String.eqb_neq in E. rewrite E. reflexivity.
      - intros z. destruct (String.eqb c x) eqn:E; [apply String.eqb_eq in E; subst c; rewrite Ex; split; discriminate|tauto]. }
    destruct Hin as [Ht Hin]. destruct (skipn (List.length (rev p)) (rev q)) as [|c l]; cbn [walk].
    + split; [exact Ht|]. intros c Hc. rewrite (proj1 (Hin c) Hc). destruct (assoc c (m_inner m)) as [[z|]|]; trivial.
    + destruct (assoc c (m_inner m)) as [[z|]|] eqn:Ec.
      * rewrite (proj1 (proj2 (Hin c) z) Ec). destruct (walk l z) as [m0|]; trivial. split; [reflexivity|]. intros d _. destruct (assoc d (m_inner m0)) as [[?|]|]; trivial.
      * destruct (assoc c (m_inner (fst (submodule x m)))) as [[z|]|] eqn:Ec'; trivial. rewrite (proj2 (proj2 (Hin c) z) Ec') in Ec. discriminate Ec.
      * destruct (assoc c (m_inner (fst (submodule x m)))) as [[z|]|] eqn:Ec'; trivial. rewrite (proj2 (proj2 (Hin c) z) Ec') in Ec. discriminate Ec.
  - specialize (Hrest (rev q)). assert (Hne : forall s, rev q <> rev p ++ s) by (intros s E; apply Hpre; rewrite E, firstn_app, Nat.sub_diag; cbn [firstn]; rewrite firstn_all, app_nil_r; reflexivity).
    specialize (Hrest Hne). destruct (walk (rev q) root), (walk (rev q) r); try exact Hrest. destruct Hrest as (_ & H2 & H3). split; [exact H2|]. intros c _. apply H3.
Qed.
(** Asking for the submodule [x] of the module at [p] answers whether it exists; it leaves every declaration where it is
    and does not change the answer for any IDL name, except, when there is no submodule [x], for names with [x] in them.
    Missing for the full property: those names, see the refutation. *)
Theorem C31_submodule_partial : forall root p x, no_nulls root -> exists_module root p = true ->
  exists b root', call_submodule x root p = Ok (b, root') /\ (b = true <-> exists_module root (x :: p) = true) /\
    (forall q, exists_module root' q = exists_module root q /\ tab_at root' q = tab_at root q) /\
    forall p0 abs qs y r, exists_module root p0 = true -> Forall ident qs -> ident y -> b = true \/ (~ In x qs /\ y <> x) ->
      (resolves root p0 (render abs qs y) r <-> resolves root' p0 (render abs qs y) r).
Proof.
  intros root p x Hn Hp. assert (Hex : exists b root', call_submodule x root p = Ok (b, root')).
  { unfold call_submodule, exists_module in *. destruct (mod_at root p) as [m|] eqn:Hm; [|discriminate Hp]. rewrite mod_at_walk in Hm.
    assert (H : exists r, at_module (rev p) (fun m => Ok (fst (submodule x m))) root = Ok r).
    { revert root Hn Hp Hm. generalize (rev p). induction l as [|c l IH]; intros root Hn Hp Hm; cbn [at_module]; [eauto|]. cbn [walk] in Hm.
      destruct (assoc c (m_inner root)) as [[z|]|] eqn:Ez; try discriminate Hm. destruct (IH z) as (r & ->); [|exact Hp|exact Hm|cbn [bind]; eauto].
      intros d q a Ha. apply (Hn d (q ++ [c])). rewrite mod_at_walk, rev_app_distr. cbn [rev app walk]. rewrite Ez. rewrite mod_at_walk in Ha. exact Ha. }
    destruct H as (r & ->). cbn [bind]. eauto. }
  destruct Hex as (b & root' & E). exists b, root'. split; [exact E|]. destruct (call_submodule_spec _ _ _ _ _ E) as [(m & Hm & Hb) Hs].
  assert (Hmod : forall q, exists_module root' q = exists_module root q /\ tab_at root' q = tab_at root q).
  { intros q. specialize (Hs q). unfold exists_module, tab_at. destruct (mod_at root q), (mod_at root' q); try tauto. destruct Hs as [<- _]. auto. }
  split; [|split; [exact Hmod|]].
  - unfold exists_module. cbn [mod_at]. rewrite Hm, Hb. unfold submodule. destruct (assoc x (m_inner m)) as [[z|]|]; cbn [snd]; tauto || (split; discriminate).
  - intros p0 abs qs y r Hp0 Hq Hy Hcond.
    assert (Hnull : forall c, b = true \/ c <> x -> no_null_named root' c).
    { intros c Hc q a' Ha' Ea. specialize (Hs q). rewrite Ha' in Hs. destruct (mod_at root q) as [a|] eqn:Ea0; [|exact Hs]. destruct Hs as [_ Hs]. specialize (Hs c Hc). rewrite Ea in Hs.
      pose proof (Hn c q a Ea0) as Hc'. destruct (assoc c (m_inner a)) as [[?|]|]; tauto. }
    assert (Hmem : forall c q, b = true \/ c <> x -> has_inner root' c q = has_inner root c q /\ (declares root' c q = declares root c q)).
    { intros c q Hc. specialize (Hs q). unfold has_inner, declares. destruct (mod_at root q) as [a|], (mod_at root' q) as [a'|]; try tauto.
      destruct Hs as [Ht Hs]. specialize (Hs c Hc). assert (Em : mem c (m_inner a') = mem c (m_inner a)).
      { unfold mem. destruct (assoc c (m_inner a)) as [[?|]|], (assoc c (m_inner a')) as [[?|]|]; tauto. }
      split; [exact Em|]. unfold has_symbol_here. rewrite Em, Ht. reflexivity. }
    assert (Hcy : b = true \/ y <> x) by tauto. assert (Hcq : forall c, In c qs -> b = true \/ c <> x).
    { intros c Hc. destruct Hcond as [H|[H _]]; [left; exact H|right; intros ->; contradiction]. }
    assert (HF : Forall (no_null_named root) qs) by (apply Forall_forall; intros c _; apply Hn).
    assert (HF' : Forall (no_null_named root') qs) by (apply Forall_forall; intros c Hc; apply Hnull, Hcq, Hc).
    pose proof (resolves_name root p0 abs qs y HF Hp0 Hq Hy) as H1.
    assert (Hp0' : exists_module root' p0 = true) by (rewrite (proj1 (Hmod p0)); exact Hp0).
    pose proof (resolves_name root' p0 abs qs y HF' Hp0' Hq Hy) as H2.
    assert (El : lookup_name root' p0 abs qs y = lookup_name root p0 abs qs y).
    { unfold lookup_name, named_module.
      assert (Hst : (if abs then Some [] else match qs with [] => Some p0 | q :: _ => enclosing (has_inner root' q) p0 end) =
        (if abs then Some [] else match qs with [] => Some p0 | q :: _ => enclosing (has_inner root q) p0 end)).
      { destruct abs; [reflexivity|]. destruct qs as [|c qs]; [reflexivity|]. apply enclosing_ext. intros q _. apply Hmem, Hcq. left. reflexivity. }
      rewrite Hst. clear Hst. set (st := if abs then _ else _). destruct st as [h|]; [|reflexivity]. rewrite (proj1 (Hmod _)).
      destruct (exists_module root (rev qs ++ h)); [|reflexivity]. f_equal. apply enclosing_ext. intros q _. apply Hmem, Hcy. }
    rewrite El in H2. split; intros G; [rewrite (resolves_unique _ _ _ _ _ G H1); exact H2|rewrite (resolves_unique _ _ _ _ _ G H2); exact H1].
Qed.
(** Asking for a submodule that does not exist changes the tree: has_submodule and has_symbol become true, creating the
    submodule and looking up a name in it then dereference a null pointer. *)
Theorem C31_query_refuted : exists root', call_submodule "N" ex_tree [] = Ok (false, root') /\
  has_submodule ex_tree [] "N" = false /\ has_submodule root' [] "N" = true /\ has_symbol ex_tree [] "N" = false /\ has_symbol root' [] "N" = true /\
  symbol_count ex_tree [] "N" = 0 /\ symbol_count root' [] "N" = 1 /\
  call_create_submodule "N" root' [] = Fail UB /\ resolve_scope 9 ex_tree [] "N::X" "N::X" true = Ok None /\ resolve_scope 9 root' [] "N::X" "N::X" true = Fail UB.
Proof.
  eexists. split; [vm_compute; reflexivity|].
  split; [vm_compute; reflexivity|]. split; [vm_compute; reflexivity|]. split; [vm_compute; reflexivity|]. split; [vm_compute; reflexivity|]. split; [vm_compute; reflexivity|].
  split; [vm_compute; reflexivity|]. split; [vm_compute; reflexivity|]. split; vm_compute; reflexivity.
Qed.
Example C31_nontrivial : no_nulls ex_tree /\ exists_module ex_tree ["A"]%string = true /\ exists root', call_submodule "B" ex_tree ["A"]%string = Ok (true, root') /\
  exists root', call_submodule "N" ex_tree ["A"]%string = Ok (false, root').
Proof. split; [exact ex_tree_no_nulls|]. split; [reflexivity|]. eexists. split; [vm_compute; reflexivity|]. eexists. vm_compute. reflexivity. Qed.

(** ** C32 *)
Lemma retabled_unaffected root p tab' root' y : no_nulls root -> ident y -> retabled root p tab' root' ->
  has_symbol_here (Mod "" tab' []) y = has_symbol_here (Mod "" (tab_at root p) []) y -> unaffected root root' y.
Proof.
  intros Hn Hy H Hd p0 abs qs r Hp Hq. assert (HF : Forall (no_null_named root) qs) by (apply Forall_forall; intros c _; apply Hn).
  assert (HF' : Forall (no_null_named root') qs) by (apply Forall_forall; intros c _; apply (retabled_null _ _ _ _ _ H), Hn).
  pose proof (resolves_name root p0 abs qs y HF Hp Hq Hy) as H1. assert (Hp' : exists_module root' p0 = true) by (rewrite (retabled_exists _ _ _ _ _ H); exact Hp).
  pose proof (resolves_name root' p0 abs qs y HF' Hp' Hq Hy) as H2. rewrite (retabled_lookup _ _ _ _ _ _ _ _ H Hd) in H2.
  split; intros G; [rewrite (resolves_unique _ _ _ _ _ G H1); exact H2|rewrite (resolves_unique _ _ _ _ _ G H2); exact H1].
Qed.
Lemma retabled_retrieve root p tab' root' x : no_nulls root -> exists_module root p = true -> ident x -> retabled root p tab' root' ->
  has_symbol_here (Mod "" tab' []) x = true ->
  resolves root' p x (Some (p, x)) /\ (Forall ident p -> forall p0, exists_module root p0 = true -> resolves root' p0 (render true (rev p) x) (Some (p, x))).
Proof.
  intros Hn Hp Hx H Hd. assert (Hp' : exists_module root' p = true) by (rewrite (retabled_exists _ _ _ _ _ H); exact Hp).
  assert (Hdec : declares root' x p = true).
  { pose proof (H p) as Hq. unfold declares, exists_module in *. destruct (mod_at root p) as [m|]; [|discriminate Hp]. destruct (mod_at root' p) as [m'|]; [|discriminate Hp'].
    destruct Hq as (_ & Ht & _). destruct (list_eq_dec string_dec p p) as [_|]; [|congruence]. unfold has_symbol_here in *. rewrite Ht. cbn [m_tab m_inner] in Hd.
    unfold mem at 6 in Hd. cbn [assoc] in Hd. rewrite orb_false_r in Hd. rewrite Hd. reflexivity. }
  assert (Henc : enclosing (declares root' x) p = Some p) by (destruct p; cbn [enclosing]; rewrite Hdec; reflexivity).
  split.
  - pose proof (resolves_name root' p false [] x (Forall_nil _) Hp' (Forall_nil _) Hx) as G. unfold lookup_name, named_module in G. cbn [rev app] in G. rewrite Hp', Henc in G. exact G.
  - intros Hi p0 Hp0. assert (HF' : Forall (no_null_named root') (rev p)) by (apply Forall_forall; intros c _; apply (retabled_null _ _ _ _ _ H), Hn).
    assert (Hp0' : exists_module root' p0 = true) by (rewrite (retabled_exists _ _ _ _ _ H); exact Hp0).
    pose proof (resolves_name root' p0 true (rev p) x HF' Hp0' (Forall_rev Hi) Hx) as G. unfold lookup_name, named_module in G.
    rewrite rev_involutive, app_nil_r, Hp', Henc in G. exact G.
Qed.
Lemma get_set_table k v t k' : get_table k' (set_table k v t) = if match k, k' with Structs, Structs | Unions, Unions | Enums, Enums | Aliases, Aliases => true | _, _ => false end then v else get_table k' t.
Proof. destruct k, k'; reflexivity. Qed.
Lemma set_get_table k t : set_table k (get_table k t) t = t.
Proof. destruct k, t; reflexivity. Qed.
Lemma consts_set_table k v t : consts (set_table k v t) = consts t /\ const_types (set_table k v t) = const_types t /\ from_enum (set_table k v t) = from_enum t.
Proof. destruct k; auto. Qed.
Lemma here_tables tab x : has_symbol_here (Mod "" tab []) x = mem x (get_table Structs tab) || mem x (get_table Unions tab) || mem x (get_table Aliases tab) || mem x (consts tab) || mem x (get_table Enums tab).
Proof. unfold has_symbol_here. cbn [m_tab m_inner get_table]. unfold mem at 6. cbn [assoc]. apply orb_false_r. Qed.
Lemma table_eq (k k' : table) : (match k, k' with Structs, Structs | Unions, Unions | Enums, Enums | Aliases, Aliases => true | _, _ => false end) = true <-> k' = k.
Proof. destruct k, k'; split; congruence. Qed.

(** The effect of a registration on one table: the entry [x] becomes [v], nothing else changes. *)
Lemma set_entry_effect root p k x v root' : exists_module root p = true -> no_nulls root ->
  retabled root p (set_table k v (tab_at root p)) root' ->
  (forall y, y <> x -> assoc y v = assoc y (get_table k (tab_at root p))) ->
  (forall q k' y, entry root' q k' y = if list_eq_dec string_dec q p then if match k, k' with Structs, Structs | Unions, Unions | Enums, Enums | Aliases, Aliases => true | _, _ => false end then assoc y v else entry root q k' y else entry root q k' y) /\
  (forall q, consts (tab_at root' q) = consts (tab_at root q) /\ const_types (tab_at root' q) = const_types (tab_at root q) /\ from_enum (tab_at root' q) = from_enum (tab_at root q)) /\
  (forall y, ident y -> y <> x -> unaffected root root' y).
Proof.
  intros Hp Hn H Hv. split; [|split].
  - intros q k' y. unfold entry. rewrite (retabled_tab _ _ _ _ _ Hp H). destruct (list_eq_dec string_dec q p) as [->|]; [|reflexivity]. rewrite get_set_table. destruct (match k with Structs => _ | _ => _ end); reflexivity.
  - intros q. rewrite (retabled_tab _ _ _ _ _ Hp H). destruct (list_eq_dec string_dec q p) as [->|]; [|auto]. apply consts_set_table.
  - intros y Hy Hne. apply (retabled_unaffected root p _ root' y Hn Hy H). rewrite !here_tables, !get_set_table, (proj1 (consts_set_table _ _ _)).
    assert (Em : mem y v = mem y (get_table k (tab_at root p))) by (unfold mem; rewrite (Hv y Hne); reflexivity). destruct k; rewrite Em; reflexivity.
Qed.
(** Registering a structure, union or enumeration in the module at [p] succeeds exactly when its name has no "::" and is
    free in that table (or replacing is asked for).  If it succeeds, the type is found under its name from that module
    and under its scoped name from every module, with the scoped name as its name; all other entries of all tables of
    all modules and the answers for all other names stay as they were.  If it is refused, nothing changes. *)
Theorem C32_register : forall k t replace root p, no_nulls root -> exists_module root p = true ->
  exists b root', call_register k t replace root p = Ok (b, root') /\
    (b = true <-> split_scope (tname t) = None /\ (replace = true \/ entry root p k (tname t) = None)) /\
    (b = true -> entry root' p k (tname t) = Some (rename t (scoped (scope p) (tname t)))) /\
    (forall q k' y, b = false \/ q <> p \/ k' <> k \/ y <> tname t -> entry root' q k' y = entry root q k' y) /\
    (forall q y, const_entry root' q y = const_entry root q y) /\
    (forall y, ident y -> b = false \/ y <> tname t -> unaffected root root' y) /\
    (b = true -> ident (tname t) -> resolves root' p (tname t) (Some (p, tname t)) /\
       (Forall ident p -> forall p0, exists_module root p0 = true -> resolves root' p0 (render true (rev p) (tname t)) (Some (p, tname t)))).
Proof.
  intros k t replace root p Hn Hp. set (x := tname t) in *.
  destruct (register k (scope p) t replace (tab_at root p)) as [b tab'] eqn:Er.
  destruct (on_tables_ok root p (fun tab => Ok (register k (scope p) t replace tab)) b tab' Hp) as (root' & E); [rewrite Er; reflexivity|].
  exists b, root'. split; [exact E|]. apply on_tables_spec in E as (_ & tab'' & Ef & H). rewrite Er in Ef. injection Ef as <-.
  unfold register in Er. fold x in Er.
  assert (Hsame : tab' = tab_at root p -> (forall q k' y, entry root' q k' y = entry root q k' y) /\ (forall q y, const_entry root' q y = const_entry root q y) /\ (forall y, ident y -> unaffected root root' y)).
  { intros ->. assert (Ht : forall q, tab_at root' q = tab_at root q).
    { intros q. rewrite (retabled_tab _ _ _ _ _ Hp H). destruct (list_eq_dec string_dec q p) as [->|]; reflexivity. }
    split; [intros q k' y; unfold entry; rewrite Ht; reflexivity|]. split; [intros q y; unfold const_entry; rewrite Ht; reflexivity|].
    intros y Hy. apply (retabled_unaffected _ _ _ _ _ Hn Hy H). reflexivity. }
  destruct (split_scope x) as [sc|] eqn:Es.
  - injection Er as <- <-. destruct (Hsame eq_refl) as (H1 & H2 & H3).
    split; [split; [discriminate|intros [G _]; discriminate G]|]. split; [discriminate|]. split; [intros; apply H1|]. split; [intros; apply H2|]. split; [intros; apply H3; assumption|discriminate].
  - set (l := if replace then remove_name x (get_table k (tab_at root p)) else get_table k (tab_at root p)) in *. injection Er as Hb Ht.
    assert (Hl : assoc x l = if replace then None else entry root p k x).
    { unfold l, entry. destruct replace; [rewrite remove_name_assoc, String.eqb_refl|]; reflexivity. }
    assert (Hlo : forall y, y <> x -> assoc y l = assoc y (get_table k (tab_at root p))).
    { intros y Hy. unfold l. destruct replace; [|reflexivity]. rewrite remove_name_assoc. apply String.eqb_neq in Hy. rewrite Hy. reflexivity. }
    assert (Hbiff : b = true <-> replace = true \/ entry root p k x = None).
    { rewrite <- Hb, negb_true_iff. unfold mem. rewrite Hl. destruct replace; [tauto|]. destruct (entry root p k x); split; try tauto; try discriminate. intros [G|G]; discriminate G. }
    split; [tauto|].
    destruct (set_entry_effect root p k x (emplace x (rename t (scoped (scope p) x)) l) root' Hp Hn) as (H1 & H2 & H3).
    { rewrite Ht. exact H. }
    { intros y Hy. rewrite emplace_assoc. pose proof Hy as Hy'. apply String.eqb_neq in Hy'. rewrite Hy'. apply Hlo, Hy. }
    destruct b.
    + assert (Hx : assoc x l = None) by (apply negb_true_iff in Hb; unfold mem in Hb; destruct (assoc x l); [discriminate Hb|reflexivity]).
      split; [intros _|]. { rewrite H1. destruct (list_eq_dec string_dec p p); [|congruence]. replace (match k with Structs => _ | _ => _ end) with true by (destruct k; reflexivity). rewrite emplace_assoc, String.eqb_refl, Hx. reflexivity. }
      split. { intros q k' y Hc. rewrite H1. destruct (list_eq_dec string_dec q p) as [->|]; [|reflexivity].
        destruct (match k with Structs => _ | _ => _ end) eqn:Ek; [|reflexivity]. apply table_eq in Ek. subst k'. destruct Hc as [Hc|[Hc|[Hc|Hc]]]; try discriminate Hc; try congruence.
        rewrite emplace_assoc. pose proof Hc as Hc'. apply String.eqb_neq in Hc'. rewrite Hc'. apply Hlo, Hc. }
      split. { intros q y. unfold const_entry. rewrite (proj1 (H2 q)). reflexivity. }
      split. { intros y Hy [G|G]; [discriminate G|apply H3; assumption]. }
      intros _ Hi. apply (retabled_retrieve root p tab' root' x Hn Hp Hi H). rewrite <- Ht, here_tables, !get_set_table.
      assert (Em : mem x (emplace x (rename t (scoped (scope p) x)) l) = true) by (apply mem_assoc; exists (rename t (scoped (scope p) x)); rewrite emplace_assoc, String.eqb_refl, Hx; reflexivity).
      destruct k; rewrite Em; rewrite ?orb_true_r; reflexivity.
    + assert (Htab : tab' = tab_at root p).
      { destruct replace; [assert (false = true) by (apply Hbiff; left; reflexivity); discriminate|]. rewrite <- Ht. apply negb_false_iff in Hb. unfold emplace. rewrite Hb. apply set_get_table. }
      destruct (Hsame Htab) as (G1 & G2 & G3). split; [discriminate|]. split; [intros; apply G1|]. split; [intros; apply G2|]. split; [intros; apply G3; assumption|discriminate].
Qed.

(** create_alias(t, x): the same, but it is refused as soon as an alias of that name is visible from the module, also
    when it is in a module around it. *)
Theorem C32_create_alias : forall t x root p r, no_nulls root -> exists_module root p = true -> ident x -> resolves root p x r ->
  exists b root', call_create_alias r t x root p = Ok (b, root') /\
    (b = true <-> found root aliases r = None) /\
    (b = true -> entry root p Aliases x = None /\ entry root' p Aliases x = Some (TAlias (scoped (scope p) x) t)) /\
    (forall q k' y, b = false \/ q <> p \/ k' <> Aliases \/ y <> x -> entry root' q k' y = entry root q k' y) /\
    (forall q y, const_entry root' q y = const_entry root q y) /\
    (forall y, ident y -> b = false \/ y <> x -> unaffected root root' y) /\
    (b = true -> resolves root' p x (Some (p, x)) /\
       (Forall ident p -> forall p0, exists_module root p0 = true -> resolves root' p0 (render true (rev p) x) (Some (p, x)))).
Proof.
  intros t x root p r Hn Hp Hx Hr. pose proof Hx as [_ Hc]. pose proof (split_ident _ Hc) as Es.
  pose proof (resolves_name root p false [] x (Forall_nil _) Hp (Forall_nil _) Hx) as Hr'. rewrite (resolves_unique _ _ _ _ _ Hr Hr') in *. clear Hr. set (rr := lookup_name root p false [] x) in *.
  assert (Hfree : found root aliases rr = None -> entry root p Aliases x = None).
  { intros Hf. destruct (entry root p Aliases x) as [a|] eqn:Ea; [|reflexivity]. exfalso.
    assert (Hd : declares root x p = true).
    { unfold entry, tab_at, exists_module, declares in *. destruct (mod_at root p) as [m|]; [|discriminate Hp]. cbn [get_table] in Ea. unfold has_symbol_here.
      replace (mem x (aliases (m_tab m))) with true; [rewrite !orb_true_r; reflexivity|]. symmetry. apply mem_assoc. eauto. }
    assert (Err : rr = Some (p, x)).
    { unfold rr, lookup_name, named_module. cbn [rev app]. rewrite Hp. replace (enclosing (declares root x) p) with (Some p); [reflexivity|]. destruct p; cbn [enclosing]; rewrite Hd; reflexivity. }
    rewrite Err in Hf. cbn [found] in Hf. unfold entry in Ea. cbn [get_table] in Ea. congruence. }
  set (f := fun tab => Ok (create_alias (match found root aliases rr with Some _ => true | None => false end) (scope p) t x tab)).
  destruct (create_alias (match found root aliases rr with Some _ => true | None => false end) (scope p) t x (tab_at root p)) as [b tab'] eqn:Er.
  destruct (on_tables_ok root p f b tab' Hp) as (root' & E); [unfold f; rewrite Er; reflexivity|].
  exists b, root'. split; [exact E|]. apply on_tables_spec in E as (_ & tab'' & Ef & H). unfold f in Ef. rewrite Er in Ef. injection Ef as <-.
  unfold create_alias in Er. rewrite Es in Er. destruct (found root aliases rr) as [a|] eqn:Ef.
  - injection Er as <- <-. split; [split; discriminate|]. split; [discriminate|].
    assert (Ht : forall q, tab_at root' q = tab_at root q).
    { intros q. rewrite (retabled_tab _ _ _ _ _ Hp H). destruct (list_eq_dec string_dec q p) as [->|]; reflexivity. }
    split; [intros; unfold entry; rewrite Ht; reflexivity|]. split; [intros; unfold const_entry; rewrite Ht; reflexivity|]. split; [|discriminate].
    intros y Hy _. apply (retabled_unaffected _ _ _ _ _ Hn Hy H). reflexivity.
  - specialize (Hfree eq_refl). assert (Ea : assoc x (aliases (tab_at root p)) = None) by exact Hfree. unfold mem in Er. rewrite Ea in Er. injection Er as <- Ht.
    destruct (set_entry_effect root p Aliases x (emplace x (TAlias (scoped (scope p) x) t) (aliases (tab_at root p))) root' Hp Hn) as (H1 & H2 & H3).
    { cbn [set_table]. rewrite Ht. exact H. }
    { intros y Hy. rewrite emplace_assoc. apply String.eqb_neq in Hy. rewrite Hy. reflexivity. }
    split; [tauto|]. split. { intros _. split; [exact Hfree|]. rewrite H1. destruct (list_eq_dec string_dec p p); [|congruence]. rewrite emplace_assoc, String.eqb_refl, Ea. reflexivity. }
    split. { intros q k' y Hcc. rewrite H1. destruct (list_eq_dec string_dec q p) as [->|]; [|reflexivity]. destruct k'; try reflexivity.
      destruct Hcc as [Hcc|[Hcc|[Hcc|Hcc]]]; try discriminate Hcc; try congruence. rewrite emplace_assoc. apply String.eqb_neq in Hcc. rewrite Hcc. reflexivity. }
    split. { intros q y. unfold const_entry. rewrite (proj1 (H2 q)). reflexivity. }
    split. { intros y Hy [G|G]; [discriminate G|apply H3; assumption]. }
    intros _. apply (retabled_retrieve root p tab' root' x Hn Hp Hx H). rewrite <- Ht, here_tables. cbn [get_table set_aliases structs unions aliases consts enums].
    replace (mem x (emplace _ _ _)) with true; [rewrite !orb_true_r; reflexivity|]. symmetry. apply mem_assoc. exists (TAlias (scoped (scope p) x) t). rewrite emplace_assoc, String.eqb_refl, Ea. reflexivity.
Qed.
(** create_constant(x, v): with [v] holding the value [w], the constant [x] of the module holds [w] afterwards; all
    other constants and all types are unchanged; if the name is taken (and replacing is not asked for) nothing changes.
    Missing for the full property: values with a union that has no active member and types that cannot be copied (C07). *)
Theorem C32_create_constant_partial : forall fc x v w replace fromenum root p, no_nulls root -> exists_module root p = true -> consts_paired root -> ident x ->
  holds v w -> copy_ok (d_type v) -> vselected (d_type v) w ->
  exists b root', call_create_constant fc x v replace fromenum root p = Ok (b, root') /\
    (b = true <-> replace = true \/ const_entry root p x = None) /\
    (b = true -> exists d, const_entry root' p x = Some d /\ d_type d = d_type v /\ holds d w) /\
    (forall q y, b = false \/ q <> p \/ y <> x -> const_entry root' q y = const_entry root q y) /\
    (forall q k y, entry root' q k y = entry root q k y) /\
    (forall y, ident y -> b = false \/ y <> x -> unaffected root root' y) /\
    (b = true -> resolves root' p x (Some (p, x)) /\
       (Forall ident p -> forall p0, exists_module root p0 = true -> resolves root' p0 (render true (rev p) x) (Some (p, x)))) /\
    consts_paired root'.
Proof.
  intros fc x v w replace fromenum root p Hn Hp Hpair Hx Hv Hcok Hsel. pose proof Hx as [_ Hc]. pose proof (split_ident _ Hc) as Es.
  (* the value stored *)
  assert (Hstore : exists d, (do temp <- new_data (d_type v); do temp1 <- assign_data fc temp v; copy_data fc temp1) = Ok d /\ d_type d = d_type v /\ holds d w).
  { pose proof (holds_good _ _ Hv) as Hg. pose proof Hv as (G1 & G2 & Hrg & _).
    destruct (construct_spec (d_type v) Hg (fresh (msize (d_type v))) 0 (fresh_alloc _)) as (b0 & E0 & A0 & L0 & R0).
    assert (Hnew : new_data (d_type v) = Ok (mkData (d_type v) b0)) by (unfold new_data; rewrite Hrg, E0; reflexivity).
    assert (Hh0 : holds (mkData (d_type v) b0) (default_value (d_type v))) by (unfold holds; cbn [d_type d_mem]; auto).
    destruct (assign_holds fc _ _ _ _ Hh0 Hv eq_refl Hcok Hsel) as (d1 & E1 & T1 & H1). cbn [d_type] in T1.
    destruct (copy_holds fc d1 w H1) as (d2 & E2 & T2 & H2); [rewrite T1; exact Hcok|rewrite T1; exact Hsel|].
    exists d2. rewrite Hnew. cbn [bind]. rewrite E1. cbn [bind]. rewrite E2. split; [reflexivity|]. split; [congruence|exact H2]. }
  destruct Hstore as (d & Ed & Td & Hd). apply bind_ok_iff in Ed as (temp & Et & Ed). apply bind_ok_iff in Ed as (temp1 & Et1 & Ed).
  set (tab := tab_at root p) in *. pose proof (Hpair p x) as Hpx. fold tab in Hpx.
  set (tab1 := if replace && mem x (consts tab) then mkTables (structs tab) (unions tab) (aliases tab) (enums tab) (remove_name x (const_types tab)) (remove_name x (consts tab)) (from_enum tab) else tab).
  assert (E1 : create_constant fc x v replace fromenum tab = if mem x (consts tab1) then Ok (false, tab1) else
    Ok (true, mkTables (structs tab1) (unions tab1) (aliases tab1) (enums tab1) (emplace x (d_type v) (const_types tab1)) (emplace x d (consts tab1)) (if fromenum then from_enum tab1 ++ [x] else from_enum tab1))).
  { unfold create_constant. rewrite Es. assert (Hp1 : mem x (const_types tab1) = mem x (consts tab1)).
    { unfold tab1. destruct (replace && mem x (consts tab)); [|exact Hpx]. cbn [const_types consts]. unfold mem. rewrite !remove_name_assoc, String.eqb_refl. reflexivity. }
    assert (E : (if replace && mem x (consts tab) then if mem x (const_types tab) then Ok (mkTables (structs tab) (unions tab) (aliases tab) (enums tab) (remove_name x (const_types tab)) (remove_name x (consts tab)) (from_enum tab)) else Fail UB else Ok tab) = Ok tab1).
    { unfold tab1. destruct (replace && mem x (consts tab)) eqn:Em; [|reflexivity]. apply andb_true_iff in Em as [_ Em]. rewrite Hpx, Em. reflexivity. }
    rewrite E. cbn [bind]. rewrite Hp1. destruct (mem x (consts tab1)); [reflexivity|]. rewrite Et. cbn [bind]. rewrite Et1. cbn [bind]. rewrite Ed. reflexivity. }
  assert (Hm1 : mem x (consts tab1) = negb replace && mem x (consts tab)).
  { unfold tab1. destruct replace; cbn [andb negb]; [|reflexivity]. destruct (mem x (consts tab)) eqn:Em; [|exact Em]. cbn [consts]. unfold mem. rewrite remove_name_assoc, String.eqb_refl. reflexivity. }
  assert (Hother : forall y, y <> x -> assoc y (consts tab1) = assoc y (consts tab) /\ assoc y (const_types tab1) = assoc y (const_types tab)).
  { intros y Hy. unfold tab1. destruct (replace && mem x (consts tab)); [|auto]. cbn [consts const_types]. rewrite !remove_name_assoc. apply String.eqb_neq in Hy. rewrite Hy. auto. }
  assert (Htypes : forall k, get_table k tab1 = get_table k tab) by (intros k; unfold tab1; destruct (replace && mem x (consts tab)); destruct k; reflexivity).
  destruct (mem x (consts tab1)) eqn:Em.
  - destruct (on_tables_ok root p (create_constant fc x v replace fromenum) false tab1 Hp E1) as (root' & E). exists false, root'. split; [exact E|].
    apply on_tables_spec in E as (_ & tab'' & Ef & H). fold tab in Ef. rewrite E1 in Ef. injection Ef as <-.
    symmetry in Hm1. apply andb_true_iff in Hm1 as [Hrep Hmem]. apply negb_true_iff in Hrep. subst replace. assert (Ht1 : tab1 = tab) by reflexivity.
    assert (Ht : forall q, tab_at root' q = tab_at root q).
    { intros q. rewrite (retabled_tab _ _ _ _ _ Hp H). destruct (list_eq_dec string_dec q p) as [->|]; reflexivity. }
    split. { split; [discriminate|]. intros [G|G]; [discriminate G|]. unfold const_entry in G. fold tab in G. unfold mem in Hmem. rewrite G in Hmem. discriminate Hmem. }
    split; [discriminate|]. split; [intros; unfold const_entry; rewrite Ht; reflexivity|]. split; [intros; unfold entry; rewrite Ht; reflexivity|].
    split. { intros y Hy _. apply (retabled_unaffected _ _ _ _ _ Hn Hy H). reflexivity. }
    split; [discriminate|]. intros q y. rewrite Ht. apply Hpair.
  - set (tab' := mkTables (structs tab1) (unions tab1) (aliases tab1) (enums tab1) (emplace x (d_type v) (const_types tab1)) (emplace x d (consts tab1)) (if fromenum then from_enum tab1 ++ [x] else from_enum tab1)) in *.
    destruct (on_tables_ok root p (create_constant fc x v replace fromenum) true tab' Hp E1) as (root' & E). exists true, root'. split; [exact E|].
    apply on_tables_spec in E as (_ & tab'' & Ef & H). fold tab in Ef. rewrite E1 in Ef. injection Ef as <-.
    assert (Ea : assoc x (consts tab1) = None) by (unfold mem in Em; destruct (assoc x (consts tab1)); [discriminate Em|reflexivity]).
    assert (Eta : assoc x (const_types tab1) = None).
    { unfold tab1 in *. destruct (replace && mem x (consts tab)); cbn [const_types consts] in *; [rewrite remove_name_assoc, String.eqb_refl; reflexivity|].
      rewrite Em in Hpx. unfold mem in Hpx. destruct (assoc x (const_types tab)); [discriminate Hpx|reflexivity]. }
    assert (Hget : forall k, get_table k tab' = get_table k tab) by (intros k; rewrite <- Htypes; destruct k; reflexivity).
    split. { split; [|reflexivity]. intros _. destruct replace; [left; reflexivity|right]. cbn [negb andb] in Hm1. symmetry in Hm1. unfold const_entry. fold tab. unfold mem in Hm1. destruct (assoc x (consts tab)); [discriminate Hm1|reflexivity]. }
    split. { intros _. exists d. unfold const_entry. rewrite (retabled_tab _ _ _ _ _ Hp H). destruct (list_eq_dec string_dec p p); [|congruence]. cbn [tab' consts]. rewrite emplace_assoc, String.eqb_refl, Ea. auto. }
    split. { intros q y Hq. unfold const_entry. rewrite (retabled_tab _ _ _ _ _ Hp H). destruct (list_eq_dec string_dec q p) as [->|]; [|reflexivity]. destruct Hq as [Hq|[Hq|Hq]]; [discriminate Hq|congruence|].
      cbn [tab' consts]. rewrite emplace_assoc. pose proof Hq as Hq'. apply String.eqb_neq in Hq'. rewrite Hq'. apply Hother, Hq. }
    split. { intros q k y. unfold entry. rewrite (retabled_tab _ _ _ _ _ Hp H). destruct (list_eq_dec string_dec q p) as [->|]; [|reflexivity]. rewrite Hget. reflexivity. }
    split. { intros y Hy [G|G]; [discriminate G|]. apply (retabled_unaffected _ _ _ _ _ Hn Hy H). fold tab. rewrite !here_tables, !Hget.
      replace (mem y (consts tab')) with (mem y (consts tab)); [reflexivity|]. unfold mem. cbn [tab' consts]. rewrite emplace_assoc. pose proof G as G'. apply String.eqb_neq in G'. rewrite G', (proj1 (Hother y G)). reflexivity. }
    split. { intros _. apply (retabled_retrieve root p tab' root' x Hn Hp Hx H). rewrite here_tables. replace (mem x (consts tab')) with true; [rewrite !orb_true_r; reflexivity|].
      symmetry. apply mem_assoc. exists d. cbn [tab' consts]. rewrite emplace_assoc, String.eqb_refl, Ea. reflexivity. }
    intros q y. rewrite (retabled_tab _ _ _ _ _ Hp H). destruct (list_eq_dec string_dec q p) as [->|]; [|apply Hpair]. cbn [tab' consts const_types]. unfold mem. rewrite !emplace_assoc, Ea, Eta.
    destruct (String.eqb y x) eqn:Ey; [reflexivity|]. apply String.eqb_neq in Ey. destruct (Hother y Ey) as [-> ->]. apply Hpair.
Qed.
(** Where the full property fails: a structure can be registered under the name of an alias, and type(name) then answers
    the alias; an alias added with "::" in its name is never found under that name; replacing a constant that came from
    an enumeration leaves it marked as coming from an enumeration. *)
Theorem C32_declare_refuted :
  (exists root root', call_register Structs (ex_leaf "T") false root [] = Ok (true, root') /\ resolves root' [] "T" (Some ([], "T"%string)) /\
     type_of root' "T" (Some ([], "T"%string)) = Ok (Some (TAlias "T" (TPrim PU8)))) /\
  (exists root', call_add_alias (TAlias "A::B" (TPrim PU8)) root_module [] = Ok (true, root') /\ resolves root' [] "A::B" None) /\
  (forall fc, exists d r1 r2, new_data (TPrim PU32) = Ok d /\ call_create_constant fc "c" d false true root_module [] = Ok (true, r1) /\
     call_create_constant fc "c" d true false r1 [] = Ok (true, r2) /\ from_enum (tab_at r2 []) = ["c"%string]).
Proof.
  split; [|split].
  - exists (Mod "" (mkTables [] [] [("T"%string, TAlias "T" (TPrim PU8))] [] [] [] []) []). eexists. split; [vm_compute; reflexivity|]. split; [exists 9%nat; vm_compute; reflexivity|vm_compute; reflexivity].
  - eexists. split; [vm_compute; reflexivity|]. exists 9%nat. vm_compute. reflexivity.
  - intros fc. eexists. eexists. eexists. split; [vm_compute; reflexivity|]. split; [vm_compute; reflexivity|]. split; vm_compute; reflexivity.
Qed.
Example C32_nontrivial : exists d r1 r2 r3 w, new_data (TPrim PU32) = Ok d /\ holds d w /\ copy_ok (d_type d) /\ vselected (d_type d) w /\
  call_register Structs (ex_leaf "S") false ex_tree ["B"; "A"]%string = Ok (true, r1) /\
  entry r1 ["B"; "A"]%string Structs "S" = Some (ex_leaf "A::B::S") /\ resolves r1 [] "::A::B::S" (Some (["B"; "A"]%string, "S"%string)) /\
  call_register Structs (ex_leaf "S") false r1 ["B"; "A"]%string = Ok (false, r2) /\
  call_create_constant fc0 "c" d false false r1 ["A"]%string = Ok (true, r3) /\ resolves r3 ["B"; "A"]%string "c" (Some (["A"]%string, "c"%string)) /\
  no_nulls ex_tree /\ consts_paired ex_tree.
Proof.
  destruct (new_holds (TPrim PU32)) as (d & E & T & H & _); [apply at_prim|vm_compute; exact I|]. exists d.
  assert (E' := E). vm_compute in E'. injection E' as E'. eexists. eexists. eexists. exists (default_value (TPrim PU32)). split; [exact E|]. split; [exact H|].
  rewrite T. split; [vm_compute; exact I|]. split; [vm_compute; exact I|]. split; [vm_compute; reflexivity|]. split; [vm_compute; reflexivity|].
  split; [exists 9%nat; vm_compute; reflexivity|]. split; [vm_compute; reflexivity|]. split; [rewrite <- E'; vm_compute; reflexivity|].
  split; [exists 9%nat; vm_compute; reflexivity|]. split; [exact ex_tree_no_nulls|].
  intros q y. unfold tab_at. rewrite mod_at_walk. destruct (rev q) as [|a [|b [|c l]]]; cbn [walk]; try reflexivity; cbn.
  - destruct (String.eqb a "A"); reflexivity.
  - destruct (String.eqb a "A"); [|reflexivity]. cbn. destruct (String.eqb b "B"); reflexivity.
  - destruct (String.eqb a "A"); [|reflexivity]. cbn. destruct (String.eqb b "B"); reflexivity.
Qed.

(** ** C44 *)
(** type(name, true) searches the submodules: the answer of a later submodule replaces that of an earlier one, also
    when it is "not found". *)
Definition ex_flat (a b : list string) : modl := Mod "" no_tables [("A"%string, Some (Mod "A" (tabs a) [])); ("B"%string, Some (Mod "B" (tabs b) []))].
Definition rs_of (root : modl) (name : string) (p : place) : option (place * string) := match resolve_scope 9 root p name name true with Ok r => r | Fail _ => None end.
Theorem C44_recursive_refuted :
  type_rec 9 (ex_flat ["T"%string] []) "T" (rs_of (ex_flat ["T"%string] []) "T") [] = Ok None /\
  type_rec 9 (ex_flat [] ["T"%string]) "T" (rs_of (ex_flat [] ["T"%string]) "T") [] = Ok (Some (ex_leaf "T")).
Proof. split; vm_compute; reflexivity. Qed.
(** What is proved of the full property: the answer is the type a lookup finds from the module itself when there is
    one. *)
Theorem C44_own_first_partial : forall n root name rs p q x r a, type_rec n root name rs p = Ok r -> rs p = Some (q, x) -> split_scope name = None ->
  type_of root name (Some (q, x)) = Ok (Some a) -> r = Some a.
Proof.
  intros n root name rs p q x r a H Hr Hs Ht. destruct n as [|n]; [discriminate H|]. cbn [type_rec] in H. destruct (mod_at root p) as [m|]; [|discriminate H].
  apply bind_ok_iff in H as (sub & _ & H). rewrite Hr, Hs in H. unfold type_of in Ht. rewrite Hs in Ht. injection H as <-. injection Ht as Ht.
  destruct (assoc x (aliases (tab_at root q))); [exact Ht|]. destruct (assoc x (unions (tab_at root q))); [exact Ht|]. destruct (assoc x (structs (tab_at root q))); [exact Ht|]. rewrite Ht. reflexivity.
Qed.
Example C44_nontrivial : exists r, type_rec 9 ex_tree "X" (rs_of ex_tree "X") [] = Ok (Some r) /\ type_of ex_tree "X" (Some ([], "X"%string)) = Ok (Some r).
Proof. eexists. split; vm_compute; reflexivity. Qed.

Print Assumptions C29_unqualified.
Print Assumptions C29_found_declares.
Print Assumptions C29_one_answer.
Print Assumptions C29_absolute.
Print Assumptions C29_absolute_everywhere.
Print Assumptions C29_lookup.
Print Assumptions C29_has_symbol.
Print Assumptions C29_symbol_count.
Print Assumptions C68_terminates_refuted.
Print Assumptions C30_named_or_around_partial.
Print Assumptions C30_escape_refuted.
Print Assumptions C31_submodule_partial.
Print Assumptions C31_query_refuted.
Print Assumptions C32_register.
Print Assumptions C32_create_alias.
Print Assumptions C32_create_constant_partial.
Print Assumptions C32_declare_refuted.
Print Assumptions C44_recursive_refuted.
Print Assumptions C44_own_first_partial.
