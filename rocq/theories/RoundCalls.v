(** What the calls that the parser makes do to a tidy module tree. *)
From Verif Require Import Base Types TypeBuild Mem MemSpec MemFacts ConstructFacts Hash MapOps Ops NumSpec NumFacts IntSpec IntFacts IntOps ModuleSpec ModuleFacts Module DataSpec ValueSpec PropModule Peg0 Grammar Peg PegRules IdlParse IdlParseFacts GenSpec StructText GrowFacts DocFacts EnumText ModuleText DocSpec DocText StructRead.
Local Open Scope string_scope.

Definition sound (R : modl) : Prop := tidy R /\ consts_paired R.
Definition same_places (R R' : modl) : Prop := forall q, exists_module R' q = exists_module R q.

Lemma register_facts : forall k t R p, sound R -> exists_module R p = true -> is_ident (tname t) = true -> entry R p k (tname t) = None ->
  exists R', call_register k t false R p = Ok (true, R') /\ sound R' /\ same_places R R' /\
    entry R' p k (tname t) = Some (rename t (scoped (scope p) (tname t))) /\
    (forall q k' y, q <> p \/ k' <> k \/ y <> tname t -> entry R' q k' y = entry R q k' y) /\
    forall q y, const_entry R' q y = const_entry R q y.
Proof.
  intros k t R p [T P] E I N. destruct (C32_register k t false R p (proj1 T) E) as (b & R' & C & B & A & K & Co & _). pose proof (proj2 (is_ident_name _ I)) as NC.
  assert (b = true). { apply B. split; [apply split_ident, NC|right; exact N]. } subst b. exists R'. split; [exact C|]. unfold call_register in C.
  destruct (on_tables_tidy _ R p _ true R' (tname t) C I) as [T' Ex]; [|exact T|]. { intros tab' Q. injection Q as Q. pose proof (register_adds k (scope p) t (tab_at R p)) as X. rewrite Q in X. exact X. }
  split; [split; [exact T'|]|].
  { intros q y. apply on_tables_spec in C as (_ & tab' & F & Rt). rewrite (retabled_tab _ _ _ _ q E Rt). destruct (list_eq_dec string_dec q p) as [->|]; [|apply P]. injection F as F. specialize (P p y).
    unfold register in F. destruct (split_scope (tname t)); [injection F as _ <-; exact P|]. injection F as _ <-. destruct k; exact P. }
  split; [exact Ex|]. split; [apply A; reflexivity|]. split; [|exact Co]. intros q k' y H. apply K. right. exact H.
Qed.
Lemma alias_facts : forall t x R p, sound R -> exists_module R p = true -> is_ident x = true -> has_symbol R p x = false ->
  exists R', call_create_alias None t x R p = Ok (true, R') /\ sound R' /\ same_places R R' /\
    entry R' p Aliases x = Some (TAlias (scoped (scope p) x) t) /\
    (forall q k' y, q <> p \/ k' <> Aliases \/ y <> x -> entry R' q k' y = entry R q k' y) /\
    forall q y, const_entry R' q y = const_entry R q y.
Proof.
  intros t x R p [T P] E I N. assert (Rs : resolves R p x None).
  { destruct (path_lookup R p false [] x (proj1 T) E) as (n & H); [constructor; [exact I|constructor]|]. exists n. unfold resolve in H. cbn [render qualified] in H. rewrite H. f_equal. unfold lookup_name, named_module. cbn [rev app]. rewrite E.
    rewrite has_symbol_enclosing in N. unfold exists_module in E. destruct (mod_at R p); [|discriminate E]. destruct (enclosing (declares R x) p); [discriminate N|reflexivity]. }
  destruct (C32_create_alias t x R p None (proj1 T) E (is_ident_name _ I) Rs) as (b & R' & C & B & A & K & Co & _).
  assert (b = true) by (apply B; reflexivity). subst b. exists R'. split; [exact C|]. unfold call_create_alias in C.
  destruct (on_tables_tidy _ R p _ true R' x C I) as [T' Ex]; [|exact T|]. { intros tab' Q. injection Q as Q. pose proof (alias_adds false (scope p) t x (tab_at R p)) as X. cbn [found] in Q. rewrite Q in X. exact X. }
  split; [split; [exact T'|]|].
  { intros q y. apply on_tables_spec in C as (_ & tab' & F & Rt). rewrite (retabled_tab _ _ _ _ q E Rt). destruct (list_eq_dec string_dec q p) as [->|]; [|apply P]. injection F as F. specialize (P p y).
    unfold create_alias in F. cbn [found] in F. destruct (split_scope x); [injection F as _ <-; exact P|]. injection F as _ <-. exact P. }
  split; [exact Ex|]. split; [apply A; reflexivity|]. split; [|exact Co]. intros q k' y H. apply K. right. exact H.
Qed.
Section Values.
  Variable fc : prim -> prim -> list N -> list N.
  Lemma const_facts : forall x d pk z fe R p, sound R -> exists_module R p = true -> is_ident x = true -> const_entry R p x = None -> is_int d pk z ->
    exists R' d', call_create_constant fc x d false fe R p = Ok (true, R') /\ sound R' /\ same_places R R' /\
      const_entry R' p x = Some d' /\ is_int d' pk z /\
      (forall q y, q <> p \/ y <> x -> const_entry R' q y = const_entry R q y) /\
      forall q k y, entry R' q k y = entry R q k y.
  Proof.
    intros x d pk z fe R p [T P] E I N [Td (bs & Hb & Nb)].
    destruct (C32_create_constant_partial fc x d (VBytes bs) false fe R p (proj1 T) E P (is_ident_name _ I) Hb) as (b & R' & C & B & A & K & En & _ & _ & P'); [rewrite Td; constructor|rewrite Td; exact Logic.I|].
    assert (b = true) by (apply B; right; exact N). subst b. destruct (A eq_refl) as (d' & Cd & Td' & Hd'). exists R', d'. split; [exact C|]. unfold call_create_constant in C.
    destruct (on_tables_tidy _ R p _ true R' x C I) as [T' Ex]; [|exact T|]. { intros tab' Q. eapply const_adds, Q. }
    split; [split; assumption|]. split; [exact Ex|]. split; [exact Cd|]. split; [split; [congruence|exists bs; auto]|]. split; [|exact En]. intros q y H. apply K. right. exact H.
  Qed.
  Lemma enumerators_facts : forall p es R, sound R -> exists_module R p = true -> Forall (fun e => is_ident (fst e) = true /\ (snd e < 2 ^ 32)%N) es -> NoDup (map fst es) -> (forall e, In e es -> const_entry R p (fst e) = None) ->
    exists R', declare_enumerators fc p es R = Ok R' /\ sound R' /\ same_places R R' /\
      (forall y v, In (y, v) es -> exists d, const_entry R' p y = Some d /\ is_int d PU32 (Z.of_N v)) /\
      (forall q y, q <> p \/ ~ In y (map fst es) -> const_entry R' q y = const_entry R q y) /\
      forall q k y, entry R' q k y = entry R q k y.
  Proof.
    intros p. induction es as [|[e v] es IH]; intros R So E F ND N.
    - exists R. split; [reflexivity|]. split; [exact So|]. split; [intro; reflexivity|]. split; [intros y v []|]. split; reflexivity.
    - inversion F as [|? ? [Ie Le] Fr]; subst. cbn [fst snd] in *. inversion ND as [|? ? Ni NDr]; subst. cbn [declare_enumerators].
      destruct (result_int fc PU32 (Z.of_N v) ltac:(discriminate)) as (d & r & -> & D & Rr). cbn [bind].
      assert (r = Z.of_N v). { destruct Rr as ([F1 F2] & k & Ek). unfold least, greatest, width in *. cbn [prim_signed prim_size] in *. change (8 * Z.of_N 4)%Z with 32%Z in *. change (2 ^ 32)%Z with 4294967296%Z in *. change (2 ^ 32)%N with 4294967296%N in *. lia. } subst r.
      destruct (const_facts e d PU32 _ true R p So E Ie (N _ (or_introl eq_refl)) D) as (R1 & d' & -> & So1 & X1 & C1 & I1 & K1 & En1). cbn [bind snd].
      destruct (IH R1 So1) as (R' & H & So' & X' & A & K & En); [rewrite X1; exact E|exact Fr|exact NDr| |].
      { intros f Hf. rewrite K1; [apply N; right; exact Hf|]. right. intros Q. apply Ni. rewrite <- Q. apply in_map, Hf. }
      exists R'. split; [exact H|]. split; [exact So'|]. split; [intro q; rewrite X'; apply X1|]. split; [|split].
      + intros y w [Q|Q]; [|apply A, Q]. injection Q as <- <-. exists d'. split; [|exact I1]. rewrite K; [exact C1|right; exact Ni].
      + intros q y H1. cbn [map In fst] in H1. rewrite K; [apply K1|]; (destruct H1 as [H1|H1]; [left; exact H1|right; intros Q; apply H1; auto]).
      + intros q k y. rewrite En. apply En1.
  Qed.
End Values.
Lemma at_module_total : forall f l m x, walk l m = Some x -> (exists y, f x = Ok y) -> exists r, at_module l f m = Ok r.
Proof.
  intros f. induction l as [|c l IH]; intros m x W Hy; cbn [walk at_module] in *; [injection W as <-; exact Hy|].
  destruct (assoc c (m_inner m)) as [[y|]|]; try discriminate W. destruct (IH y x W Hy) as (r & ->). cbn [bind]. eauto.
Qed.
(** Entering a module that does not exist creates it, empty. *)
Lemma enters_facts : forall x R p, sound R -> exists_module R p = true -> is_ident x = true -> exists_module R (x :: p) = false ->
  exists R', enters x p R R' /\ sound R' /\ (forall q, exists_module R' q = true <-> exists_module R q = true \/ q = x :: p) /\
    (forall q k y, entry R' q k y = entry R q k y) /\ forall q y, const_entry R' q y = const_entry R q y.
Proof.
  intros x R p [T P] E I N. assert (HS : has_submodule R p x = false).
  { unfold has_submodule, exists_module in *. cbn [mod_at] in N. destruct (mod_at R p) as [m|] eqn:M; [|reflexivity]. unfold mem. pose proof (proj1 T x p m M) as Nn. destruct (assoc x (m_inner m)) as [[z|]|]; [discriminate N|congruence|reflexivity]. }
  assert (HC : exists r, call_create_submodule x R p = Ok r).
  { unfold call_create_submodule. unfold exists_module in E. destruct (mod_at R p) as [m|] eqn:M; [|discriminate E]. unfold has_submodule in HS. rewrite M in HS. rewrite mod_at_walk in M. apply (at_module_total _ _ _ m M).
    unfold create_submodule. unfold mem in HS. destruct (assoc x (m_inner m)); [discriminate HS|eauto]. }
  destruct HC as (r & HC). destruct (created x R p r HS HC) as (A & B & C).
  assert (Nr : no_nulls r). { intros c q m' M' Q. destruct (C q m' M') as [[_ ->]|(m & M & _ & K)]; [discriminate Q|]. apply (proj1 T c q m M). apply K, Q. }
  destruct (C31_submodule_partial r p x Nr (B p E)) as (b & R' & CS & Bb & Same & _). assert (b = true) by (apply Bb, A). subst b.
  exists R'. assert (En : enters x p R R') by (exists r; rewrite HS; split; assumption). split; [exact En|].
  destruct (enters_tidy x p R R' I En E T) as (T' & E1 & E2).
  assert (TA : forall q, tab_at R' q = tab_at R q).
  { intros q. rewrite (proj2 (Same q)). unfold tab_at. destruct (mod_at r q) as [m'|] eqn:M'.
    - destruct (C q m' M') as [[-> ->]|(m & M & Tb & _)]; [|rewrite M; exact Tb]. unfold exists_module in N. destruct (mod_at R (x :: p)); [discriminate N|reflexivity].
    - destruct (mod_at R q) as [m|] eqn:M; [|reflexivity]. exfalso. assert (X : exists_module r q = true) by (apply B; unfold exists_module; rewrite M; reflexivity). unfold exists_module in X. rewrite M' in X. discriminate X. }
  split; [split; [exact T'|intros q y; rewrite TA; apply P]|]. split; [|split; intros; unfold entry, const_entry; rewrite TA; reflexivity].
  intros q. rewrite (proj1 (Same q)). split.
  - unfold exists_module at 1. destruct (mod_at r q) as [m'|] eqn:M'; [|discriminate]. intros _. destruct (C q m' M') as [[-> _]|(m & M & _)]; [right; reflexivity|left]. unfold exists_module. rewrite M. reflexivity.
  - intros [H| ->]; [apply B, H|exact A].
Qed.
