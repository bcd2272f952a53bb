(** Facts about module lookup and registration. *)
From Verif Require Import Base Types TypeBuild Mem Ops Module ModuleSpec.

Lemma str_app_length (a b : string) : String.length (a ++ b) = (String.length a + String.length b)%nat.
Proof. induction a; cbn; [reflexivity|]. f_equal. exact IHa. Qed.
Lemma split_ident x : no_colon x = true -> split_scope x = None.
Proof.
  induction x as [|a x IH]; [reflexivity|]. cbn [no_colon split_scope]. intros H. apply andb_true_iff in H as [Ha H]. destruct x as [|b x]; [reflexivity|].
  apply negb_true_iff in Ha. rewrite Ha. cbn [andb]. rewrite (IH H). reflexivity.
Qed.
Lemma split_app q s : no_colon q = true -> split_scope (q ++ "::" ++ s) = Some (q, s).
Proof.
  induction q as [|a q IH]; [reflexivity|]. cbn [no_colon]. intros H. apply andb_true_iff in H as [Ha H]. specialize (IH H). apply negb_true_iff in Ha.
  change ((String a q ++ "::" ++ s)%string) with (String a (q ++ "::" ++ s)). cbn [split_scope].
  destruct (q ++ "::" ++ s)%string as [|b r] eqn:E; [destruct q; discriminate E|]. rewrite Ha. cbn [andb]. rewrite IH. reflexivity.
Qed.

Lemma bind_ok_iff {A B} (r : res A) (f : A -> res B) b : bind r f = Ok b <-> exists a, r = Ok a /\ f a = Ok b.
Proof. destruct r as [a|e]; cbn; split; [eauto|intros (a' & [= ->] & H); exact H|discriminate|intros (a & H & _); discriminate H]. Qed.
Lemma resolve_mono n : forall n' root p sym orig first r, resolve_scope n root p sym orig first = Ok r -> (n <= n')%nat -> resolve_scope n' root p sym orig first = Ok r.
Proof.
  induction n as [|n IH]; intros n' root p sym orig first r H Hn; [discriminate H|]. destruct n' as [|n']; [lia|]. apply le_S_n in Hn. cbn [resolve_scope] in *.
  destruct (mod_at root p) as [m|]; [|discriminate H]. destruct (negb first && String.eqb sym orig); [exact H|].
  destruct (split_scope sym) as [[sc rest]|].
  - destruct (String.eqb sc ""); [destruct p; eapply IH; eassumption|].
    apply bind_ok_iff in H as (a & Ha & H). apply bind_ok_iff. exists a. split.
    + destruct (String.eqb sc (m_name_ m) && mem sc (m_inner m)); [eapply IH; eassumption|exact Ha].
    + destruct a; [exact H|]. destruct (mem sc (m_inner m)); [eapply IH; eassumption|]. destruct p; [exact H|]. destruct first; [eapply IH; eassumption|exact H].
  - destruct (has_symbol_here m sym); [exact H|]. destruct p; [exact H|]. eapply IH; eassumption.
Qed.
Lemma resolves_unique root p x r r' : resolves root p x r -> resolves root p x r' -> r = r'.
Proof.
  intros [n H] [n' H']. destruct (Nat.le_ge_cases n n') as [Hn|Hn].
  - rewrite (resolve_mono _ _ _ _ _ _ _ _ H Hn) in H'. congruence.
  - rewrite (resolve_mono _ _ _ _ _ _ _ _ H' Hn) in H. congruence.
Qed.

(** [resolve_scope] ends with [r]. *)
Definition ends (root : modl) (p : place) (sym orig : string) (first : bool) (r : option (place * string)) : Prop :=
  exists n, resolve_scope n root p sym orig first = Ok r.

Lemma outer_exists root c p m : mod_at root (c :: p) = Some m -> exists m', mod_at root p = Some m'.
Proof. cbn [mod_at]. destruct (mod_at root p) as [m'|]; [eauto|discriminate]. Qed.
Lemma exists_around root q p : around q p -> exists_module root p = true -> exists_module root q = true.
Proof.
  intros (r & ->). induction r as [|c r IH]; [auto|]. intros H. apply IH. unfold exists_module in *. cbn [app mod_at] in H.
  destruct (mod_at root (r ++ q)); [reflexivity|discriminate H].
Qed.

Lemma plain_ends root x orig : no_colon x = true -> forall p m, mod_at root p = Some m -> forall first, negb first && String.eqb x orig = false ->
  ends root p x orig first (option_map (fun r => (r, x)) (enclosing (declares root x) p)).
Proof.
  intros Hx. induction p as [|c p IH]; intros m Hm first Hf.
  - exists 1%nat. cbn [resolve_scope enclosing]. rewrite Hm, Hf, (split_ident _ Hx). unfold declares. rewrite Hm. destruct (has_symbol_here m x); reflexivity.
  - destruct (outer_exists _ _ _ _ Hm) as (m' & Hm'). destruct (IH m' Hm' true eq_refl) as (n & Hn). exists (S n). cbn [resolve_scope enclosing]. rewrite Hm, Hf, (split_ident _ Hx).
    unfold declares at 1. rewrite Hm. destruct (has_symbol_here m x); [reflexivity|exact Hn].
Qed.
Lemma ends_step root p sym orig first r (m : modl) sc rest : mod_at root p = Some m -> negb first && String.eqb sym orig = false -> split_scope sym = Some (sc, rest) -> sc <> ""%string ->
  (if mem sc (m_inner m) then ends root (sc :: p) rest orig false r
   else match p with _ :: o => if first then ends root o orig orig true r else r = None | [] => r = None end) ->
  ends root p sym orig first r.
Proof.
  intros Hm Hf Hs Hsc H. apply String.eqb_neq in Hsc. destruct (mem sc (m_inner m)) eqn:Em.
  - destruct H as (n & H). exists (S n). cbn [resolve_scope]. rewrite Hm, Hf, Hs, Hsc, Em, andb_true_r. destruct (String.eqb sc (m_name_ m)); [|cbn [bind]; exact H].
    rewrite H. cbn [bind]. destruct r; reflexivity.
  - destruct p as [|c p].
    + subst r. exists 1%nat. cbn [resolve_scope]. rewrite Hm, Hf, Hs, Hsc, Em, andb_false_r. reflexivity.
    + destruct first.
      * destruct H as (n & H). exists (S n). cbn [resolve_scope]. rewrite Hm, Hf, Hs, Hsc, Em, andb_false_r. exact H.
      * subst r. exists 1%nat. cbn [resolve_scope]. rewrite Hm, Hf, Hs, Hsc, Em, andb_false_r. reflexivity.
Qed.
Lemma inner_exists root p m c : no_null_named root c -> mod_at root p = Some m -> (if mem c (m_inner m) then exists m', mod_at root (c :: p) = Some m' else mod_at root (c :: p) = None).
Proof.
  intros Hn Hm. unfold mem. cbn [mod_at]. rewrite Hm. destruct (assoc c (m_inner m)) as [[m'|]|] eqn:E; [eauto| |reflexivity]. destruct (Hn _ _ Hm E).
Qed.
Lemma below_missing root c p : mod_at root (c :: p) = None -> forall qs, exists_module root (qs ++ c :: p) = false.
Proof. intros H qs. destruct (exists_module root (qs ++ c :: p)) eqn:E; [|reflexivity]. apply (exists_around root (c :: p)) in E; [unfold exists_module in E; rewrite H in E; discriminate E|exists qs; reflexivity]. Qed.

Lemma down_ends root x orig : no_colon x = true -> forall qs, Forall (no_null_named root) qs -> Forall ident qs -> forall p m first, mod_at root p = Some m ->
  (String.length (qualified qs x) <= String.length orig)%nat -> (first = false -> (String.length (qualified qs x) < String.length orig)%nat) ->
  (first = true -> match qs with [] => True | q :: _ => mem q (m_inner m) = true end) ->
  ends root p (qualified qs x) orig first
    (if exists_module root (rev qs ++ p) then option_map (fun r => (r, x)) (enclosing (declares root x) (rev qs ++ p)) else None).
Proof.
  intros Hx. induction qs as [|q qs IH]; intros Hnn Hq p m first Hm Hlen Hlt Hin.
  - cbn [rev app qualified]. unfold exists_module. rewrite Hm. apply plain_ends with (m := m); try assumption. destruct first; [reflexivity|]. specialize (Hlt eq_refl). cbn.
    apply String.eqb_neq. intros ->. cbn [qualified] in Hlt. lia.
  - inversion Hq as [|? ? [Hq1 Hq2] Hqs]; subst. inversion Hnn as [|? ? Hn1 Hn2]; subst. assert (Hf : negb first && String.eqb (qualified (q :: qs) x) orig = false).
    { destruct first; [reflexivity|]. specialize (Hlt eq_refl). cbn [negb andb]. apply String.eqb_neq. intros E. rewrite <- E in Hlt. lia. }
    cbn [qualified] in *. eapply ends_step; [exact Hm|exact Hf|apply split_app, Hq2|exact Hq1|].
    pose proof (inner_exists root p m q Hn1 Hm) as Hi. cbn [rev]. rewrite <- app_assoc. cbn [app]. rewrite !str_app_length in Hlen. cbn [String.length] in Hlen.
    destruct (mem q (m_inner m)) eqn:Em.
    + destruct Hi as (m' & Hm'). eapply IH; try eassumption; try discriminate; intros; lia.
    + rewrite (below_missing _ _ _ Hi). destruct p; [reflexivity|]. destruct first; [|reflexivity]. specialize (Hin eq_refl). discriminate Hin.
Qed.
Lemma relative_ends root x : no_colon x = true -> forall q qs, Forall (no_null_named root) (q :: qs) -> Forall ident (q :: qs) -> forall p m, mod_at root p = Some m ->
  ends root p (qualified (q :: qs) x) (qualified (q :: qs) x) true (lookup_name root p false (q :: qs) x).
Proof.
  intros Hx q qs Hnn Hq. induction p as [|c p IH]; intros m Hm.
  all: destruct (mem q (m_inner m)) eqn:Em.
  all: pose proof Hq as Hq'; inversion Hq' as [|? ? [Hq1 Hq2] Hqs]; subst.
  1, 3: unfold lookup_name, named_module; cbn [enclosing]; unfold has_inner at 1; rewrite Hm, Em.
  1: pose proof (down_ends root x (qualified (q :: qs) x) Hx (q :: qs) Hnn Hq [] m true Hm ltac:(lia) ltac:(discriminate) ltac:(intros _; exact Em)) as H.
  2: pose proof (down_ends root x (qualified (q :: qs) x) Hx (q :: qs) Hnn Hq (c :: p) m true Hm ltac:(lia) ltac:(discriminate) ltac:(intros _; exact Em)) as H.
  1, 2: match type of H with ends _ _ _ _ _ (if ?b then _ else _) => destruct b end; exact H.
  - eapply ends_step; [exact Hm|reflexivity|apply split_app, Hq2|exact Hq1|]. rewrite Em. unfold lookup_name, named_module. cbn [enclosing]. unfold has_inner. rewrite Hm, Em. reflexivity.
  - destruct (outer_exists _ _ _ _ Hm) as (m' & Hm'). eapply ends_step; [exact Hm|reflexivity|apply split_app, Hq2|exact Hq1|]. rewrite Em.
    replace (lookup_name root (c :: p) false (q :: qs) x) with (lookup_name root p false (q :: qs) x); [exact (IH m' Hm')|].
    unfold lookup_name, named_module. cbn [enclosing]. replace (has_inner root q (c :: p)) with false; [reflexivity|]. unfold has_inner. rewrite Hm, Em. reflexivity.
Qed.
Lemma absolute_ends root x qs : Forall (no_null_named root) qs -> no_colon x = true -> Forall ident qs -> forall p m, mod_at root p = Some m ->
  ends root p (render true qs x) (render true qs x) true (lookup_name root p true qs x).
Proof.
  intros Hnn Hx Hq. induction p as [|c p IH]; intros m Hm.
  - destruct (down_ends root x (render true qs x) Hx qs Hnn Hq [] m false Hm) as (n & H).
    { cbn. lia. } { intros _. cbn. lia. } { discriminate. }
    exists (S n). cbn [resolve_scope]. rewrite Hm. cbn [negb andb]. replace (split_scope (render true qs x)) with (Some (""%string, qualified qs x)) by reflexivity.
    cbn [String.eqb]. rewrite H. unfold lookup_name, named_module. destruct (exists_module root (rev qs ++ [])); reflexivity.
  - destruct (outer_exists _ _ _ _ Hm) as (m' & Hm'). destruct (IH m' Hm') as (n & H). exists (S n). cbn [resolve_scope]. rewrite Hm. cbn [negb andb].
    replace (split_scope (render true qs x)) with (Some (""%string, qualified qs x)) by reflexivity. exact H.
Qed.
(** resolve_scope computes [lookup_name] on every IDL name. *)
Lemma resolves_name root p abs qs x : Forall (no_null_named root) qs -> exists_module root p = true -> Forall ident qs -> ident x -> resolves root p (render abs qs x) (lookup_name root p abs qs x).
Proof.
  intros Hnn Hp Hq [_ Hx]. unfold exists_module in Hp. destruct (mod_at root p) as [m|] eqn:Hm; [|discriminate Hp]. destruct abs; [apply (absolute_ends root x qs Hnn Hx Hq p m Hm)|].
  destruct qs as [|q qs]; [|apply (relative_ends root x Hx q qs Hnn Hq p m Hm)].
  destruct (plain_ends root x x Hx p m Hm true eq_refl) as (n & H). exists n. cbn [render qualified]. rewrite H. unfold lookup_name, named_module, exists_module. cbn [rev app]. rewrite Hm. reflexivity.
Qed.
(** The module found contains the symbol, whatever the name. *)
Lemma resolve_found n : forall root p sym orig first q x, resolve_scope n root p sym orig first = Ok (Some (q, x)) -> declares root x q = true.
Proof.
  induction n as [|n IH]; intros root p sym orig first q x H; [discriminate H|]. cbn [resolve_scope] in H. destruct (mod_at root p) as [m|] eqn:Hm; [|discriminate H].
  destruct (negb first && String.eqb sym orig); [discriminate H|]. destruct (split_scope sym) as [[sc rest]|].
  - destruct (String.eqb sc ""); [destruct p; eapply IH; exact H|]. apply bind_ok_iff in H as (a & Ha & H). destruct a as [a|].
    + injection H as ->. destruct (String.eqb sc (m_name_ m) && mem sc (m_inner m)); [eapply IH; exact Ha|discriminate Ha].
    + destruct (mem sc (m_inner m)); [eapply IH; exact H|]. destruct p; [discriminate H|]. destruct first; [eapply IH; exact H|discriminate H].
  - destruct (has_symbol_here m sym) eqn:Es; [|destruct p; [discriminate H|eapply IH; exact H]]. injection H as <- <-. unfold declares. rewrite Hm. exact Es.
Qed.

(** ** [enclosing] *)
Lemma enclosing_spec P p : match enclosing P p with
  | Some q => around q p /\ P q = true /\ forall q', around q' p -> P q' = true -> around q' q
  | None => forall q', around q' p -> P q' = false
  end.
Proof.
  assert (Hcase : forall c p q', around q' (c :: p) -> q' = c :: p \/ around q' p).
  { intros c p0 q' (r & E). destruct r as [|d r]; cbn in E; [left; auto|]. injection E as _ ->. right. exists r. reflexivity. }
  induction p as [|c p IH]; cbn [enclosing].
  - destruct (P []) eqn:E.
    + split; [exists []; reflexivity|]. split; [exact E|]. auto.
    + intros q' (r & Hr). destruct r; [|discriminate Hr]. cbn in Hr. subst q'. exact E.
  - destruct (P (c :: p)) eqn:E.
    + split; [exists []; reflexivity|]. auto.
    + destruct (enclosing P p) as [q|].
      * destruct IH as ((r & ->) & Hq & Hn). split; [exists (c :: r); reflexivity|]. split; [exact Hq|]. intros q' Hq' HP. destruct (Hcase _ _ _ Hq') as [->|Ha]; [congruence|]. apply Hn; assumption.
      * intros q' Hq'. destruct (Hcase _ _ _ Hq') as [->|Ha]; [exact E|]. apply IH, Ha.
Qed.
Lemma enclosing_ext P P' p : (forall q, around q p -> P q = P' q) -> enclosing P p = enclosing P' p.
Proof.
  induction p as [|c p IH]; intros H; cbn [enclosing]; rewrite (H _ (ex_intro _ [] eq_refl)); [reflexivity|]. destruct (P' (c :: p)); [reflexivity|].
  apply IH. intros q (r & ->). apply H. exists (c :: r). reflexivity.
Qed.

Lemma resolve_split n : forall root p sym orig first q x, resolve_scope n root p sym orig first = Ok (Some (q, x)) -> split_scope x = None.
Proof.
  induction n as [|n IH]; intros root p sym orig first q x H; [discriminate H|]. cbn [resolve_scope] in H. destruct (mod_at root p) as [m|] eqn:Hm; [|discriminate H].
  destruct (negb first && String.eqb sym orig); [discriminate H|]. destruct (split_scope sym) as [[sc rest]|] eqn:Es.
  - destruct (String.eqb sc ""); [destruct p; eapply IH; exact H|]. apply bind_ok_iff in H as (a & Ha & H). destruct a as [a|].
    + injection H as ->. destruct (String.eqb sc (m_name_ m) && mem sc (m_inner m)); [eapply IH; exact Ha|discriminate Ha].
    + destruct (mem sc (m_inner m)); [eapply IH; exact H|]. destruct p; [discriminate H|]. destruct first; [eapply IH; exact H|discriminate H].
  - destruct (has_symbol_here m sym); [injection H as _ <-; exact Es|]. destruct p; [discriminate H|eapply IH; exact H].
Qed.
(** Resolving the symbol found again, from the module found, finds that module. *)
Lemma resolve_again root p name q x : resolves root p name (Some (q, x)) -> resolves root q x (Some (q, x)).
Proof.
  intros [n H]. pose proof (resolve_found _ _ _ _ _ _ _ _ H) as Hd. pose proof (resolve_split _ _ _ _ _ _ _ _ H) as Hs.
  exists 1%nat. cbn [resolve_scope]. unfold declares in Hd. destruct (mod_at root q) as [m|]; [|discriminate Hd]. rewrite Hs, Hd. reflexivity.
Qed.

(** ** Changing the tables of one module *)
Fixpoint walk (l : list string) (m : modl) : option modl :=
  match l with
  | [] => Some m
  | c :: r => match assoc c (m_inner m) with Some (Some x) => walk r x | _ => None end
  end.
Lemma walk_app l l' m : walk (l ++ l') m = match walk l m with Some x => walk l' x | None => None end.
Proof. revert m; induction l as [|c l IH]; intros m; cbn [app walk]; [reflexivity|]. destruct (assoc c (m_inner m)) as [[x|]|]; [apply IH|reflexivity..]. Qed.
Lemma mod_at_walk root p : mod_at root p = walk (rev p) root.
Proof.
  induction p as [|c p IH]; cbn [mod_at rev]; [reflexivity|]. rewrite walk_app, <- IH. destruct (mod_at root p) as [m|]; [|reflexivity]. cbn [walk].
  destruct (assoc c (m_inner m)) as [[x|]|]; reflexivity.
Qed.
Lemma assoc_map_entry c (y : modl) l x : assoc c l = Some (Some x) -> forall d,
  assoc d (map (fun e => if String.eqb c (fst e) then (fst e, Some y) else e) l) = if String.eqb d c then Some (Some y) else assoc d l.
Proof.
  intros H d. destruct (String.eqb d c) eqn:Ed.
  - apply String.eqb_eq in Ed. subst d. induction l as [|[k v] l IH]; [discriminate H|]. cbn [assoc map fst] in *. destruct (String.eqb c k) eqn:E; cbn [assoc].
    + rewrite E. reflexivity.
    + rewrite E. apply IH, H.
  - clear H. induction l as [|[k v] l IH]; [reflexivity|]. cbn [assoc map fst]. destruct (String.eqb c k) eqn:E; cbn [assoc fst].
    + apply String.eqb_eq in E. subst k. rewrite Ed. exact IH.
    + rewrite IH. reflexivity.
Qed.
(** How [inner'] may differ from [inner]: the same names, the same null entries. *)
Definition same_names (inner inner' : list (string * option modl)) : Prop :=
  forall c, match assoc c inner, assoc c inner' with Some (Some _), Some (Some _) | Some None, Some None | None, None => True | _, _ => False end.
Lemma same_names_refl l : same_names l l.
Proof. intros c. destruct (assoc c l) as [[x|]|]; trivial. Qed.
(** [f] is applied to the module at [l] and nothing else changes. *)
Lemma at_module_spec f l : forall m m', at_module l f m = Ok m' ->
  (exists x y, walk l m = Some x /\ f x = Ok y /\ walk l m' = Some y) /\
  (forall q, (forall r, q <> l ++ r) -> match walk q m, walk q m' with
     | Some x, Some y => m_name_ x = m_name_ y /\ m_tab x = m_tab y /\ same_names (m_inner x) (m_inner y)
     | None, None => True
     | _, _ => False
     end).
Proof.
  induction l as [|c l IH]; intros m m' H; cbn [at_module] in H.
  - split; [exists m, m'; auto|]. intros q Hq. destruct (Hq q eq_refl).
  - destruct (assoc c (m_inner m)) as [[x|]|] eqn:Ec; try discriminate H. apply bind_ok_iff in H as (y & Hy & H). injection H as <-.
    destruct (IH _ _ Hy) as [(a & b & Ha & Hab & Hb) Hrest]. split.
    + exists a, b. cbn [walk m_inner]. rewrite Ec, (assoc_map_entry c y _ x Ec), String.eqb_refl. auto.
    + intros q Hq. destruct q as [|d q].
      * cbn [walk m_name_ m_tab m_inner]. split; [reflexivity|]. split; [reflexivity|]. intros d. rewrite (assoc_map_entry c y _ x Ec).
        destruct (String.eqb d c) eqn:E; [apply String.eqb_eq in E; subst d; rewrite Ec; trivial|]. destruct (assoc d (m_inner m)) as [[z|]|]; trivial.
      * cbn [walk m_inner]. rewrite (assoc_map_entry c y _ x Ec). destruct (String.eqb d c) eqn:E.
        -- apply String.eqb_eq in E. subst d. rewrite Ec. apply Hrest. intros r ->. apply (Hq r). reflexivity.
        -- destruct (assoc d (m_inner m)) as [[z|]|]; trivial. destruct (walk q z); trivial. repeat split; try reflexivity. apply same_names_refl.
Qed.

(** [root'] is [root] with the tables of the module at [p] replaced by [tab']. *)
Definition retabled (root : modl) (p : place) (tab' : tables) (root' : modl) : Prop :=
  forall q, match mod_at root q, mod_at root' q with
  | Some x, Some y => m_name_ x = m_name_ y /\ m_tab y = (if list_eq_dec string_dec q p then tab' else m_tab x) /\ same_names (m_inner x) (m_inner y)
  | None, None => True
  | _, _ => False
  end.
Lemma on_tables_spec {A} root p (f : tables -> res (A * tables)) a root' : on_tables root p f = Ok (a, root') ->
  exists_module root p = true /\ exists tab', f (tab_at root p) = Ok (a, tab') /\ retabled root p tab' root'.
Proof.
  unfold on_tables, exists_module, tab_at. destruct (mod_at root p) as [m|] eqn:Hm; [|discriminate]. intros H. split; [reflexivity|].
  apply bind_ok_iff in H as ([a0 tab'] & Hf & H). apply bind_ok_iff in H as (r & Hr & H). injection H as <- <-. cbn [fst snd] in *. exists tab'. split; [exact Hf|].
  destruct (at_module_spec _ _ _ _ Hr) as [(x & y & Hx & Hxy & Hy) Hrest]. injection Hxy as Hxy. intros q. rewrite !mod_at_walk.
  destruct (list_eq_dec string_dec q p) as [->|Hqp].
  - rewrite Hx, Hy. subst y. cbn [m_name_ m_tab m_inner]. repeat split. apply same_names_refl.
  - destruct (list_eq_dec string_dec (firstn (List.length (rev p)) (rev q)) (rev p)) as [Hpre|Hpre].
    + rewrite <- (firstn_skipn (List.length (rev p)) (rev q)), Hpre, !walk_app, Hx, Hy. subst y.
      destruct (skipn (List.length (rev p)) (rev q)) as [|c l] eqn:Es.
      * destruct Hqp. apply (f_equal (@rev string)) in Hpre. rewrite rev_involutive in Hpre. rewrite <- Hpre.
        pose proof (firstn_skipn (List.length (rev p)) (rev q)) as Hfs. rewrite Es, app_nil_r in Hfs. rewrite Hfs, rev_involutive. reflexivity.
      * cbn [walk m_inner]. destruct (assoc c (m_inner x)) as [[z|]|]; trivial. destruct (walk l z); trivial. repeat split. apply same_names_refl.
    + specialize (Hrest (rev q)). destruct (walk (rev q) root), (walk (rev q) r); try (apply Hrest; intros s E; apply Hpre; rewrite E, firstn_app, Nat.sub_diag; cbn [firstn]; rewrite firstn_all, app_nil_r; reflexivity).
      destruct Hrest as (H1 & H2 & H3); [intros s E; apply Hpre; rewrite E, firstn_app, Nat.sub_diag; cbn [firstn]; rewrite firstn_all, app_nil_r; reflexivity|]. auto.
Qed.
Lemma on_tables_ok {A} root p (f : tables -> res (A * tables)) a tab' : exists_module root p = true -> f (tab_at root p) = Ok (a, tab') -> exists root', on_tables root p f = Ok (a, root').
Proof.
  unfold on_tables, exists_module, tab_at. intros H Hf. destruct (mod_at root p) as [m|] eqn:Hm; [|discriminate H]. rewrite Hf. cbn [bind snd fst].
  rewrite mod_at_walk in Hm. revert root m Hm H Hf. generalize (rev p). clear p. intros l root m Hm _ _.
  assert (Hex : exists r, at_module l (fun m : modl => Ok (Mod (m_name_ m) tab' (m_inner m))) root = Ok r).
  { revert root Hm. induction l as [|c l IH]; intros root Hm; cbn [at_module]; [eauto|]. cbn [walk] in Hm. destruct (assoc c (m_inner root)) as [[x|]|]; try discriminate Hm.
    destruct (IH x Hm) as (r & ->). cbn [bind]. eauto. }
  destruct Hex as (r & ->). cbn [bind]. eauto.
Qed.

Lemma retabled_exists root p tab' root' q : retabled root p tab' root' -> exists_module root' q = exists_module root q.
Proof. intros H. specialize (H q). unfold exists_module. destruct (mod_at root q), (mod_at root' q); tauto. Qed.
Lemma same_names_mem l l' c : same_names l l' -> mem c l' = mem c l.
Proof. intros H. specialize (H c). unfold mem. destruct (assoc c l) as [[x|]|], (assoc c l') as [[y|]|]; tauto. Qed.
Lemma retabled_inner root p tab' root' c q : retabled root p tab' root' -> has_inner root' c q = has_inner root c q.
Proof.
  intros H. specialize (H q). unfold has_inner. destruct (mod_at root q), (mod_at root' q); try tauto. destruct H as (_ & _ & H). apply same_names_mem, H.
Qed.
Lemma retabled_tab root p tab' root' q : exists_module root p = true -> retabled root p tab' root' -> tab_at root' q = if list_eq_dec string_dec q p then tab' else tab_at root q.
Proof.
  intros Hp H. specialize (H q). unfold tab_at, exists_module in *. destruct (mod_at root q) eqn:E, (mod_at root' q); try tauto.
  destruct (list_eq_dec string_dec q p) as [->|]; [rewrite E in Hp; discriminate Hp|reflexivity].
Qed.
Lemma retabled_null root p tab' root' c : retabled root p tab' root' -> no_null_named root c -> no_null_named root' c.
Proof.
  intros H Hn q m' Hm' Ea. specialize (H q). rewrite Hm' in H. destruct (mod_at root q) as [m|] eqn:E; [|exact H]. destruct H as (_ & _ & H).
  specialize (H c). rewrite Ea in H. specialize (Hn q m E). destruct (assoc c (m_inner m)) as [[x|]|]; tauto.
Qed.
Lemma retabled_declares root p tab' root' x q : retabled root p tab' root' ->
  (q = p -> has_symbol_here (Mod "" tab' []) x = has_symbol_here (Mod "" (tab_at root p) []) x) -> declares root' x q = declares root x q.
Proof.
  intros H Hq. specialize (H q). unfold declares. destruct (mod_at root q) as [m|] eqn:E, (mod_at root' q) as [m'|]; try tauto. destruct H as (_ & Ht & Hs).
  unfold has_symbol_here in *. cbn [m_tab m_inner] in Hq. rewrite (same_names_mem _ _ x Hs), Ht.
  destruct (list_eq_dec string_dec q p) as [->|]; [|reflexivity]. specialize (Hq eq_refl). unfold tab_at in Hq. rewrite E in Hq. unfold mem at 6 12 in Hq. cbn [assoc] in Hq.
  rewrite !orb_false_r in Hq. rewrite Hq. reflexivity.
Qed.
Lemma retabled_lookup root p tab' root' p0 abs qs y : retabled root p tab' root' ->
  has_symbol_here (Mod "" tab' []) y = has_symbol_here (Mod "" (tab_at root p) []) y -> lookup_name root' p0 abs qs y = lookup_name root p0 abs qs y.
Proof.
  intros H Hy. unfold lookup_name, named_module.
  assert (Hs : (if abs then Some [] else match qs with [] => Some p0 | q :: _ => enclosing (has_inner root' q) p0 end) =
    (if abs then Some [] else match qs with [] => Some p0 | q :: _ => enclosing (has_inner root q) p0 end)).
  { destruct abs; [reflexivity|]. destruct qs; [reflexivity|]. apply enclosing_ext. intros q _. eapply retabled_inner, H. }
  rewrite Hs. clear Hs. set (st := if abs then _ else _). destruct st as [h|]; [|reflexivity]. rewrite (retabled_exists _ _ _ _ _ H).
  destruct (exists_module root (rev qs ++ h)); [|reflexivity]. f_equal. apply enclosing_ext. intros q _. apply (retabled_declares _ _ _ _ _ _ H). intros _. exact Hy.
Qed.

(** ** Tables *)
Lemma mem_assoc {A} x (l : list (string * A)) : mem x l = true <-> exists v, assoc x l = Some v.
Proof. unfold mem. destruct (assoc x l); split; try discriminate; eauto. intros (v & H); discriminate H. Qed.
Lemma emplace_name_assoc {A} n nm (v : A) l : assoc nm l = None -> assoc n (emplace_name nm v l) = if String.eqb n nm then Some v else assoc n l.
Proof.
  induction l as [|[k w] r IH]; cbn [assoc emplace_name]; [reflexivity|]. destruct (String.eqb nm k) eqn:Ek; [discriminate|]. intros Hn.
  destruct (String.compare nm k) eqn:C; cbn [assoc].
  - apply String.compare_eq_iff in C. subst k. rewrite String.eqb_refl in Ek. discriminate Ek.
  - reflexivity.
  - destruct (String.eqb n k) eqn:Enk.
    + apply String.eqb_eq in Enk. subst k. destruct (String.eqb n nm) eqn:E; [|reflexivity]. apply String.eqb_eq in E. subst. rewrite String.eqb_refl in Ek. discriminate Ek.
    + apply IH, Hn.
Qed.
Lemma emplace_assoc {A} n nm (v : A) l : assoc n (emplace nm v l) = if String.eqb n nm then match assoc nm l with Some w => Some w | None => Some v end else assoc n l.
Proof.
  unfold emplace, mem. destruct (assoc nm l) eqn:E.
  - destruct (String.eqb n nm) eqn:En; [apply String.eqb_eq in En; subst; exact E|reflexivity].
  - apply emplace_name_assoc, E.
Qed.
Lemma remove_name_assoc {A} n x (l : list (string * A)) : assoc n (remove_name x l) = if String.eqb n x then None else assoc n l.
Proof.
  unfold remove_name. induction l as [|[k w] r IH]; cbn [assoc filter fst]; [destruct (String.eqb n x); reflexivity|].
  destruct (String.eqb x k) eqn:E; cbn [negb].
  - apply String.eqb_eq in E. subst k. rewrite IH. destruct (String.eqb n x); reflexivity.
  - cbn [assoc]. rewrite IH. destruct (String.eqb n k) eqn:Enk; [|reflexivity]. apply String.eqb_eq in Enk. subst k. rewrite String.eqb_sym, E. reflexivity.
Qed.
