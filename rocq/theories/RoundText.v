(** The text of a module is made of the texts of its events. *)
From Verif Require Import Base Types TypeBuild Compat Mem Hash MapOps Ops Module ModuleSpec ModuleFacts Peg0 IntOps IdlLit Peg Grammar IdlParse PegRules GenIdl GenModule DepTree DepSpec DepFacts DepGen DepSolve DepTerm RoundGen.
Local Open Scope string_scope.

Section Text.
  Variable root : modl.
  Variable par : node -> option ty.
  Definition event_text (e : event) : res string :=
    match e with
    | EOpen [] | EClose [] => Ok ""
    | EOpen (x :: o) => Ok (indent (List.length o) ++ "module " ++ x ++ NL ++ indent (List.length o) ++ "{" ++ NL)
    | EClose (x :: o) => Ok (indent (List.length o) ++ "};" ++ NL)
    | EDecl n => node_text root par (List.length (n_in n)) n
    end.
  (** The texts of the events with anything blank between them. *)
  Inductive texts : list event -> string -> Prop :=
  | ts_nil : forall w, all_chars is_ws w = true -> texts [] w
  | ts_cons : forall e o w s rest, all_chars is_ws w = true -> event_text e = Ok s -> texts o rest -> texts (e :: o) (w ++ s ++ rest).
  Lemma all_app : forall f a b, all_chars f a = true -> all_chars f b = true -> all_chars f (a ++ b) = true.
  Proof. induction a as [| c a IH]; intros b Ha Hb; [exact Hb |]. cbn [append all_chars] in *. apply andb_true_iff in Ha. destruct Ha as [A1 A2]. rewrite A1. apply IH; assumption. Qed.
  Lemma texts_blank : forall o t w, texts o t -> all_chars is_ws w = true -> texts o (w ++ t).
  Proof.
    intros o t w H Hw. destruct H as [w' H | e o w' s rest H1 H2 H3]; [constructor; now apply all_app |]. rewrite <- app_assoc_s. constructor; [now apply all_app | exact H2 | exact H3].
  Qed.
  Lemma texts_app : forall o o' t t', texts o t -> texts o' t' -> texts (o ++ o')%list (t ++ t').
  Proof.
    intros o o' t t' H H'. induction H as [w H | e o w s rest H1 H2 H3 IH]; [now apply texts_blank |]. cbn [app]. rewrite !app_assoc_s. constructor; assumption.
  Qed.
  Definition prints (s s' : gst) (x : string) : Prop := exists o, g_out s' = (g_out s ++ o)%list /\ texts o x.
  Lemma prints_nothing : forall s w, all_chars is_ws w = true -> prints s s w.
  Proof. intros s w H. exists []. split; [symmetry; apply app_nil_r | now constructor]. Qed.
  Lemma prints_trans : forall a b c x y, prints a b x -> prints b c y -> prints a c (x ++ y).
  Proof. intros a b c x y (o & E & T) (o' & E' & T'). exists (o ++ o')%list. split; [rewrite E', E, app_assoc; reflexivity | now apply texts_app]. Qed.
  Lemma app_nil_s (a : string) : a ++ "" = a. Proof. induction a as [| c a IH]; [reflexivity |]. cbn. now rewrite IH. Qed.
  Lemma prints_end : forall a b x w, prints a b x -> all_chars is_ws w = true -> prints a b (x ++ w).
  Proof. intros a b x w H Hw. eapply prints_trans; [exact H | now apply prints_nothing]. Qed.
  Lemma prints_event : forall s e x, event_text e = Ok x -> prints s (out e s) x.
  Proof. intros s e x H. exists [e]. split; [reflexivity |]. rewrite <- (app_nil_s x). change (x ++ "") with ("" ++ x ++ ""). constructor; [reflexivity | exact H | now constructor]. Qed.
  Lemma optional_line (b : bool) : all_chars is_ws (if b then "" else NL) = true /\ all_chars is_ws (if b then NL else "") = true.
  Proof. destruct b; split; reflexivity. Qed.
  Lemma sentence_text : forall tabs n s s' x, t_sentence root par tabs n s = Ok (s', x) -> tabs = List.length (n_in n) -> s' = sentence root n s /\ prints s s' x.
  Proof.
    intros tabs n s s' x H ->. unfold t_sentence, sentence in *. destruct (it_node n s); [injection H as <- <-; split; [reflexivity | now apply prints_nothing] |].
    apply bind_ok_iff in H. destruct H as (y & H & Q). injection Q as <- <-. split; [reflexivity |]. destruct (printed root n) eqn:P.
    - exists [EDecl n]. split; [reflexivity |]. rewrite <- (app_nil_s y). change (y ++ "") with ("" ++ y ++ ""). constructor; [reflexivity | exact H | now constructor].
    - assert (y = ""); [| subst y; exists []; split; [symmetry; apply app_nil_r | now constructor]]. unfold node_text in H. rewrite P in H. unfold printed in P. destruct (n_kind n); try discriminate P. now injection H.
  Qed.
  Lemma ancestors_text : forall tabs l s s' x, t_ancestors root par tabs l s = Ok (s', x) -> (forall n, In n l -> tabs = List.length (n_in n)) -> s' = sentences root l s /\ prints s s' x.
  Proof.
    intros tabs. induction l as [| n l IH]; intros s s' x H L; cbn [t_ancestors] in H.
    - injection H as <- <-. split; [reflexivity | now apply prints_nothing].
    - apply bind_ok_iff in H. destruct H as ([s1 a] & H1 & H). cbn [fst snd] in H. apply bind_ok_iff in H. destruct H as ([s2 b] & H2 & H). injection H as <- <-. cbn [fst snd].
      destruct (sentence_text _ _ _ _ _ H1 (L n (or_introl eq_refl))) as [-> P1]. destruct (IH _ _ _ H2 (fun m Hm => L m (or_intror Hm))) as [-> P2]. split; [reflexivity |].
      eapply prints_trans; [apply prints_end; [exact P1 | apply optional_line] | exact P2].
  Qed.
  Lemma module_text : forall D tabs p l s s' x, t_module root par D tabs p l s = Ok (s', x) -> (forall n m, In n l -> (m = n \/ In m (ancestors D n)) -> tabs = List.length (n_in m)) ->
    s' = fold_left (fun s n => sentence root n (sentences root (ancestors D n) s)) l s /\ prints s s' x.
  Proof.
    intros D tabs p. induction l as [| n l IH]; intros s s' x H L; cbn [t_module] in H.
    - injection H as <- <-. split; [reflexivity | now apply prints_nothing].
    - apply bind_ok_iff in H. destruct H as ([s1 a] & H1 & H). cbn [fst snd] in H. apply bind_ok_iff in H. destruct H as ([s2 b] & H2 & H). cbn [fst snd] in H.
      apply bind_ok_iff in H. destruct H as ([s3 c] & H3 & H). injection H as <- <-. cbn [fst snd].
      destruct (ancestors_text _ _ _ _ _ H1 (fun m Hm => L n m (or_introl eq_refl) (or_intror Hm))) as [-> P1].
      destruct (sentence_text _ _ _ _ _ H2 (L n n (or_introl eq_refl) (or_introl eq_refl))) as [-> P2]. destruct (IH _ _ _ H3 (fun m k Hm => L m k (or_intror Hm))) as [-> P3]. split; [reflexivity |].
      eapply prints_trans; [exact P1 |]. eapply prints_trans; [apply prints_end; [exact P2 | apply optional_line] | exact P3].
  Qed.
  Lemma outer_text : forall tabs o l s s' x, t_outer root par tabs o l s = Ok (s', x) -> (forall n, In n l -> tabs = List.length (n_in n)) -> s' = sentences root l s /\ prints s s' x.
  Proof.
    intros tabs o. induction l as [| n l IH]; intros s s' x H L; cbn [t_outer] in H.
    - injection H as <- <-. split; [reflexivity | now apply prints_nothing].
    - apply bind_ok_iff in H. destruct H as ([s1 a] & H1 & H). cbn [fst snd] in H. apply bind_ok_iff in H. destruct H as ([s2 b] & H2 & H). injection H as <- <-. cbn [fst snd].
      destruct (sentence_text _ _ _ _ _ H1 (L n (or_introl eq_refl))) as [-> P1]. destruct (IH _ _ _ H2 (fun m Hm => L m (or_intror Hm))) as [-> P2]. split; [reflexivity |].
      eapply prints_trans; [apply prints_end; [exact P1 | apply optional_line] | exact P2].
  Qed.
  (** A generator with text that follows one without, on the places [Ex]. *)
  Definition follows (Ex : place -> Prop) (gen : place -> gst -> res gst) (gent : place -> gst -> res (gst * string)) : Prop :=
    forall p s s' x, Ex p -> gent p s = Ok (s', x) -> gen p s = Ok s' /\ prints s s' x.
  Lemma each_text : forall Ex gen gent, follows Ex gen gent -> forall l s s' x, t_each gent l s = Ok (s', x) -> (forall p, In p l -> Ex p) -> gen_all gen l s = Ok s' /\ prints s s' x.
  Proof.
    intros Ex gen gent F. induction l as [| q l IH]; intros s s' x H L; cbn [t_each gen_all] in *.
    - injection H as <- <-. split; [reflexivity | now apply prints_nothing].
    - apply bind_ok_iff in H. destruct H as ([s1 a] & H1 & H). cbn [fst snd] in H. apply bind_ok_iff in H. destruct H as ([s2 b] & H2 & H). injection H as <- <-. cbn [fst snd].
      destruct (IH _ _ _ H2 (fun m Hm => L m (or_intror Hm))) as [E2 P2]. destruct (it_mod q s).
      + injection H1 as <- <-. cbn [bind]. split; [exact E2 | exact P2].
      + apply bind_ok_iff in H1. destruct H1 as ([s1' a'] & H1 & Q). injection Q as <- <-. cbn [fst snd] in *. destruct (F _ _ _ _ (L q (or_introl eq_refl)) H1) as [E1 P1]. rewrite E1. cbn [bind]. split; [exact E2 |].
        eapply prints_trans; [apply prints_end; [exact P1 | reflexivity] | exact P2].
  Qed.
  Lemma inner_text : forall Ex gen gent p, follows Ex gen gent -> forall l s s' x, t_inner root gent p l s = Ok (s', x) -> (forall p, In p l -> Ex p) -> gen_all gen l s = Ok s' /\ prints s s' x.
  Proof.
    intros Ex gen gent p F. induction l as [| q l IH]; intros s s' x H L; cbn [t_inner gen_all] in *.
    - injection H as <- <-. split; [reflexivity | now apply prints_nothing].
    - apply bind_ok_iff in H. destruct H as ([s1 a] & H1 & H). cbn [fst snd] in H. apply bind_ok_iff in H. destruct H as ([s2 b] & H2 & H). injection H as <- <-. cbn [fst snd].
      destruct (IH _ _ _ H2 (fun m Hm => L m (or_intror Hm))) as [E2 P2]. destruct (it_mod q s).
      + injection H1 as <- <-. cbn [bind]. split; [exact E2 |]. eapply prints_trans; [apply prints_nothing, optional_line | exact P2].
      + destruct (F _ _ _ _ (L q (or_introl eq_refl)) H1) as [E1 P1]. rewrite E1. cbn [bind]. split; [exact E2 |].
        eapply prints_trans; [apply prints_end; [exact P1 | apply optional_line] | exact P2].
  Qed.
  Variable D : deps.
  Hypothesis F : From root par D.
  (** The indentation of a module. *)
  Definition depth (tabs : nat) (p : place) : Prop := tabs = pred (List.length p).
  Lemma gen_text_spec : forall f p s s' x tabs, gen_text root par D f tabs p s = Ok (s', x) -> depth tabs p -> gen_idl f root D p s = Ok s' /\ prints s s' x.
  Proof.
    induction f as [| f IH]; intros p s s' x tabs H L; [discriminate |]. cbn [gen_text gen_idl] in *. destruct (it_mod p s); [injection H as <- <-; split; [reflexivity | now apply prints_nothing] |].
    apply bind_ok_iff in H. destruct H as ([s1 x1] & H1 & H). apply bind_ok_iff in H. destruct H as ([s2 x2] & H2 & H). apply bind_ok_iff in H. destruct H as ([s3 x3] & H3 & H).
    apply bind_ok_iff in H. destruct H as ([s4 x4] & H4 & H). apply bind_ok_iff in H. destruct H as ([s5 x5] & H5 & H). injection H as <- <-. cbn [fst snd] in *.
    assert (Fo : forall k, follows (depth k) (gen_idl f root D) (gen_text root par D f k)) by (intros k q t t' y Hq Ht; eapply IH; eauto).
    destruct (each_text _ _ _ (Fo _) _ _ _ _ H1) as [E1 P1].
    { intros b Hb. apply mod_ancestors_iff in Hb. destruct (from_mod _ _ _ F _ _ Hb) as (a & b' & o & n & u & -> & -> & _). exact L. }
    rewrite E1. cbn [bind].
    assert (X2 : s2 = match p with [] => s1 | _ :: o => sentences root (filter (has_child D p) (nodes_of root o)) s1 end /\ prints s1 s2 x2).
    { destruct p as [| a o]; [injection H2 as <- <-; split; [reflexivity | now apply prints_nothing] |]. eapply outer_text; [exact H2 |]. intros n Hn. apply filter_In in Hn. destruct Hn as [Hn _].
      apply nodes_of_in in Hn. destruct Hn as [-> _]. exact L. }
    destruct X2 as [-> P2]. set (s2 := match p with [] => s1 | _ :: o => sentences root (filter (has_child D p) (nodes_of root o)) s1 end) in *.
    assert (D' : forall c, depth (match p with [] => 0%nat | _ :: _ => S tabs end) (c :: p)) by (intro c; unfold depth in *; destruct p as [| a o]; [reflexivity | cbn in *; now rewrite L]).
    destruct (each_text _ _ _ (Fo _) _ _ _ _ H3) as [E3 P3]; [intros q Hq; destruct (parents_inside _ _ _ _ _ F Hq) as (c & ->); apply D' |]. rewrite E3. cbn [bind].
    destruct (module_text _ _ _ _ _ _ _ H4) as [-> P4].
    { intros n m Hn Hm. assert (E : n_in m = p).
      { pose proof Hn as Hn'. apply nodes_of_in in Hn'. destruct Hn' as [Hn' _]. destruct Hm as [-> | Hm]; [exact Hn' |]. apply ancestors_iff in Hm. destruct Hm as (k & Hk & E). apply node_eqb_key in E. inversion E as [[E1' E2' E3']].
        destruct (from_anc _ _ _ F _ _ Hk) as [A _]. apply nodes_of_in in A. destruct A as [-> _]. congruence. }
      rewrite E. specialize (D' ""). unfold depth in D'. exact D'. }
    fold (gen_module root D p s3) in *. destruct (inner_text _ _ _ p (Fo _) _ _ _ _ H5) as [E5 P5]; [intros q Hq; destruct (inner_inside _ _ _ Hq) as (c & ->); apply D' |]. rewrite E5. cbn [bind]. split; [reflexivity |].
    assert (P6 : prints s5 (out (EClose p) s5) (match p with [] => "" | _ :: _ => indent tabs ++ "};" ++ NL end)).
    { apply prints_event. unfold depth in L. destruct p as [| a o]; [reflexivity |]. cbn in L. now rewrite L. }
    assert (PH : prints s2 (out (EOpen p) s2) (match p with [] => "" | a :: _ => indent tabs ++ "module " ++ a ++ NL ++ indent tabs ++ "{" ++ NL end)).
    { apply prints_event. unfold depth in L. destruct p as [| a o]; [reflexivity |]. cbn in L. now rewrite L. }
    pose proof (prints_trans _ _ _ _ _ P1 (prints_trans _ _ _ _ _ P2 (prints_trans _ _ _ _ _ PH (prints_trans _ _ _ _ _ P3 (prints_trans _ _ _ _ _ P4 (prints_trans _ _ _ _ _ P5 P6)))))) as (o & Eo & To).
    exists o. split; [exact Eo | exact To].
  Qed.
End Text.
Lemma generated_texts : forall root par text, generates_text root par text -> exists o, generates root par o /\ texts root par o text.
Proof.
  intros root par text (D & f & s & HS & HG). destruct (solve_from root par D HS) as [F _]. destruct (gen_text_spec root par D F f [] gst0 s text 0 HG eq_refl) as [E (o & Eo & T)].
  exists o. split; [exists D, f, s; auto | exact T].
Qed.
(** The converse: a run has a text unless a declaration has none. *)
