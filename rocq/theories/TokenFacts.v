(** Which identifiers the parser refuses as keywords: exactly the reserved words. *)
From Verif Require Import Base Types TypeBuild Peg0 Grammar Peg PegFacts PegRules ModuleSpec ModuleFacts IdlLit IdlLitFacts Module IdlParse IdlParseFacts GenSpec TypeText StructText StructRead FreeSpec.
Local Open Scope string_scope.

Definition word (q : rule) : string :=
  match q with
  | R_KW_CONST => "const" | R_KW_MODULE => "module" | R_KW_SEQUENCE => "sequence" | R_KW_STRING => "string" | R_KW_WSTRING => "wstring" | R_KW_FIXED => "fixed" | R_KW_UNION => "union" | R_KW_STRUCT => "struct"
  | R_KW_ENUM => "enum" | R_KW_SWITCH => "switch" | R_KW_CASE => "case" | R_KW_DEFAULT => "default" | R_KW_NATIVE => "native" | R_KW_TYPEDEF => "typedef" | R_KW_ANY => "any" | R_KW_MAP => "map"
  | R_KW_BITSET => "bitset" | R_KW_BITFIELD => "bitfield" | R_KW_BITMASK => "bitmask" | R_KW_SHORT => "short" | R_KW_INT16 => "int16" | R_KW_LONG => "long" | R_KW_INT32 => "int32" | R_KW_INT64 => "int64"
  | R_KW_UINT16 => "uint16" | R_KW_UINT32 => "uint32" | R_KW_UINT64 => "uint64" | R_KW_INT8 => "int8" | R_KW_UINT8 => "uint8" | R_KW_CHAR => "char" | R_KW_WCHAR => "wchar" | R_KW_BOOLEAN => "boolean"
  | R_KW_OCTET => "octet" | R_KW_FLOAT => "float" | R_KW_DOUBLE => "double" | _ => "" end.
Lemma ok_matches : forall q x ns ts r, ok (Ref q) x ns ts r -> exists n, matches n q x = Some (match r with EmptyString => true | _ => false end).
Proof. intros q x ns ts r (n & z & H). exists n. unfold matches. rewrite H. destruct r; reflexivity. Qed.
Lemma after_self_iff : forall k x, after k x = Some "" <-> x = k.
Proof.
  intros k x. split; [|intros ->; pose proof (after_self k "") as H; rewrite app_nil_s in H; exact H].
  intros H. apply after_app in H. rewrite app_nil_s in H. exact H.
Qed.
Lemma rest_chars : forall k x r, all_chars id_char x = true -> after k x = Some r -> all_chars id_char r = true.
Proof.
  induction k as [|a k IH]; intros x r Hx H; cbn [after] in H; [injection H as <-; exact Hx|]. destruct x as [|b x]; [discriminate H|]. destruct (Ascii.eqb a b); [|discriminate H].
  cbn [all_chars] in Hx. apply andb_true_iff in Hx as [_ Hx]. eapply IH; eassumption.
Qed.
Lemma rest_solid : forall r, all_chars id_char r = true -> solid r.
Proof. intros [|c r] H; [reflexivity|]. cbn [all_chars] in H. apply andb_true_iff in H as [H _]. apply id_char_solid, H. Qed.
Lemma ident_chars : forall x, is_ident x = true -> all_chars id_char x = true.
Proof. intros [|c x] H; [discriminate H|]. apply andb_true_iff in H as [_ H]. exact H. Qed.
Lemma keyword_matches : forall q k x, keyword q k -> is_ident x = true -> exists n, matches n q x = Some (String.eqb x k).
Proof.
  intros q k x K I. pose proof (ident_chars x I) as C. destruct (clash k x) eqn:Cl.
  - unfold clash in Cl. destruct (after k x) as [r|] eqn:A; [|discriminate Cl]. apply negb_true_iff in Cl. pose proof (rest_chars _ _ _ C A) as R.
    assert (O : ok (Ref q) x [] [] r). { rewrite (after_app _ _ _ A). exact (ok_keyword q k "" "" r K eq_refl eq_refl (rest_solid _ R) Cl). }
    destruct (ok_matches _ _ _ _ _ O) as (n & M). exists n. rewrite M. f_equal. symmetry. destruct r as [|c r].
    + apply String.eqb_eq, after_self_iff, A.
    + apply String.eqb_neq. intros E. apply after_self_iff in E. congruence.
  - destruct (no_matches q x) as (n & M).
    + pose proof (no_keyword q k "" x "" K eq_refl I eq_refl Cl) as N. rewrite app_nil_s in N. exact N.
    + exists n. rewrite M. f_equal. symmetry. apply String.eqb_neq. intros ->. unfold clash in Cl. rewrite (proj2 (after_self_iff k k) eq_refl) in Cl. discriminate Cl.
Qed.
Lemma compound_no : forall q k e e' x, gram q = Seq (Opt (Ref R_WS)) (Seq (Tok (Seq (Lit k) (Seq (Ref R_WS) e))) e') -> is_ident x = true -> no (Ref q) x.
Proof.
  intros q k e e' x G I. pose proof (ident_chars x I) as C. apply no_ref. rewrite G. eapply no_seq_r; [apply opt_ws0; rewrite <- (app_nil_s x); apply ident_solid, I|]. apply no_seq_l, no_tok.
  destruct (after k x) as [r|] eqn:A; [|apply no_seq_l, no_lit, A]. eapply no_seq_r; [apply ok_lit, A|]. apply no_seq_l, no_ws, rest_solid. eapply rest_chars; eassumption.
Qed.
Lemma word_matches : forall x q, is_ident x = true -> In q kw_rules -> exists n, matches n q x = Some (String.eqb x (word q)).
Proof.
  intros x q I H. assert (X : x <> "") by (intros ->; discriminate I). assert (E : String.eqb x "" = false) by (apply String.eqb_neq, X).
  assert (D : forall l, first_is id_first l = false -> l <> "" -> after l x = None).
  { intros l L NE. destruct l as [|a l]; [congruence|]. destruct x as [|b x]; [discriminate I|]. apply andb_true_iff in I as [I _]. cbn [first_is] in *. cbn [after]. destruct (Ascii.eqb_spec a b) as [->|]; [congruence|reflexivity]. }
  assert (S : solid x) by (rewrite <- (app_nil_s x); apply ident_solid, I).
  unfold kw_rules in H. repeat (destruct H as [<-|H]; [first
    [ apply keyword_matches; [solve [kw]|exact I]
    | cbn [word]; rewrite E; apply no_matches; eapply compound_no; [reflexivity|exact I]
    | cbn [word]; rewrite E; apply no_matches, no_ref; cbn [gram]; apply no_tok, no_lit, D; [reflexivity|discriminate]
    | cbn [word]; rewrite E; apply no_matches, no_ref; cbn [gram]; eapply no_seq_r; [apply opt_ws0, S|]; apply no_seq_l, no_tok, no_lit, D; [reflexivity|discriminate] ]|]). destruct H.
Qed.
Lemma any_matches_is : forall f l x, (forall q, In q l -> exists n, matches n q x = Some (f q)) -> eventually (fun n => any_matches n l x = Ok (existsb f l)).
Proof.
  intros f. induction l as [|q l IH]; intros x H; [exists O; reflexivity|]. destruct (H q (or_introl eq_refl)) as (a & Ha). destruct (IH x (fun y I => H y (or_intror I))) as (b & Hb).
  exists (a + b)%nat. intros n L. cbn [any_matches existsb]. rewrite (steady_matches q x a n ltac:(lia)) by congruence. rewrite Ha. destruct (f q); [reflexivity|]. apply Hb; lia.
Qed.
Lemma token_exact : forall c x, ignore_case c = false -> is_ident x = true -> eventually (fun n => is_token n c x = Ok (existsb (String.eqb x) reserved)).
Proof.
  intros c x C I. unfold is_token. rewrite C. assert (E : existsb (String.eqb x) reserved = existsb (fun q => String.eqb x (word q)) kw_rules).
  { assert (X : String.eqb x "" = false) by (apply String.eqb_neq; intros ->; discriminate I). unfold reserved, kw_rules. cbn [existsb word]. rewrite X. cbn [orb]. reflexivity. }
  rewrite E. apply any_matches_is. intros q. apply word_matches, I.
Qed.
Lemma underscore : forall A x (a b : A), first_is (Ascii.eqb "_") x = false -> match x with String "_" r => a | _ => b end = b.
Proof. intros A [|a x] u v H; [reflexivity|]. cbn [first_is] in H. destruct a as [[] [] [] [] [] [] [] []]; first [reflexivity|discriminate H]. Qed.
Lemma name_resolves : forall c root p x b, ignore_case c = false -> free_name x = true -> (b = false -> has_symbol root p x = false) ->
  eventually (fun n => resolve_identifier n c root p x b = Ok x).
Proof.
  intros c root p x b C P H. unfold free_name in P. apply andb_true_iff in P as [P U]. apply andb_true_iff in P as [I R]. apply negb_true_iff in U, R. eapply ev_impl; [|apply (token_exact c x C I)]. intros n T. cbv beta in T.
  unfold resolve_identifier. rewrite T, R. cbn [bind andb]. assert (E : (has_symbol root p x && negb b)%bool = false) by (destruct b; [apply andb_false_r|rewrite (H eq_refl); reflexivity]). rewrite E.
  destruct x as [|a x]; [reflexivity|]. cbn [first_is] in U. destruct a as [[] [] [] [] [] [] [] []]; first [reflexivity|discriminate U].
Qed.
Lemma reserved_throws : forall c root p x b, ignore_case c = false -> allow_keyword_identifiers c = false -> In x reserved -> eventually (fun n => resolve_identifier n c root p x b = Fail Throw).
Proof.
  intros c root p x b C A R. assert (I : is_ident x = true /\ first_is (Ascii.eqb "_") x = false).
  { assert (F : forallb (fun x => is_ident x && negb (first_is (Ascii.eqb "_") x)) reserved = true) by reflexivity. rewrite forallb_forall in F. specialize (F x R). apply andb_true_iff in F as [F G]. apply negb_true_iff in G. split; assumption. }
  destruct I as [I U]. eapply ev_impl; [|apply (token_exact c x C I)]. intros n T. cbv beta in T. assert (E : existsb (String.eqb x) reserved = true) by (apply existsb_exists; exists x; split; [exact R|apply String.eqb_refl]).
  unfold resolve_identifier. rewrite T, E, A. cbn [bind andb negb]. destruct x as [|a x]; [reflexivity|]. cbn [first_is] in U. destruct a as [[] [] [] [] [] [] [] []]; first [reflexivity|discriminate U].
Qed.
Lemma plain_free : forall x, plain_name x = true -> free_name x = true.
Proof.
  intros x P. apply andb_true_iff in P as [P U]. unfold free_name. rewrite U, andb_true_r. pose proof (plain_ident _ P) as I. rewrite I. cbn [andb]. apply negb_true_iff.
  destruct (existsb (String.eqb x) reserved) eqn:E; [|reflexivity]. apply existsb_exists in E as (k & K & E). apply String.eqb_eq in E. subst k.
  assert (F : forallb (fun k => existsb (String.eqb k) keywords) reserved = true) by reflexivity. rewrite forallb_forall in F. specialize (F x K). apply existsb_exists in F as (k & K' & E). apply String.eqb_eq in E. subst k.
  unfold plain in P. apply andb_true_iff in P as [_ P]. rewrite forallb_forall in P. specialize (P x K'). unfold clash in P. rewrite (proj2 (after_self_iff x x) eq_refl) in P. discriminate P.
Qed.
