(** What the parser's actions do with the tree of a union declaration. *)
From Verif Require Import Base Types TypeBuild Mem Hash MapOps Ops NumSpec IntSpec NumFacts IntFacts IntOps ModuleSpec ModuleFacts Module DepTree Peg0 Grammar Peg PegFacts PegRules IdlParse IdlParseFacts GenIdl GenSpec TypeText StructText StructRead NumText IdlLitFacts IdlLit IdlExpr IdlSpec GrowFacts DocFacts GenStruct AliasText ExprSpec ExprText ConstText UnionSpec UnionText LitText PropIdl.
Local Open Scope string_scope.

(** *** Numbers *)
Lemma z_to_string_nonneg : forall z, (0 <= z)%Z -> z_to_string z = to_string (Z.to_N z).
Proof. intros z H. destruct z; [reflexivity|reflexivity|lia]. Qed.
Lemma cast_int : forall d p z, is_int d p z -> is_float p = false -> (0 <= z)%Z -> cast_string d = Ok (to_string (Z.to_N z)).
Proof. intros d p z H F P. unfold cast_string. rewrite (proj1 H), F. destruct (is_int_operand d p z H) as (a & E1 & _ & E2). rewrite E1. cbn [bind]. rewrite E2, z_to_string_nonneg by exact P. reflexivity. Qed.
Lemma number_label : forall p l, int_kind p = true -> (0 <= l < 2 ^ 63)%Z -> fits p l -> parse_label p (to_string (Z.to_N l)) = l.
Proof.
  intros p l K R F. destruct (to_string_literal (Z.to_N l)) as (base & L). replace (Z.of_N (Z.to_N l)) with l in L by lia. pose proof (C34_labels p _ base l K L F) as H.
  symmetry. apply (reduced_unique PI64 l l); [|exact H]. apply reduced_fits. unfold fits. change (least PI64) with (- 2 ^ 63)%Z. change (greatest PI64) with (2 ^ 63 - 1)%Z. lia.
Qed.
Lemma enum_number_label : forall vals l, (0 <= l < 2 ^ 32)%Z -> parse_enum_label vals (to_string (Z.to_N l)) = Ok l.
Proof.
  intros vals l R. destruct (to_string_literal (Z.to_N l)) as (base & L). replace (Z.of_N (Z.to_N l)) with l in L by lia. apply (C34_enum_labels vals _ base l L); [lia|].
  destruct (Z.eq_dec l 0) as [->|N]; [right; right; reflexivity|left; exact N].
Qed.
Lemma number_not_default : forall v, to_string v <> "default".
Proof. intros v E. pose proof (number_not_ident v) as H. rewrite E in H. discriminate H. Qed.
Lemma size_cases : forall p, int_kind p = true -> prim_size p = 1%N \/ prim_size p = 2%N \/ prim_size p = 4%N \/ prim_size p = 8%N.
Proof. intros p H. destruct p; try discriminate H; cbn; auto. Qed.

(** *** Labels *)
(** The text the parser takes for a label: the value of the constant of that name, or the label itself. *)
Definition label_subst (n : nat) (root : modl) (p : place) (L : string) : res string :=
  do o <- find_in n root p consts L; match o with Some d => cast_string d | None => Ok L end.
Lemma const_kept : forall root p x root1 e n d, no_nulls root -> grows root p x root1 -> exists_module root p = true -> is_ident e = true -> e <> x ->
  find_in n root p consts e = Ok (Some d) -> eventually (fun n => find_in n root1 p consts e = Ok (Some d)).
Proof.
  intros root p x root1 e n d N G E I NE F. unfold find_in in F. destruct (resolve n root p e) as [r|] eqn:R; [|discriminate F]. cbn [bind] in F.
  destruct r as [[q z]|]; [|discriminate F].
  destruct (grows_resolve root p x root1 p false [] e q z n N G E) as (-> & NQ & n' & R'); [repeat constructor; exact I|intros; congruence|exact R|].
  apply ev_steady; [apply steady_find| |discriminate]. exists n'. cbn [render qualified] in R'. unfold find_in. rewrite R'. cbn [bind found] in *. destruct (tab_kept _ _ _ _ _ _ G NQ) as (_ & _ & _ & _ & ->). exact F.
Qed.
Lemma label_read : forall root p x root1 disc l, no_nulls root -> idents_only root1 p -> exists_module root p = true -> grows root p x root1 -> label_fits root p x disc l ->
  exists L, label_idl l disc = Ok L /\ spells L /\ L <> "default" /\
    eventually (fun n => exists v, label_subst n root1 p L = Ok v /\ v <> "default" /\ label_value disc v = Ok l).
Proof.
  intros root p x root1 disc l N IO E G F.
  assert (E1 : exists_module root1 p = true) by (rewrite (grows_exists _ _ _ _ p G); exact E).
  assert (Self : forall L, no_colon L = true -> has_symbol root1 p L = false -> L <> "default" -> label_value disc L = Ok l -> eventually (fun n => exists v, label_subst n root1 p L = Ok v /\ v <> "default" /\ label_value disc v = Ok l)).
  { intros L NC NS ND LV. eapply ev_impl; [|apply (not_symbol_const root1 p L E1 NC NS)]. intros n H. exists L. unfold label_subst. cbv beta in H. rewrite H. auto. }
  destruct disc as [q|nm sz vals|k b|nm c b|c b|k v b|k v|nm sz ms|nm sz ms ls dv iv d|nm a]; cbn [label_fits] in F; try contradiction.
  - destruct (Bool.bool_dec (int_kind q) true) as [K|K].
    + assert (F' : (0 <= l < 2 ^ 63)%Z /\ fits q l) by (destruct q; try discriminate K; apply F). destruct F' as [R Fq].
      assert (LI : label_idl l (TPrim q) = Ok (to_string (Z.to_N l))). { unfold label_idl. cbn [rget]. rewrite Z.mod_small by lia. destruct q; try discriminate K; reflexivity. }
      exists (to_string (Z.to_N l)). split; [exact LI|]. split; [apply spells_number|]. split; [apply number_not_default|]. apply Self.
      * apply digits_no_colon, to_string_spec.
      * destruct (has_symbol root1 p (to_string (Z.to_N l))) eqn:H; [|reflexivity]. apply IO in H. rewrite number_not_ident in H. discriminate H.
      * apply number_not_default.
      * unfold label_value. cbn [rget]. rewrite K. f_equal. apply number_label; assumption.
    + assert (Q : q = PBool \/ q = PC8 \/ q = PWC) by (destruct q; auto; try (destruct F as [F _]; congruence)).
      assert (IDS : forall L, is_ident L = false -> has_symbol root1 p L = false) by (intros L NI; destruct (has_symbol root1 p L) eqn:H; [apply IO in H; congruence|reflexivity]).
      destruct Q as [-> |Q]; [|assert (F' : (0 <= l < 128)%Z /\ quotable (ascii_of_N (Z.to_N l)) = true) by (destruct Q as [-> | ->]; exact F); clear F; destruct F' as [R Qt];
        assert (LN : ascii_of_N (Z.to_N (l mod 2 ^ 64) mod 256) = ascii_of_N (Z.to_N l)) by (rewrite (Z.mod_small l) by lia; rewrite N.mod_small by lia; reflexivity);
        set (ch := ascii_of_N (Z.to_N l)) in *; assert (NC : no_colon (String ch "'") = true) by (pose proof (all_ascii (fun c => implb (quotable c) (no_colon (String c "'"))) eq_refl ch) as K1; cbv beta in K1; rewrite Qt in K1; exact K1);
        assert (CH : N_of_ascii ch = Z.to_N l) by (apply N_ascii_embedding; lia); destruct Q as [-> | ->]].
      2:{ exists ("'" ++ String ch "'"). split; [unfold label_idl; cbn [rget]; rewrite LN; reflexivity|]. split; [apply spells_char, Qt|]. split; [discriminate|]. apply Self; [exact NC|apply IDS; reflexivity|discriminate|].
          unfold label_value. cbn [rget int_kind]. f_equal. change (char_label ("'" ++ String ch "'")) with (N_of_ascii ch). rewrite CH. unfold prim_int. assert (LD : le_decode [Z.to_N l] = Z.to_N l) by (unfold le_decode; lia). rewrite LD, Z2N.id by lia. cbn [prim_signed prim_size]. destruct (Z.ltb_spec l (2 ^ (8 * Z.of_N 1 - 1))) as [_|Hge]; [reflexivity|exfalso; cbn in Hge; lia]. }
      2:{ exists ("L'" ++ String ch "'"). split; [unfold label_idl; cbn [rget]; rewrite LN; reflexivity|]. split; [apply spells_char, Qt|]. split; [discriminate|]. apply Self; [exact NC|apply IDS; reflexivity|discriminate|].
          unfold label_value. cbn [rget int_kind]. f_equal. change (char_label ("L'" ++ String ch "'")) with (N_of_ascii ch). rewrite CH. lia. }
      destruct F as (B & S1 & S2 & X1 & X2). unfold label_idl. cbn [rget].
      destruct B as [-> | ->]; cbn [Z.modulo].
      * exists "FALSE". split; [reflexivity|]. split; [apply spells_bool|]. split; [discriminate|]. apply Self; try reflexivity; [|discriminate]. rewrite (grows_symbol _ _ _ _ _ _ G (not_eq_sym X2)). exact S2.
      * exists "TRUE". split; [reflexivity|]. split; [apply spells_bool|]. split; [discriminate|]. apply Self; try reflexivity; [|discriminate]. rewrite (grows_symbol _ _ _ _ _ _ G (not_eq_sym X1)). exact S1.
  - destruct F as (-> & R & F). cbv zeta in F. destruct F as (I & B1 & B2 & ND & NX & A & C). set (e := enum_enumerator vals (Z.to_N l)) in *. exists e.
    assert (LI : label_idl l (TEnum nm 4 vals) = Ok e). { unfold label_idl. cbn [rget]. rewrite (Z.mod_small l) by lia. rewrite N.mod_small by lia. reflexivity. }
    split; [exact LI|]. split; [apply spells_name; assumption|]. split; [exact ND|]. destruct C as [NS|(n & d & Fd & Hd)].
    + apply Self; [apply ident_no_colon, I|rewrite (grows_symbol _ _ _ _ _ _ G NX); exact NS|exact ND|]. unfold label_value. cbn [rget].
      clearbody e. destruct e as [|ch r]; [discriminate I|]. rewrite C34_enum_names; [rewrite A; f_equal; lia|].
      apply andb_true_iff in I as [I _]. cbn [first_is] in I. pose proof (all_ascii (fun c => implb (id_first c) (letterb c)) eq_refl ch) as K. cbv beta in K. rewrite I in K. cbn [implb] in K.
      unfold letterb in K. unfold letter. rewrite !orb_true_iff, !andb_true_iff, !Nat.leb_le, Nat.eqb_eq in K. cbv zeta. tauto.
    + eapply ev_impl; [|apply (const_kept root p x root1 e n d N G E I NX Fd)]. intros m H. cbv beta in H. exists (to_string (Z.to_N l)). unfold label_subst. rewrite H. cbn [bind].
      rewrite (cast_int d PU32 l Hd eq_refl (proj1 R)). split; [reflexivity|]. split; [apply number_not_default|]. unfold label_value. cbn [rget]. apply enum_number_label, R.
Qed.
Lemma label_small : forall root p x disc l, label_fits root p x disc l -> shrink_label l (msize disc) = l.
Proof.
  intros root p x disc l F.
  assert (X : forall sz, sz = 1%N \/ sz = 2%N \/ sz = 4%N \/ sz = 8%N -> (0 <= l < 2 ^ (8 * Z.of_N sz))%Z -> (l < 2 ^ 63)%Z -> shrink_label l sz = l).
  { intros sz H R R'. rewrite (Layout.shrink_label_eq _ _ H), Z.mod_small by exact R. unfold to_i64. rewrite Z.mod_small by lia. cbv zeta. destruct (Z.ltb_spec l 9223372036854775808); lia. }
  destruct disc as [q|nm sz vals|k b|nm c b|c b|k v b|k v|nm sz ms|nm sz ms ls dv iv d|nm a]; cbn [label_fits] in F; try contradiction.
  - destruct (Bool.bool_dec (int_kind q) true) as [K|K].
    + assert (F' : (0 <= l < 2 ^ 63)%Z /\ fits q l) by (destruct q; try discriminate K; apply F). destruct F' as [R Fq]. apply X; [destruct q; try discriminate K; cbn; auto| |lia].
      destruct q; try discriminate K; unfold fits, greatest, least, width in Fq; cbn in Fq |- *; lia.
    + assert (Q : q = PBool \/ q = PC8 \/ q = PWC) by (destruct q; auto; try (destruct F as [F _]; congruence)). destruct Q as [-> |[-> | ->]]; (apply X; [cbn; auto| |]; cbn; lia).
  - destruct F as (-> & R & _). apply X; [cbn; auto| |]; cbn; lia.
Qed.

(** *** The cases *)
Lemma parse_labels_read : forall disc vs zs d acc, Forall2 (fun v z => v <> "default" /\ label_value disc v = Ok z) vs zs -> parse_labels disc (vs ++ d)%list false acc = parse_labels disc d false (acc ++ zs)%list.
Proof.
  intros disc vs zs d acc H. revert acc. induction H as [|v z vs zs [ND LV] H IH]; intros acc; cbn [app].
  - rewrite app_nil_r. reflexivity.
  - cbn [parse_labels]. destruct (String.eqb_spec v "default"); [contradiction|]. rewrite LV. cbn [bind]. rewrite IH, <- app_assoc. reflexivity.
Qed.
(** The strings [vs] the parser collects stand for the labels [ls] and, if [isd], for default. *)
Definition stands (disc : ty) (vs : list string) (ls : list Z) (isd : bool) : Prop := parse_labels disc vs false [] = Ok (isd, ls).
Lemma stands_read : forall disc vs ls (isd : bool), Forall2 (fun v z => v <> "default" /\ label_value disc v = Ok z) vs ls -> stands disc (vs ++ (if isd then ["default"] else []))%list ls isd.
Proof. intros disc vs ls isd H. unfold stands. rewrite (parse_labels_read disc vs ls _ [] H). destruct isd; reflexivity. Qed.
Lemma switch_case_labels : forall n c root p Ls vs r labels acc, map_res (label_subst n root p) Ls = Ok vs ->
  switch_case n c root p (map label_node Ls ++ r)%list labels [] acc = switch_case n c root p r (labels ++ vs)%list [] acc.
Proof.
  intros n c root p. induction Ls as [|L Ls IH]; intros vs r labels acc H; cbn [map_res map app] in *.
  - injection H as <-. rewrite app_nil_r. reflexivity.
  - destruct (label_subst n root p L) as [v|] eqn:E; [|discriminate H]. cbn [bind] in H. destruct (map_res (label_subst n root p) Ls) as [vs'|] eqn:M; [|discriminate H]. cbn [bind] in H. injection H as <-.
    cbn [switch_case label_node a_orig a_tok]. unfold label_subst in E. destruct (find_in n root p consts L) as [o|]; [|discriminate E]. cbn [bind] in *. rewrite E. cbn [bind]. rewrite (IH vs' r _ acc eq_refl), <- app_assoc. reflexivity.
Qed.
Lemma case_def_type : forall n c root p a r t ds, a_orig a = R_TYPE_SPEC -> case_member_def n c root p (a :: r) t ds = (do x <- type_spec n c root p a; case_member_def n c root p r (Some x) ds).
Proof. intros n c root p [o tag k l] r t ds E. cbn [a_orig] in E. subst o. reflexivity. Qed.
Lemma case_def_name : forall n c root p a r t ds, a_orig a = R_DECLARATOR -> case_member_def n c root p (a :: r) t ds = (do d <- declarator n c root p a; case_member_def n c root p r t (ds ++ [d])%list).
Proof. intros n c root p [o tag k l] r t ds E. cbn [a_orig] in E. subst o. reflexivity. Qed.
Lemma element_reads : forall name n c root p x t a, element_tree name x t a -> char_translation c = AsChar -> wide16 c = false -> knows name n root p (array_base t) ->
  canonical t -> resolve_identifier n c root p x false = Ok x -> case_member_def n c root p (a_sub a) None [] = Ok [(x, t)].
Proof.
  intros name n c root p x t a (tn & -> & D & G) C W K Cn R. cbn [a_sub]. rewrite (case_def_type _ _ _ _ _ _ _ _ G), (D n c root p C W K). cbn [bind].
  rewrite case_def_name by (destruct (array_dims t); reflexivity). rewrite declarator_reads; [|exact R|eapply Forall_impl; [|apply array_dims_small, Cn]; cbv beta; intros; lia].
  cbn [bind case_member_def app]. rewrite add_declared_one by (assumption || reflexivity). reflexivity.
Qed.
(** The case as the parser collects it. *)
Definition vcase := (list string * (string * ty))%type.
Lemma body_reads : forall name n c root p, char_translation c = AsChar -> wide16 c = false -> forall (ks : list tcase) (vs : list vcase) l acc,
  Forall2 (case_tree name) ks l ->
  Forall2 (fun (k : tcase) (v : vcase) => snd v = snd k /\ map_res (label_subst n root p) (fst k) = Ok (fst v)) ks vs ->
  (forall k : tcase, In k ks -> knows (name (snd (snd k))) n root p (array_base (snd (snd k))) /\ canonical (snd (snd k)) /\ resolve_identifier n c root p (fst (snd k)) false = Ok (fst (snd k))) ->
  switch_body n c root p l acc = Ok (acc ++ vs)%list.
Proof.
  intros name n c root p C W. induction ks as [|k ks IH]; intros vs l acc T V K; inversion T as [|? a ? l' Ta Tl]; inversion V as [|? v ? vs' [Vs Vm] Vl]; subst.
  - cbn [switch_body]. rewrite app_nil_r. reflexivity.
  - destruct (K k (or_introl eq_refl)) as (K1 & K2 & K3). destruct Ta as (e & -> & Te). destruct k as [Ls [x t]], v as [v m]. cbn [fst snd] in *. subst m.
    cbn [switch_body a_orig a_sub]. rewrite (switch_case_labels n c root p Ls v [e] [] acc Vm). cbn [app].
    assert (O : a_orig e = R_ELEMENT_SPEC) by (destruct Te as (? & -> & _); reflexivity). cbn [switch_case]. rewrite O, (element_reads (name t) n c root p x t e Te C W K1 K2 K3). cbn [bind app].
    rewrite (IH vs' l' (acc ++ [(v, (x, t))])%list Tl Vl); [rewrite <- app_assoc; reflexivity|]. intros; apply K; right; assumption.
Qed.
Definition has_disc (disc : ty) (t : ty) : Prop := exists n s dn doff ms labels dv iv d, t = TUnion n s ((dn, doff, disc) :: ms) labels dv iv d.
Lemma case_keeps_disc : forall disc t ls x mt isd t' o, has_disc disc t -> add_case_member t ls x mt isd = (t', o) -> has_disc disc t'.
Proof.
  intros disc t ls x mt isd t' o (n & s & dn & doff & ms & labels & dv & iv & d & ->) H. apply Layout.add_case_member_cases in H as [(-> & _)|(n0 & s0 & dn0 & doff0 & disc0 & cases & labels0 & dv0 & iv0 & d0 & E & _ & _ & _ & H)].
  - repeat eexists.
  - injection E as <- <- <- <- <- <- <- <- <- <-. cbv zeta in H. destruct isd; [destruct H as [(_ & _ & ->)|(_ & _ & ->)]|destruct H as (_ & _ & ->)]; repeat eexists.
Qed.
Lemma add_cases_all : forall disc (cs : list ucase) (vs : list vcase) t, has_disc disc t -> Forall2 (fun (k : ucase) (v : vcase) => snd v = snd k /\ stands disc (fst v) (fst (fst k)) (snd (fst k))) cs vs -> add_cases t vs = add_all t cs.
Proof.
  intros disc cs vs t D H. revert t D. induction H as [|[[ls isd] [x mt]] [v m] cs vs [E S] H IH]; intros t D; [reflexivity|]. cbn [fst snd] in *. subst m. cbn [add_cases add_all].
  unfold add_case_strings. pose proof D as (n & s & dn & doff & ms & labels & dv & iv & d & ->). rewrite S. cbn [bind fst snd].
  destruct (add_case_member _ ls x mt isd) as [t' [u|e]] eqn:A; [|reflexivity]. cbn [bind]. apply IH. eapply case_keeps_disc; eauto.
Qed.
Lemma add_case_rename : forall disc t ls x mt isd y, has_disc disc t -> add_case_member (rename t y) ls x mt isd = (let r := add_case_member t ls x mt isd in (rename (fst r) y, snd r)).
Proof.
  intros disc t ls x mt isd y (n & s & dn & doff & ms & labels & dv & iv & d & ->). cbn [rename add_case_member]. destruct (negb _); [reflexivity|]. destruct (String.eqb UNION_DISCRIMINATOR x); [reflexivity|].
  destruct (check_labels disc dv labels ls); [|reflexivity]. destruct (has_member x _); [reflexivity|]. cbv zeta. destruct isd; [destruct (Z.eqb d iv)|]; reflexivity.
Qed.
Lemma add_all_rename : forall disc y cs t t', has_disc disc t -> add_all t cs = Ok t' -> add_all (rename t y) cs = Ok (rename t' y) /\ tname t' = tname t /\ has_disc disc t'.
Proof.
  intros disc y. induction cs as [|[[ls isd] [x mt]] cs IH]; intros t t' D H; cbn [add_all] in *.
  - injection H as <-. auto.
  - rewrite (add_case_rename disc t ls x mt isd y D). cbv zeta. destruct (add_case_member t ls x mt isd) as [t1 [u|e]] eqn:A; [|discriminate H]. cbn [fst snd].
    pose proof (case_keeps_disc disc _ _ _ _ _ _ _ D A) as D1. destruct (IH t1 t' D1 H) as (R & Nm & D'). split; [exact R|]. split; [|exact D']. rewrite Nm.
    destruct D as (n & s & dn & doff & ms & labels & dv & iv & d & ->). apply Layout.add_case_member_cases in A as [(-> & _)|(n0 & s0 & dn0 & doff0 & disc0 & cases & labels0 & dv0 & iv0 & d0 & E & _ & _ & _ & A)]; [reflexivity|].
    injection E as <- <- <- <- <- <- <- <- <- <-. cbv zeta in A. destruct isd; [destruct A as [(_ & _ & ->)|(_ & _ & ->)]|destruct A as (_ & _ & ->)]; reflexivity.
Qed.

(** *** union_def *)
Lemma register_union : forall root p x t, exists_module root p = true -> is_ident x = true -> tname t = x -> mem x (unions (tab_at root p)) = false ->
  call_register Unions t false root p = (do r <- with_tables root p (set_unions (emplace x (rename t (scoped (scope p) x)) (unions (tab_at root p))) (tab_at root p)); Ok (true, r)).
Proof.
  intros root p x t E I T M. unfold call_register. apply on_tables_with; [exact E|]. unfold register. rewrite T, (ident_split x I). cbn [get_table set_table]. rewrite M. reflexivity.
Qed.
Lemma store_union : forall root p tab x v t root1, exists_module root p = true -> mem x (unions tab) = false ->
  with_tables root p (set_unions (emplace x v (unions tab)) tab) = Ok root1 ->
  store_at Unions x t root1 p = with_tables root p (set_unions (emplace x t (unions tab)) tab).
Proof.
  intros root p tab x v t root1 E M W. destruct (with_tables_here _ _ _ _ E W) as [T E1]. unfold store_at. erewrite (on_tables_with unit root1 p _ tt); [|exact E1|reflexivity].
  rewrite T, (with_tables_twice _ _ _ _ _ W).
  assert (X : store Unions x t (set_unions (emplace x v (unions tab)) tab) = set_unions (emplace x t (unions tab)) tab).
  { unfold store. rewrite <- (replace_emplaced _ x v t _ M). reflexivity. }
  rewrite X. destruct (with_tables root p (set_unions (emplace x t (unions tab)) tab)); reflexivity.
Qed.
Lemma parts_switch : forall n c p a r root nm cs, a_orig a = R_SWITCH_TYPE_SPEC -> union_parts n c p (a :: r) root nm cs =
  (do t <- type_spec n c root p a; do u <- union_new nm t; do x <- call_register Unions u false root p; union_parts n c p r (snd x) nm cs).
Proof. intros n c p [o tag k l] r root nm cs E. cbn [a_orig] in E. subst o. reflexivity. Qed.
Lemma parts_ident : forall n c p x r root nm cs, union_parts n c p (ident_node x :: r) root nm cs = (do y <- resolve_identifier n c root p x true; union_parts n c p r root y cs).
Proof. reflexivity. Qed.
Lemma parts_body : forall n c p tag k l r root nm cs, union_parts n c p (Ast R_SWITCH_BODY tag k l :: r) root nm cs = (do cs' <- switch_body n c root p l cs; union_parts n c p r root nm cs').
Proof. reflexivity. Qed.
Lemma union_def_reads : forall name n c p root x disc (ks : list tcase) (vs : list vcase) (cs : list ucase) dn l u0 u root1, (0 < n)%nat -> char_translation c = AsChar -> wide16 c = false ->
  exists_module root p = true -> is_ident x = true -> mem x (unions (tab_at root p)) = false -> resolve_identifier n c root p x true = Ok x ->
  reads (name disc) dn disc -> a_orig dn = R_SWITCH_TYPE_SPEC -> knows (name disc) n root p disc -> union_new x disc = Ok u0 -> call_register Unions u0 false root p = Ok (true, root1) ->
  Forall2 (case_tree name) ks l ->
  Forall2 (fun (k : tcase) (v : vcase) => snd v = snd k /\ map_res (label_subst n root1 p) (fst k) = Ok (fst v)) ks vs ->
  (forall k : tcase, In k ks -> knows (name (snd (snd k))) n root1 p (array_base (snd (snd k))) /\ canonical (snd (snd k)) /\ resolve_identifier n c root1 p (fst (snd k)) false = Ok (fst (snd k))) ->
  Forall2 (fun (k : ucase) (v : vcase) => snd v = snd k /\ stands disc (fst v) (fst (fst k)) (snd (fst k))) cs vs ->
  add_all u0 cs = Ok u ->
  exists root', call_register Unions u false root p = Ok (true, root') /\ union_def n c p (union_tree x dn l) root = Ok root'.
Proof.
  intros name n c p root x disc ks vs cs dn l u0 u root1 N C W E I M R Rd Gd Kd U0 C1 T V K St A.
  assert (D0 : has_disc disc u0 /\ tname u0 = x /\ exists nm s lb dv iv d, u0 = TUnion nm s [(UNION_DISCRIMINATOR, 0%N, disc)] lb dv iv d).
  { unfold union_new in U0. destruct (check_discriminator disc); [|discriminate U0]. injection U0 as <-. split; [repeat eexists|]. split; [reflexivity|repeat eexists]. }
  destruct D0 as (D0 & T0 & Sh). destruct (add_all_rename disc (scoped (scope p) x) cs u0 u D0 A) as (AR & Nm & _). rewrite T0 in Nm.
  rewrite (register_union root p x u E I Nm M).
  destruct (with_tables_ok root p (set_unions (emplace x (rename u (scoped (scope p) x)) (unions (tab_at root p))) (tab_at root p)) E) as (root' & W'). rewrite W'. exists root'. split; [reflexivity|].
  pose proof C1 as C1'. rewrite (register_union root p x u0 E I T0 M) in C1. destruct (with_tables root p _) as [r1|] eqn:W1 in C1; [|discriminate C1]. cbn [bind] in C1. injection C1 as ->.
  destruct (with_tables_here _ _ _ _ E W1) as [T1 E1].
  assert (L1 : lookup n Unions root1 p x = Ok (p, x, rename u0 (scoped (scope p) x))).
  { apply lookup_here; [exact N|exact E1|exact I|]. rewrite T1. cbn [get_table set_unions unions]. apply mem_emplace, M. }
  unfold union_def, union_tree. cbn [a_sub]. rewrite parts_ident, R. cbn [bind]. rewrite parts_switch by exact Gd. rewrite (Rd n c root p C W Kd). cbn [bind]. rewrite U0. cbn [bind]. rewrite C1'. cbn [bind snd].
  rewrite parts_body, (body_reads name n c root1 p C W ks vs l [] T V K). cbn [app bind union_parts]. rewrite L1. cbn [bind].
  assert (AC : add_cases (rename u0 (scoped (scope p) x)) vs = add_all (rename u0 (scoped (scope p) x)) cs).
  { apply (add_cases_all disc cs vs _); [|exact St]. destruct Sh as (? & ? & ? & ? & ? & ? & ->). repeat eexists. }
  destruct Sh as (nm & s & lb & dv & iv & d & ->). cbn [rename members_of] in *. rewrite AC, AR. cbn [bind]. rewrite (store_union root p (tab_at root p) x _ _ root1 E M W1). exact W'.
Qed.
