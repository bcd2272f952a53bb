(** One more declaration. *)
From Verif Require Import Base Types TypeBuild Mem MemSpec MemFacts ConstructFacts Hash MapOps Ops NumSpec NumFacts IntSpec IntFacts IntOps ModuleSpec ModuleFacts Module DataSpec ValueSpec PropModule Peg0 Grammar Peg PegRules IdlLit IdlParse IdlParseFacts GenIdl GenSpec StructText StructRead GrowFacts DocFacts EnumText EnumFacts GenText ModuleText ExprSpec UnionSpec UnionText DocSpec DocText DeclText RoundCalls GenModule.
From Verif Require Import DepTree DepFacts DepGen DepSolve DepOrder RoundGen RoundSpec RoundFacts.
From Verif Require DepSpec.
Local Open Scope string_scope.

Lemma numbered_values : forall es k y v, numbered k es -> In (y, v) es -> (k <= v < k + N.of_nat (List.length es))%N.
Proof.
  induction es as [|[e w] es IH]; intros k y v H I; [destruct I|]. destruct H as [-> H]. destruct I as [Q|I]; [injection Q as _ <-; cbn [List.length]; lia|]. specialize (IH _ _ _ H I). cbn [List.length]. lia.
Qed.
Lemma struct_of_in : forall x bt ms t, struct_of x bt ms = Ok t -> exists s l, t = TStruct x s l /\ forall y mt, In (y, mt) ms -> exists o, In (y, o, mt) l.
Proof.
  intros x bt ms t H. assert (X : exists s l l', t = TStruct x s (l ++ l') /\ plain_members l' = ms).
  { unfold struct_of in H. destruct bt as [[]|]; cbn [struct_new bind] in H; try discriminate H; apply add_members_list in H as (s' & l' & -> & <-); eauto. }
  destruct X as (s & l & l' & -> & <-). exists s, (l ++ l')%list. split; [reflexivity|]. intros y mt I. unfold plain_members in I. apply in_map_iff in I as ([[z o] mt'] & Q & I). injection Q as <- <-. exists o. apply in_or_app. right. exact I.
Qed.
Lemma add_all_in : forall cs nm s disc l ls dv iv d t, add_all (TUnion nm s (disc :: l) ls dv iv d) cs = Ok t ->
  exists s' l' ls' dv' iv' d', t = TUnion nm s' (disc :: l ++ l') ls' dv' iv' d' /\ forall k, In k cs -> exists o, In (fst (snd k), o, snd (snd k)) l'.
Proof.
  induction cs as [|[[lb isd] [y mt]] cs IH]; intros nm s disc l ls dv iv d t H.
  - injection H as <-. exists s, [], ls, dv, iv, d. split; [rewrite app_nil_r; reflexivity|]. intros k [].
  - cbn [add_all] in H. destruct (add_case_member (TUnion nm s (disc :: l) ls dv iv d) lb y mt isd) as [t1 r1] eqn:E. destruct r1 as [u|]; [|discriminate H].
    assert (X : exists s1 o ls1 dv1 iv1 d1, t1 = TUnion nm s1 (disc :: l ++ [(y, o, mt)]) ls1 dv1 iv1 d1).
    { unfold add_case_member in E. destruct disc as [[dn doff] dt]. destruct (negb _); [discriminate E|]. destruct (String.eqb _ _); [discriminate E|]. destruct (check_labels _ _ _ _); [|discriminate E]. destruct (has_member _ _); [discriminate E|].
      cbv zeta in E. destruct isd; [destruct (Z.eqb d iv)|]; try discriminate E; injection E as E _; rewrite <- E; eexists _, _, _, _, _, _; reflexivity. }
    destruct X as (s1 & o & ls1 & dv1 & iv1 & d1 & ->). apply IH in H as (s' & l' & ls' & dv' & iv' & d' & -> & H). exists s', ((y, o, mt) :: l'), ls', dv', iv', d'. rewrite <- app_assoc. split; [reflexivity|].
    intros k [<-|I]; [exists o; left; reflexivity|]. destruct (H k I) as (o' & H'). exists o'. right. exact H'.
Qed.
Lemma union_of_in : forall x disc cs t, union_of x disc cs = Ok t -> exists s dn off l ls dv iv d, t = TUnion x s ((dn, off, disc) :: l) ls dv iv d /\ forall k, In k cs -> exists o, In (fst (snd k), o, snd (snd k)) l.
Proof.
  intros x disc cs t H. unfold union_of in H. apply bind_ok_iff in H as (t0 & H0 & H). unfold union_new in H0. apply bind_ok_iff in H0 as (u & _ & H0). injection H0 as <-. apply add_all_in in H as (s' & l' & ls' & dv' & iv' & d' & -> & H). cbn [app] in *. eexists _, _, _, _, _, _, _, _. split; [reflexivity|exact H].
Qed.
Lemma named_base : forall t, DepSpec.named_in (array_base t) = DepSpec.named_in t.
Proof. induction t as [p'|nm sz vals|k b|nm c IH b|c IH b|k IHk v IHv b|k IHk v IHv|nm sz ms|nm sz ms ls dv iv d|nm a] using ty_rect; try reflexivity. exact IH. Qed.

Lemma renamed_cases : forall g tabs nm nm' s ms0 ls dv iv d disc ms, cases_idl g tabs (TUnion nm s ms0 ls dv iv d) disc ms = cases_idl g tabs (TUnion nm' s ms0 ls dv iv d) disc ms.
Proof. intros. induction ms as [|m ms IH]; [reflexivity|]. cbn [cases_idl]. rewrite IH. reflexivity. Qed.
Section State.
  Variable fc : prim -> prim -> list N -> list N.
  Variable root : modl.
  Variable par : node -> option ty.
  Hypothesis W : DepSpec.well_named root.
  Hypothesis RO : round_ok root par.
  Variable done : list event.
  Variable R : modl.
  Hypothesis A : admissible root done.
  Hypothesis ST : state root done R.
  Variable n : node.
  Hypothesis Wn : DepSpec.wanted root n.
  Hypothesis New : ~ In (EDecl n) done.
  Hypothesis Ex : exists_module R (n_in n) = true.
  Hypothesis Used : forall u, DepSpec.uses root par n u -> In (EDecl u) done.

  Lemma new_name : forall m, In (EDecl m) done -> n_in m = n_in n -> n_name m <> n_name n.
  Proof.
    intros m D I N. apply New. assert (Q : m = n); [|rewrite <- Q; exact D]. apply (proj1 A) in D. apply wanted_node in D. rewrite I in D. apply (no_nodes _ (ro_once _ _ RO) (n_in n)); [exact D|apply wanted_node, Wn|exact N].
  Qed.
  Lemma new_entry : forall k, entry R (n_in n) k (n_name n) = None.
  Proof. intros k. destruct (entry R (n_in n) k (n_name n)) as [t|] eqn:E; [|reflexivity]. apply (st_entry _ _ _ ST) in E. exfalso. exact (new_name _ E eq_refl eq_refl). Qed.
  Lemma new_const : const_entry R (n_in n) (n_name n) = None.
  Proof.
    destruct (const_entry R (n_in n) (n_name n)) as [d|] eqn:E; [|reflexivity]. exfalso.
    destruct (st_const_from root done R A ST (n_in n) (n_name n)) as [(t & _ & D)|(x & nm & sz & vals & v & _ & _ & H)]; [congruence|exact (new_name _ D eq_refl eq_refl)|].
    destruct (no_enum_nodes _ (ro_once _ _ RO) _ _ _ _ n H (wanted_node _ _ Wn) eq_refl) as [_ P]. destruct Wn as [_ P']. congruence.
  Qed.
  Lemma new_declares : declares R (n_name n) (n_in n) = false.
  Proof.
    destruct (declares R (n_name n) (n_in n)) eqn:E; [|reflexivity]. exfalso. apply (declares_cases _ _ _ (st_nulls root done R ST)) in E. destruct E as [(k & t & E)|[E|E]].
    - rewrite new_entry in E. discriminate E.
    - apply E, new_const.
    - apply (st_place root done R A ST) in E. rewrite (no_modules _ (ro_once _ _ RO) _ n (wanted_node _ _ Wn)) in E. discriminate E.
  Qed.
  Definition R_after (R' : modl) : Prop := state root (done ++ [EDecl n]) R'.
  Lemma in_after : forall e, In e (done ++ [EDecl n]) <-> In e done \/ e = EDecl n.
  Proof. intros e. rewrite in_app_iff. cbn [In]. intuition. Qed.
  (** A type was added. *)
  Lemma after_type : forall R' k, sound R' -> same_places R R' -> n_kind n = kind k -> k <> Enums -> entry R' (n_in n) k (n_name n) = Some (n_type n) ->
    (forall q k' y, q <> n_in n \/ k' <> k \/ y <> n_name n -> entry R' q k' y = entry R q k' y) -> (forall q y, const_entry R' q y = const_entry R q y) -> R_after R'.
  Proof.
    intros R' k So X K NE E1 E2 C. constructor.
    - exact So.
    - intros q. rewrite X, (st_mod _ _ _ ST), in_after. intuition. discriminate.
    - intros q k' y t. rewrite in_after. destruct (list_eq_dec string_dec q (n_in n)) as [Eq|Nq]; [destruct (string_dec y (n_name n)) as [Ey|Ny]; [assert (Dk : k' = k \/ k' <> k) by (destruct k', k; (left; reflexivity) || (right; discriminate)); destruct Dk as [Ek|Nk]|]|].
      + subst q y k'. rewrite E1. split.
        * intros Q. injection Q as <-. right. rewrite <- K. destruct n; reflexivity.
        * intros [Q|Q]; [exfalso; exact (new_name _ Q eq_refl eq_refl)|]. injection Q as Q. rewrite <- Q. reflexivity.
      + rewrite E2 by tauto. rewrite (st_entry _ _ _ ST). split; [left; assumption|]. intros [Q|Q]; [exact Q|]. injection Q as Q. exfalso. apply Nk. apply kind_inj. rewrite <- K, <- Q. reflexivity.
      + rewrite E2 by tauto. rewrite (st_entry _ _ _ ST). split; [left; assumption|]. intros [Q|Q]; [exact Q|]. injection Q as Q. exfalso. apply Ny. rewrite <- Q. reflexivity.
      + rewrite E2 by tauto. rewrite (st_entry _ _ _ ST). split; [left; assumption|]. intros [Q|Q]; [exact Q|]. injection Q as Q. exfalso. apply Nq. rewrite <- Q. reflexivity.
    - intros q y t H. apply in_after in H as [H|H]; [|injection H as H; rewrite <- H in K; destruct k; discriminate K]. rewrite C. apply (st_const _ _ _ ST q y t H).
    - intros q x nm sz vals y v H Hv. apply in_after in H as [H|H]; [|injection H as H; rewrite <- H in K; destruct k; try discriminate K; congruence]. rewrite C. eapply (st_enum _ _ _ ST); eauto.
    - intros q y H. rewrite C in H. destruct (st_no_more _ _ _ ST q y H) as [(t & D)|(x & nm & sz & vals & v & D & Av)]; [left; exists t|right; exists x, nm, sz, vals, v; split; [|exact Av]]; apply in_after; left; assumption.
  Qed.
  Lemma used_named : forall t u, In u (all_nodes root) -> n_kind u <> xCONST -> (forall w, In w (DepSpec.named_in t) -> In w (DepSpec.written par n)) -> In (n_type u) (DepSpec.named_in t) -> In (EDecl u) done.
  Proof. intros t u Iu Ku H I. apply Used. split; [apply Wn|]. split; [exact Iu|]. split; [exact Ku|]. apply H, I. Qed.
  Lemma member_fit : forall name x y t, member_ok root (n_in n) name x y t -> (forall w, In w (DepSpec.named_in t) -> In w (DepSpec.written par n)) -> member_fits name R (n_in n) x y t.
  Proof.
    intros name x y t [M1 M2 M3 [T1 T2 T3 T4]] H. constructor; try assumption.
    - apply (st_hidden root W done R A ST), M3.
    - apply (meant_named root par W RO done R A ST); try assumption. intros u Iu Ku I. apply (used_named t); try assumption. rewrite named_base in I. exact I.
  Qed.
  Lemma step_struct : n_kind n = xSTRUCT -> struct_ok root par n ->
    exists d R', declared_by fc (n_in n) d R R' /\ (forall tabs text, node_text root par tabs n = Ok text -> written tabs d text) /\ R_after R'.
  Proof.
    intros K (ms & t & SO & Nt & Px & ND & Hm & Hp). destruct (struct_of_in _ _ _ _ SO) as (s & l & Et & Hl). pose proof (struct_of_members _ _ _ _ SO) as [Tn _].
    assert (Ix : is_ident (n_name n) = true) by (apply andb_true_iff in Px as [Px _]; apply andb_true_iff in Px as [Px _]; exact Px).
    destruct (register_facts Structs t R (n_in n)) as (R' & C & So & X & E1 & E2 & E3); [apply ST|exact Ex|rewrite Tn; exact Ix|rewrite Tn; apply new_entry|]. rewrite Tn in *. rewrite <- Nt in E1.
    assert (Wr : DepSpec.written par n = ((match par n with Some s => [s] | None => [] end) ++ flat_map (fun m => DepSpec.named_in (snd m)) l)%list).
    { unfold DepSpec.written. rewrite K, Nt, Et. reflexivity. }
    exists (DStruct (node_at root (n_in n)) (n_name n) (par n) ms), R'. split; [|split].
    - apply (db_struct fc _ _ _ _ _ t); try assumption; [apply new_declares| |].
      + intros y mt I. apply member_fit; [apply Hm, I|]. intros w Hw. rewrite Wr. apply in_or_app. right. destruct (Hl y mt I) as (o & Io). apply in_flat_map. exists (y, o, mt). split; [exact Io|exact Hw].
      + destruct (par n) as [b|] eqn:Pn; cbn [option_map base_named]; [|reflexivity]. destruct (Hp b eq_refl) as (u & Iu & Ku & Tu & Pu & Nu). assert (Du : In (EDecl u) done) by (apply Used; split; [apply Wn|]; split; [exact Iu|]; split; [congruence|]; rewrite Wr, Tu; left; reflexivity).
        destruct Pu as [Pu|Pu].
        * destruct Pu as (qs & Q & Iq & Pu). exists false, qs, (n_name u), b. split; [exact Q|]. split; [exact Iq|]. split; [exact Nu|]. split; [reflexivity|].
          rewrite <- Tu. apply (points_struct root W done R A ST); [exact Ex|rewrite Tu; exists qs; auto|exact Du|exact Ku].
        * pose proof Pu as (Q & Iq). exists true, (rev (n_in u)), (n_name u), b. split; [exact Q|]. split; [exact Iq|]. split; [exact Nu|]. split; [reflexivity|].
          rewrite <- Tu. apply (absolute_struct root done R ST); [exact Ex|rewrite Tu; exact Pu|exact Du|exact Ku].
    - intros tabs text H. unfold node_text in H. rewrite K in H. injection H as <-. rewrite Nt, Et. cbn [rename]. pose proof (wr_struct tabs (node_at root (n_in n)) (n_name n) (par n) ms t SO) as Q. rewrite Et in Q. exact Q.
    - apply (after_type R' Structs); try assumption. discriminate.
  Qed.
  Lemma step_alias : n_kind n = xALIAS -> alias_ok root n ->
    exists d R', declared_by fc (n_in n) d R R' /\ (forall tabs text, node_text root par tabs n = Ok text -> written tabs d text) /\ R_after R'.
  Proof.
    intros K (t & Nt & Px & Hv & Ca & Di & Re & Me). assert (Ix : is_ident (n_name n) = true) by (apply andb_true_iff in Px as [Px _]; apply andb_true_iff in Px as [Px _]; exact Px).
    assert (HS : has_symbol R (n_in n) (n_name n) = false).
    { rewrite has_symbol_enclosing. pose proof (enclosing_spec (declares R (n_name n)) (n_in n)) as S. destruct (enclosing (declares R (n_name n)) (n_in n)) as [q|]; [|reflexivity]. destruct S as ((r & Er) & Dq & _). exfalso.
      destruct (exists_last (l := r)) as (r' & c & Er').
      - intros ->. cbn [app] in Er. rewrite <- Er, new_declares in Dq. discriminate Dq.
      - apply (Hv q c); [exists r'; rewrite Er, Er', <- app_assoc; reflexivity|]. exists q. split; [apply around_refl|apply (st_known root W done R A ST), Dq]. }
    destruct (alias_facts t (n_name n) R (n_in n)) as (R' & C & So & X & E1 & E2 & E3); [apply ST|exact Ex|exact Ix|exact HS|]. rewrite <- Nt in E1.
    exists (DAlias (node_at root (n_in n)) (n_name n) t), R'. split; [|split].
    - apply db_alias; try assumption. apply (meant_named root par W RO done R A ST); try assumption. intros u Iu Ku I. apply (used_named t); try assumption; [|rewrite named_base in I; exact I]. intros w Hw. unfold DepSpec.written. rewrite K, Nt. exact Hw.
    - intros tabs text H. unfold node_text in H. rewrite K, Nt in H. injection H as <-. constructor.
    - apply (after_type R' Aliases); try assumption. discriminate.
  Qed.
  Lemma label_fit : forall x disc l, label_ok root (n_in n) x disc l -> (forall w, In w (DepSpec.named_in disc) -> In w (DepSpec.written par n)) -> label_fits R (n_in n) x disc l.
  Proof.
    intros x disc l H Hw. destruct disc as [p'|nm sz vals|k b|nm c b|c b|k v b|k v|nm sz ms|nm sz ms ls dv iv d|nm a]; cbn [label_ok label_fits] in *; try contradiction.
    - destruct p'; try exact H. destruct H as (H1 & H2 & H3 & H4 & H5). split; [exact H1|]. split; [apply (st_hidden root W done R A ST), H2|]. split; [apply (st_hidden root W done R A ST), H3|]. auto.
    - destruct H as (H1 & H2 & H3). cbv zeta in *. set (e := enum_enumerator vals (Z.to_N l)) in *. destruct H3 as (I1 & I2 & I3 & I4 & I5 & I6 & I7). repeat (split; [assumption|]).
      destruct I7 as [N|(u & Iu & Ku & Tu & Au & Mu)]; [left; apply (st_hidden root W done R A ST), N|right].
      assert (Du : In (EDecl u) done) by (apply (used_named (TEnum nm sz vals)); try assumption; [congruence|rewrite Tu; left; reflexivity]).
      assert (Du' : In (EDecl (Node (n_in u) xENUM (n_name u) (TEnum nm sz vals))) done) by (rewrite <- Tu, <- Ku; destruct u; exact Du).
      destruct (st_enum _ _ _ ST _ _ _ _ _ e (Z.to_N l) Du' I6) as (d & Cd & Id). rewrite Z2N.id in Id by lia.
      assert (De : declares R e (n_in u) = true) by (apply (declares_cases _ _ _ (st_nulls root done R ST)); right; left; congruence).
      destruct (path_lookup R (n_in n) false [] e (st_nulls root done R ST) Ex) as (m & Hm); [constructor; [exact I1|constructor]|]. exists m, d. split; [|exact Id]. unfold find_in. cbn [render qualified] in Hm. rewrite Hm. cbn [bind]. unfold lookup_name, named_module. cbn [rev app]. rewrite Ex.
      rewrite (enclosing_at root W done R A ST (n_in n) (n_in u) e Au De Mu). cbn [option_map found]. unfold const_entry in Cd. rewrite Cd. reflexivity.
  Qed.
  Lemma step_union : n_kind n = xUNION -> union_ok root n ->
    exists d R', declared_by fc (n_in n) d R R' /\ (forall tabs text, node_text root par tabs n = Ok text -> written tabs d text) /\ R_after R'.
  Proof.
    intros K (disc & cs & t & UO & Nt & Px & Sw & Me & Le & Hc). destruct (union_of_in _ _ _ _ UO) as (s & dn & off & l & ls & dv & iv & d & Et & Hl).
    assert (Tn : tname t = n_name n) by (rewrite Et; reflexivity). assert (Ix : is_ident (n_name n) = true) by (apply andb_true_iff in Px as [Px _]; apply andb_true_iff in Px as [Px _]; exact Px).
    destruct (register_facts Unions t R (n_in n)) as (R' & C & So & X & E1 & E2 & E3); [apply ST|exact Ex|rewrite Tn; exact Ix|rewrite Tn; apply new_entry|]. rewrite Tn in *. rewrite <- Nt in E1.
    assert (Wr : DepSpec.written par n = (DepSpec.named_in disc ++ flat_map (fun m => DepSpec.named_in (snd m)) l)%list).
    { unfold DepSpec.written. rewrite K, Nt, Et. reflexivity. }
    assert (Wd : forall w, In w (DepSpec.named_in disc) -> In w (DepSpec.written par n)) by (intros w Hw; rewrite Wr; apply in_or_app; left; exact Hw).
    exists (DUnion (node_at root (n_in n)) (n_name n) disc cs), R'. split; [|split].
    - apply (db_union fc _ _ _ _ _ t); try assumption; [apply new_declares| |].
      + assert (Rd : readable (type_idl (node_at root (n_in n)) false) disc).
        { destruct disc; cbn [switchable readable] in *; try contradiction; try exact Sw. destruct Sw as [Sw | [-> | [-> | ->]]]; try discriminate. intros ->. discriminate Sw. }
        apply (meant_named root par W RO done R A ST); try assumption. intros u Iu Ku I. apply (used_named disc); assumption.
      + intros [[lb isd] [y mt]] Ik. specialize (Hc _ Ik). cbn [case_ok case_fits] in *. destruct Hc as (H1 & H2 & H3 & H4 & H5). split; [|exact H5]. split; [|split; [exact H2|split]].
        * apply member_fit; [exact H1|]. intros w Hw. rewrite Wr. apply in_or_app. right. destruct (Hl _ Ik) as (o & Io). apply in_flat_map. eexists. split; [exact Io|exact Hw].
        * intros z Hz. apply label_fit; [apply H3, Hz|exact Wd].
        * intros Hd. apply (st_hidden root W done R A ST), H4, Hd.
    - intros tabs text H. unfold node_text in H. rewrite K, Nt, Et in H. apply (wr_union _ _ _ _ _ t); [exact UO|]. rewrite Et. cbn [rename union_idl] in *. rewrite (renamed_cases _ _ _ (scoped (scope (n_in n)) (n_name n))). exact H.
    - apply (after_type R' Unions); try assumption. discriminate.
  Qed.
  Lemma step_const : n_kind n = xCONST -> const_ok root n ->
    exists d R', declared_by fc (n_in n) d R R' /\ (forall tabs text, node_text root par tabs n = Ok text -> written tabs d text) /\ R_after R'.
  Proof.
    intros K (d & q & z & Cd & Id & Iq & Hl & Ix). destruct (const_facts fc (n_name n) d q z false R (n_in n)) as (R' & d' & C & So & X & C1 & I1 & C2 & E); [apply ST|exact Ex|exact Ix|apply new_const|exact Id|].
    exists (DConst (node_at root (n_in n)) (n_name n) d), R'. split; [|split].
    - eapply db_const; eauto.
    - intros tabs text H. unfold node_text in H. rewrite K, (proj2 Wn), Cd in H. constructor. exact H.
    - constructor.
      + exact So.
      + intros p. rewrite X, (st_mod _ _ _ ST), in_after. intuition. discriminate.
      + intros p k y t. rewrite E, (st_entry _ _ _ ST), in_after. split; [auto|]. intros [Q|Q]; [exact Q|]. injection Q as Q. rewrite <- Q in K. destruct k; discriminate K.
      + intros p y t H. apply in_after in H as [H|H].
        * rewrite C2; [apply (st_const _ _ _ ST p y t H)|]. destruct (list_eq_dec string_dec p (n_in n)) as [->|]; [right|left; assumption]. exact (new_name _ H eq_refl).
        * injection H as H. rewrite <- H in *. cbn [n_in n_name] in *. exists d, d', q, z. auto.
      + intros p x nm sz vals y v H Hv. apply in_after in H as [H|H]; [|injection H as H; rewrite <- H in K; discriminate K]. destruct (st_enum _ _ _ ST _ _ _ _ _ _ _ H Hv) as (d0 & Cd0 & Id0). exists d0. split; [|exact Id0]. rewrite C2; [exact Cd0|].
        destruct (list_eq_dec string_dec p (n_in n)) as [->|]; [right|left; assumption]. intros ->. rewrite new_const in Cd0. discriminate Cd0.
      + intros p y H. destruct (list_eq_dec string_dec p (n_in n)) as [->|Np]; [destruct (string_dec y (n_name n)) as [->|Ny]|].
        * left. exists (n_type n). apply in_after. right. rewrite <- K. destruct n; reflexivity.
        * rewrite C2 in H by auto. destruct (st_no_more _ _ _ ST _ y H) as [(t & D)|(x & nm & sz & vals & v & D & Av)]; [left; exists t|right; exists x, nm, sz, vals, v; split; [|exact Av]]; apply in_after; left; assumption.
        * rewrite C2 in H by auto. destruct (st_no_more _ _ _ ST p y H) as [(t & D)|(x & nm & sz & vals & v & D & Av)]; [left; exists t|right; exists x, nm, sz, vals, v; split; [|exact Av]]; apply in_after; left; assumption.
  Qed.
  Lemma step_enum : n_kind n = xENUM -> enum_ok n ->
    exists d R', declared_by fc (n_in n) d R R' /\ (forall tabs text, node_text root par tabs n = Ok text -> written tabs d text) /\ R_after R'.
  Proof.
    intros K (vals & Nt & Ix & NE & Fi & SN & Nu & Le). set (es := sort_by_value vals) in *.
    assert (In_es : forall e, In e es <-> In e vals) by (intros e; apply sort_in).
    assert (NDv : NoDup (map fst vals)) by (apply sorted_names_nodup, SN).
    assert (NDe : NoDup (map fst es)) by (apply sort_nodup, NDv).
    assert (Len : List.length es = List.length vals) by (apply sort_length).
    assert (Enm : forall y v, In (y, v) vals -> enumerator root (n_in n) (n_name n) y v).
    { intros y v I. exists (scoped (scope (n_in n)) (n_name n)), 4%N, vals. split; [|apply in_assoc; [exact NDv|exact I]]. pose proof (wanted_node _ _ Wn) as H. rewrite <- Nt, <- K. destruct n; exact H. }
    assert (Free : forall y v, In (y, v) vals -> const_entry R (n_in n) y = None).
    { intros y v I. destruct (const_entry R (n_in n) y) as [d|] eqn:E; [|reflexivity]. exfalso. pose proof (Enm y v I) as En.
      destruct (st_const_from root done R A ST (n_in n) y) as [(t & Wt & D)|(x & nm & sz & vs & v' & D & _ & H)]; [congruence| |].
      - destruct (no_enum_nodes _ (ro_once _ _ RO) _ _ _ _ _ En (wanted_node _ _ Wt) eq_refl) as [_ P]. destruct Wt as [_ P']. congruence.
      - pose proof (no_enum_enums _ (ro_once _ _ RO) _ _ _ _ _ _ En H) as Q. exact (new_name _ D eq_refl (eq_sym Q)). }
    destruct (enumerators_facts fc (n_in n) es R) as (R1 & DE & So1 & X1 & A1 & C1 & E1); [apply ST|exact Ex| |exact NDe| |].
    { apply Forall_forall. intros [y v] I. split; [rewrite Forall_forall in Fi; apply Fi, In_es, I|]. cbn [snd]. pose proof (numbered_values _ _ _ _ Nu I) as B. rewrite Len in B. lia. }
    { intros [y v] I. apply (Free y v), In_es, I. }
    destruct (register_facts Enums (TEnum (n_name n) 4 vals) R1 (n_in n) So1) as (R' & C & So & X & F1 & F2 & F3); [rewrite X1; exact Ex|exact Ix|rewrite E1; apply new_entry|]. cbn [tname rename] in *. rewrite <- Nt in F1.
    exists (DEnum (n_name n) vals), R'. split; [|split].
    - apply (db_enum fc _ _ _ _ R1); assumption.
    - intros tabs text H. unfold node_text in H. rewrite K, Nt in H. injection H as <-. constructor.
    - constructor.
      + exact So.
      + intros q. rewrite X, X1, (st_mod _ _ _ ST), in_after. intuition. discriminate.
      + intros q k' y t. rewrite in_after. destruct (list_eq_dec string_dec q (n_in n)) as [Eq|Nq]; [destruct (string_dec y (n_name n)) as [Ey|Ny]; [assert (Dk : k' = Enums \/ k' <> Enums) by (destruct k'; (left; reflexivity) || (right; discriminate)); destruct Dk as [Ek|Nk]|]|].
        * subst q y k'. rewrite F1. split.
          -- intros Q. injection Q as <-. right. cbn [kind]. rewrite <- K. destruct n; reflexivity.
          -- intros [Q|Q]; [exfalso; exact (new_name _ Q eq_refl eq_refl)|]. injection Q as Q. rewrite <- Q. reflexivity.
        * rewrite F2, E1 by tauto. rewrite (st_entry _ _ _ ST). split; [left; assumption|]. intros [Q|Q]; [exact Q|]. injection Q as Q. exfalso. apply Nk. apply kind_inj. cbn [kind]. rewrite <- K, <- Q. reflexivity.
        * rewrite F2, E1 by tauto. rewrite (st_entry _ _ _ ST). split; [left; assumption|]. intros [Q|Q]; [exact Q|]. injection Q as Q. exfalso. apply Ny. rewrite <- Q. reflexivity.
        * rewrite F2, E1 by tauto. rewrite (st_entry _ _ _ ST). split; [left; assumption|]. intros [Q|Q]; [exact Q|]. injection Q as Q. exfalso. apply Nq. rewrite <- Q. reflexivity.
      + assert (Keep : forall q y d, const_entry R q y = Some d -> const_entry R' q y = Some d).
        { intros q y d H. rewrite F3, C1; [exact H|]. destruct (list_eq_dec string_dec q (n_in n)) as [->|]; [right|left; assumption]. intros I. apply in_map_iff in I as ([y' v] & <- & I). apply In_es in I. cbn [fst] in *. rewrite (Free _ _ I) in H. discriminate H. }
        intros q y t H. apply in_after in H as [H|H]; [|injection H as H; rewrite <- H in K; discriminate K]. destruct (st_const _ _ _ ST q y t H) as (d & d' & k & z & H1 & H2 & H3 & H4). exists d, d', k, z. auto.
      + assert (Keep : forall q y d, const_entry R q y = Some d -> const_entry R' q y = Some d).
        { intros q y d H. rewrite F3, C1; [exact H|]. destruct (list_eq_dec string_dec q (n_in n)) as [->|]; [right|left; assumption]. intros I. apply in_map_iff in I as ([y' v] & <- & I). apply In_es in I. cbn [fst] in *. rewrite (Free _ _ I) in H. discriminate H. }
        intros q x nm sz vs y v H Hv. apply in_after in H as [H|H].
        * destruct (st_enum _ _ _ ST _ _ _ _ _ _ _ H Hv) as (d0 & Cd0 & Id0). exists d0. split; [apply Keep, Cd0|exact Id0].
        * injection H as H. assert (Q1 : n_in n = q) by (rewrite <- H; reflexivity). assert (Q2 : n_type n = TEnum nm sz vs) by (rewrite <- H; reflexivity). rewrite Nt in Q2. injection Q2 as _ _ <-. rewrite <- Q1, F3. apply A1. apply In_es, assoc_in, Hv.
      + intros q y H. rewrite F3 in H. assert (D : q = n_in n /\ In y (map fst es) \/ (q <> n_in n \/ ~ In y (map fst es))).
        { destruct (list_eq_dec string_dec q (n_in n)) as [->|]; [|right; left; assumption]. destruct (in_dec string_dec y (map fst es)); [left; auto|right; right; assumption]. }
        destruct D as [[-> I]|D].
        * right. apply in_map_iff in I as ([y' v] & <- & I). apply In_es in I. exists (n_name n), (scoped (scope (n_in n)) (n_name n)), 4%N, vals, v. split; [|apply in_assoc; assumption]. apply in_after. right. rewrite <- Nt, <- K. destruct n; reflexivity.
        * rewrite C1 in H by exact D. destruct (st_no_more _ _ _ ST _ y H) as [(t & D')|(x & nm & sz & vs & v & D' & Av)]; [left; exists t|right; exists x, nm, sz, vs, v; split; [|exact Av]]; apply in_after; left; assumption.
  Qed.
  Lemma step_decl : exists d R', declared_by fc (n_in n) d R R' /\ (forall tabs text, node_text root par tabs n = Ok text -> written tabs d text) /\ R_after R'.
  Proof.
    pose proof (ro_nodes _ _ RO n Wn) as H. unfold node_ok in H. destruct (n_kind n) eqn:K; [apply step_alias|apply step_const|apply step_enum|apply step_struct|apply step_union]; assumption.
  Qed.
End State.
