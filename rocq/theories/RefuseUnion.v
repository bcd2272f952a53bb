(** A union that is defined again. *)
From Verif Require Import Base Types TypeBuild TypeSpec Layout Mem Hash MapOps Ops NumSpec IntSpec IntOps ModuleSpec ModuleFacts Module DepTree Peg0 Grammar Peg PegFacts PegRules IdlParse IdlParseFacts GenIdl GenSpec TypeText StructText StructRead NumText IdlLitFacts IdlLit IdlExpr GrowFacts DocFacts GenStruct AliasText EnumText GenText ExprSpec ExprText ConstText UnionSpec UnionText UnionBuilt UnionRead GenUnion RefuseText.
Local Open Scope string_scope.

Lemma register_union_known : forall root x t, is_ident x = true -> tname t = x -> mem x (unions (tab_at root [])) = true -> call_register Unions t false root [] = Ok (false, root).
Proof.
  intros root x t I T M. unfold call_register. erewrite (on_tables_with bool root [] _ false); [rewrite with_tables_root; reflexivity|reflexivity|].
  unfold register. rewrite T, (ident_split x I). cbn [get_table set_table]. rewrite M. unfold emplace. rewrite M. destruct (tab_at root []); reflexivity.
Qed.
Section Values.
  Variable fc : prim -> prim -> list N -> list N.
  Variable flt : arith -> prim -> list N -> list N -> list N.
  Variable flit : prim -> string -> res (list N).
  (** [before] does not have the name, [known] is it with the first definition. *)
  Lemma union_again : forall c tabs name before known x old disc cs u0,
    usual c -> no_nulls before -> idents_only known [] -> plain_name x = true -> grows before [] x known -> entry known [] Unions x = Some old -> (2 <= List.length (members_of old))%nat ->
    switchable (name disc) disc -> named_in (name disc) known [] disc -> (forall k, In k cs -> case_fits name before [] x disc k) -> (2 <= List.length cs)%nat -> union_new x disc = Ok u0 ->
    exists ks, Forall2 (printed disc) cs ks /\ outcome fc flt flit c [] (union_core name tabs x disc ks) known (if ignore_redefinition c then Ok known else Fail Throw).
  Proof.
    intros c tabs name before known x old disc cs u0 (CT & W16 & IC) N IO1 PN G EN Two' Sw Nd CF Two U0. pose proof (plain_name_ident _ PN) as I.
    assert (E : exists_module before [] = true) by reflexivity.
    assert (T0 : tname u0 = x) by (unfold union_new in U0; destruct (check_discriminator disc); [|discriminate U0]; injection U0 as <-; reflexivity).
    assert (MS : mem x (unions (tab_at known [])) = true) by (unfold entry in EN; cbn [get_table] in EN; unfold mem; rewrite EN; reflexivity).
    pose proof (register_union_known known x u0 I T0 MS) as C1.
    assert (XD : x <> "default") by (intros ->; discriminate PN).
    assert (PR : exists ks, Forall2 (printed disc) cs ks).
    { clear Two. induction cs as [|k cs IH]; [exists []; constructor|]. destruct IH as (ks & H); [intros; apply CF; right; assumption|].
      destruct (printed_case name before [] x known disc k N IO1 E G (CF k (or_introl eq_refl))) as (tk & Hk). exists (tk :: ks). constructor; assumption. }
    destruct PR as (ks & PR). destruct (cases_read before [] x known disc N IO1 E G XD name cs ks CF PR) as [GC EC].
    assert (K2 : exists k1 k2 kr, ks = k1 :: k2 :: kr).
    { destruct PR as [|? ? ? ? ? PR]; [cbn in Two; lia|]. destruct PR; [cbn in Two; lia|]. eauto. }
    assert (EV : eventually (fun n => ((0 < n)%nat /\ resolve_identifier n c known [] x true = Ok x) /\ knows (name disc) n known [] disc /\
      (forall k : tcase, In k ks -> knows (name (snd (snd k))) n known [] (array_base (snd (snd k))) /\ canonical (snd (snd k)) /\ resolve_identifier n c known [] (fst (snd k)) false = Ok (fst (snd k))) /\
      exists vs, Forall2 (fun (k : tcase) (v : vcase) => snd v = snd k /\ map_res (label_subst n known []) (fst k) = Ok (fst v)) ks vs /\
        Forall2 (fun (k : ucase) (v : vcase) => snd v = snd k /\ stands disc (fst v) (fst (fst k)) (snd (fst k))) cs vs)).
    { apply ev_and; [apply ev_and; [exists 1%nat; intros; lia|apply plain_resolves; [exact IC|exact PN|discriminate]]|apply ev_and; [|apply ev_and; [|exact EC]]].
      - apply knows_named; [reflexivity|exact IO1|exact Nd|apply switchable_readable, Sw].
      - apply (ev_all _ (fun k n => knows (name (snd (snd k))) n known [] (array_base (snd (snd k))) /\ canonical (snd (snd k)) /\ resolve_identifier n c known [] (fst (snd k)) false = Ok (fst (snd k)))).
        intros tk Hi. assert (X : exists k, In k cs /\ printed disc k tk).
        { clear - PR Hi. induction PR as [|k t cs ks H PR IH]; [destruct Hi|]. destruct Hi as [<-|Hi]; [exists k; split; [left; reflexivity|exact H]|]. destruct (IH Hi) as (k' & I & H'). exists k'. split; [right; exact I|exact H']. }
        destruct X as ([[ls isd] [y mt]] & Hk & (Sn & _)). destruct tk as [Lt m]. cbn [fst snd] in *. subst m. destruct (CF _ Hk) as ([P1 P2 P3 P4 P5 P6 P7] & _). cbn [fst snd]. apply ev_and; [|apply ev_and; [apply ev_const, P4|]].
        + apply knows_named; [reflexivity|exact IO1| |exact P5]. eapply (grows_named (name mt) before [] x known); eauto.
        + apply plain_resolves; [exact IC|exact P1|]. intros _. rewrite (grows_symbol _ _ _ _ _ _ G P2). exact P3. }
    assert (NE : ks <> []) by (destruct K2 as (? & ? & ? & ->); discriminate).
    exists ks. split; [exact PR|]. constructor.
    - intros s. unfold union_core. reflexivity.
    - intros w s W So. destruct (ok_union_definition name tabs x disc ks w s I Sw NE GC W So) as (d & l & O & Rd & Gd & T). eexists. split; [exact O|].
      eapply ev_impl; [|exact EV]. intros n ((A1 & A2) & A3 & A4 & vs & A5 & A6).
      assert (OU : optimize (union_definition x d l) = union_tree x (optimize d) (map optimize l)).
      { destruct K2 as (k1 & k2 & kr & ->). inversion T as [|? a ? l1 _ T1]; subst. inversion T1 as [|? b ? l2 _ _]; subst. apply optimize_union. }
      rewrite OU. assert (T' : Forall2 (case_tree name) ks (map optimize l)) by (clear -T; induction T; cbn [map]; constructor; assumption).
      assert (L1 : lookup n Unions known [] x = Ok ([], x, old)) by (apply lookup_here; [exact A1|reflexivity|exact I|exact EN]).
      change (union_def n c [] (union_tree x (optimize d) (map optimize l)) known = (if ignore_redefinition c then Ok known else Fail Throw)).
      unfold union_def, union_tree. cbn [a_sub]. rewrite parts_ident, A2. cbn [bind]. rewrite parts_switch by exact Gd. rewrite (Rd n c known [] CT W16 A3). cbn [bind]. rewrite U0. cbn [bind]. rewrite C1. cbn [bind snd].
      rewrite parts_body, (body_reads name n c known [] CT W16 ks vs _ [] T' A5 A4). cbn [app bind union_parts]. rewrite L1. cbn [bind]. destruct (members_of old) as [|m1 [|m2 ms]]; cbn in Two'; try lia. reflexivity.
  Qed.
End Values.
