(** Theorems about the text of whole modules: C39. *)
From Verif Require Import Base Types TypeBuild Mem Hash MapOps Ops IntSpec IntOps ModuleSpec ModuleFacts Module Peg0 Grammar Peg PegRules IdlLit IdlParse GenIdl GenSpec EnumText EnumFacts GenText ExprSpec UnionText UnionSpec DocSpec DocText PropParse PropDoc GenModule.
From Verif Require Import DepTree DepFacts NumSpec RoundGen RoundText RoundSpec RoundFacts RoundTree PropDep RoundCheck.
From Verif Require DepSpec.
Local Open Scope string_scope.

(** generate(module) and then parse into an empty module: the result has the same modules, types, constants, with the same
    values, and nothing else but the enumerators, as constants.  [par] tells the parent of each struct.
    For every tree of modules whose declarations can be written ([round_ok]) and come out in an order in which everything is
    declared before it is used (the C40 theorems give that order; C40's refutations show when the generator does not).
    What is missing: the declarations without a text that means the same (C39's and C40's refutations). *)
Theorem C39_module_partial : forall fc flt flit c root par text, usual c -> DepSpec.well_named root -> round_ok root par ->
  (forall o n u, generates root par o -> DepSpec.uses root par n u -> DepSpec.wanted root n -> DepSpec.before o (EDecl u) (EDecl n)) ->
  generates_text root par text -> exists r, parses fc flt flit c text root_module (Ok (true, r)) /\ same_module root r.
Proof.
  intros fc flt flit c root par text U W RO Ord GT. destruct (generated_texts root par text GT) as (o & G & T). specialize (Ord o). assert (Or : forall n u, DepSpec.uses root par n u -> DepSpec.wanted root n -> DepSpec.before o (EDecl u) (EDecl n)) by eauto.
  destruct (root_nest root par o W RO G) as (body & E & N & NE). pose proof (order_decls root par o W G Or) as G1. pose proof (order_modules root par o W RO G) as G2.
  rewrite E in T. apply texts_cons in T as (w & s & t & -> & B & Es & T). injection Es as <-. apply texts_split in T as (t1 & t2 & -> & T1 & T2). apply texts_cons in T2 as (w2 & s2 & t3 & -> & B2 & Es2 & T3). injection Es2 as <-. apply texts_none in T3.
  destruct (tree_declares fc root par W RO o G1 G2 [] body N [EOpen []] [EClose []] root_module t1) as (ds & r & D & Wr & S & F); [exact E|apply state_start|reflexivity|exact T1|].
  exists r. split.
  - cbn [append]. apply C39_document_partial with (ds := ds); [exact U|apply (st_sound _ _ _ (state_start root))|apply (st_sound _ _ _ (state_start root))|apply F, NE|exact D|].
    match goal with |- written_all _ _ ?t => replace t with ((w ++ t1) ++ (w2 ++ t3)) by (rewrite !DepSolve.app_assoc_s; reflexivity) end.
    apply written_all_blank; [|apply ws_app; assumption]. inversion Wr; subst; [constructor; apply ws_app; assumption|]. rewrite <- DepSolve.app_assoc_s. constructor; [apply ws_app|..]; assumption.
  - apply (state_same root par o W RO G). rewrite E. pose proof (state_close root _ _ [] S) as S'. replace (EOpen [] :: body ++ [EClose []])%list with (([EOpen []] ++ body) ++ [EClose []])%list by reflexivity. exact S'.
Qed.

(** ** A module of modules: the tree of PropDoc.v and a union. *)
Definition ex_par : node -> option ty := fun n => if String.eqb (n_name n) "B" then Some dc_A else None.
Definition ex_cases : list ucase := [([0]%Z, false, ("a", dc_A)); ([1]%Z, true, ("n", TArr "array_2_int32_t" (TPrim PI32) 2))].
Definition ex_U : ty := get dc_E (UnionSpec.union_of "U" dc_E ex_cases).
Definition ex_tree : modl := Eval vm_compute in snd (get (true, dc_r8) (call_register Unions ex_U false dc_r8 ["M"])).
Definition ex_text : string := Eval vm_compute in match solve ex_tree ex_par with Ok D => match gen_text ex_tree ex_par D 10 0 [] gst0 with Ok (_, t) => t | _ => "" end | _ => "" end.
Definition ex_order : list event := Eval vm_compute in match solve ex_tree ex_par with Ok D => match gen_idl 10 ex_tree D [] gst0 with Ok s => g_out s | _ => [] end | _ => [] end.
Ltac pt := first [apply points_name; vm_compute; reflexivity | eapply (points_path _ _ _ _ "M" [] []); vm_compute; reflexivity | eapply (points_path _ _ _ _ "M" ["N"] []); vm_compute; reflexivity].
Ltac mean_by u := exists u; split; [vm_compute; tauto|split; [discriminate|split; [vm_compute; reflexivity|pt]]].
Ltac mean := match goal with |- means _ _ _ _ => first [mean_by (Node [] xENUM "Color" dc_E) | mean_by (Node ["M"] xSTRUCT "A" dc_A) | mean_by (Node ["N"; "M"] xALIAS "T" (TAlias "M::N::T" dc_T))] end.
Lemma plain_path (qs : list string) (y : string) : forallb is_ident (qs ++ [y])%list = true -> plain (hd y qs) = true -> plain_scoped (qualified qs y).
Proof. intros I P. exists false, qs, y. split; [reflexivity|]. split; [apply Forall_forall; now rewrite forallb_forall in I|right; exact P]. Qed.
Lemma ex_round : round_ok ex_tree ex_par.
Proof.
  constructor.
  - apply names_onceb_ok. vm_compute. reflexivity.
  - apply modules_plain. vm_compute. reflexivity.
  - apply modules_filled. vm_compute. reflexivity.
  - assert (PS : plain_scoped "Color" /\ plain_scoped "A" /\ plain_scoped "M::A" /\ plain_scoped "M::N::T").
    { split; [apply (plain_path [] "Color"); reflexivity|]. split; [apply (plain_path [] "A"); reflexivity|]. split; [apply (plain_path ["M"] "A"); reflexivity|apply (plain_path ["M"; "N"] "T"); reflexivity]. }
    destruct PS as (P1 & P2 & P3 & P4).
    assert (MO : forall p x y t l, forallb (fun q => negb (knownb ex_tree q y)) (outs p) = true -> y <> x -> plain_name y = true -> type_ok ex_tree p (type_idl (node_at ex_tree p) l) x t -> member_ok ex_tree p (type_idl (node_at ex_tree p) l) x y t).
    { intros p x y t l K E P T. constructor; [exact P|exact E|apply unseen, K|exact T]. }
    intros n [H P]. vm_compute in H. repeat (destruct H as [<- | H]; [try discriminate P; cbn [node_ok n_kind]|]); [..|contradiction]; clear P.
    + exists dc_vals. split; [reflexivity|]. split; [reflexivity|]. split; [discriminate|]. split; [repeat constructor|]. split; [cbn; repeat constructor|]. split; [cbn; repeat split|cbn; lia].
    + exists [("all", TAlias "M::N::T" dc_T); ("one", TMap (TStr SK8 0) dc_A 0)]. eexists. split; [vm_compute; reflexivity|]. split; [vm_compute; reflexivity|]. split; [reflexivity|]. split; [repeat constructor; cbn; intuition discriminate|].
      split.
      * intros y mt [E | [E | []]]; injection E as <- <-; (apply MO; [reflexivity|discriminate|reflexivity|]); (constructor; [vm_compute; repeat split|cbn|cbn|apply GrowFacts.unshadowed_root]); [exact P4|mean| |].
        -- repeat split; [discriminate|exact P3].
        -- split; [exact Logic.I|mean].
      * intros b E. injection E as <-. exists (Node ["M"] xSTRUCT "A" dc_A). split; [vm_compute; tauto|]. split; [reflexivity|]. split; [reflexivity|]. split; [left; pt|]. intros abs qs _ _. reflexivity.
    + exists [("color", dc_E); ("x", TPrim PI32)]. eexists. split; [vm_compute; reflexivity|]. split; [vm_compute; reflexivity|]. split; [reflexivity|]. split; [repeat constructor; cbn; intuition discriminate|].
      split; [|discriminate].
      intros y mt [E | [E | []]]; injection E as <- <-; (apply MO; [reflexivity|discriminate|reflexivity|]); (constructor; [vm_compute; repeat split|cbn|cbn|cbn]); try exact P1; try mean; try exact Logic.I; try discriminate.
      apply not_hidden_check; discriminate.
    + exists dc_E, ex_cases. eexists. split; [vm_compute; reflexivity|]. split; [vm_compute; reflexivity|]. split; [reflexivity|]. split; [exact P1|]. split; [cbn; mean|]. split; [cbn; lia|].
      assert (LO : forall l, l = 0%Z \/ l = 1%Z -> label_ok ex_tree ["M"] "U" dc_E l).
      { intros l L. split; [reflexivity|]. split; [lia|]. cbn zeta. assert (E : enum_enumerator dc_vals (Z.to_N l) = if (l =? 0)%Z then "Red" else "Blue") by (destruct L as [-> | ->]; reflexivity). rewrite E.
        repeat split; try (destruct L as [-> | ->]; first [reflexivity|discriminate]). right. exists (Node [] xENUM "Color" dc_E). split; [vm_compute; tauto|]. split; [reflexivity|]. split; [reflexivity|]. split; [now apply aroundb_iff|]. apply first_known_ok. destruct L as [-> | ->]; reflexivity. }
      intros k [<- | [<- | []]]; (split; [apply MO; [reflexivity|discriminate|reflexivity|]|split; [left; discriminate|split; [intros l [<- | []]; apply LO; auto|split; [intros _; apply unseen; reflexivity|split; [repeat constructor|intros _; cbn; discriminate || exact Logic.I]]]]]).
      * constructor; [exact Logic.I|exact P2|cbn|cbn; apply not_hidden_check; discriminate]. mean.
      * constructor; [vm_compute; repeat split|cbn; discriminate|exact Logic.I|exact Logic.I].
    + exists dc_T. split; [reflexivity|]. split; [reflexivity|]. split; [|split; [vm_compute; repeat split|split; [repeat constructor|split; [split; [exact P3|reflexivity]|cbn; mean]]]].
      intros q c A. apply outs_iff in A. cbn in A. destruct A as [A | [A | [A | []]]]; try discriminate A; injection A as <- <-; apply unseen; reflexivity.
    + assert (K : exists d, const_entry ex_tree ["N"; "M"] "k" = Some d /\ is_int d PI16 (-12)%Z).
      { eexists. split; [cbn; reflexivity|]. split; [reflexivity|]. exists [244; 255]%N. split; [|split; [unfold NumSpec.fits; cbn; lia|exists 1%Z; reflexivity]].
        split; [exact Logic.I|]. split; [cbn; try lia; exact Logic.I|]. split; [reflexivity|]. split; [|vm_compute; reflexivity].
        intros i Hi. cbn in Hi. assert (i = 0 \/ i = 1)%N as [-> | ->] by lia; eexists; vm_compute; split; reflexivity. }
      destruct K as (d & E & I). exists d, PI16, (-12)%Z. split; [exact E|]. split; [exact I|]. split; [reflexivity|]. split; [intros _; vm_compute; discriminate|reflexivity].
Qed.
Example C39_module_nontrivial : DepSpec.well_named ex_tree /\ round_ok ex_tree ex_par /\
  (forall o n u, generates ex_tree ex_par o -> DepSpec.uses ex_tree ex_par n u -> DepSpec.wanted ex_tree n -> DepSpec.before o (EDecl u) (EDecl n)) /\
  generates_text ex_tree ex_par ex_text.
Proof.
  assert (W : DepSpec.well_named ex_tree) by (apply DepCheck.well_named_check; vm_compute; reflexivity).
  split; [exact W|]. split; [exact ex_round|]. split.
  - apply (ordered_ok ex_tree ex_par ex_order W); [|vm_compute; reflexivity]. apply (generates_check _ _ 10). vm_compute. reflexivity.
  - apply (text_check _ _ 10). vm_compute. reflexivity.
Qed.

(** ** Names from the root *)
(** A parent that a closer module hides is written with its name from the root, and found. *)
Definition hd_X : ty := TStruct "X" 4 [("a", 0%N, TPrim PI32)].
Definition hd_MX : ty := TStruct "X" 1 [("b", 0%N, TPrim PI8)].
Definition hd_add (t : ty) (p : place) (r : modl) : modl := snd (get (true, r) (call_register Structs t false r p)).
Definition hd_top : modl := hd_add hd_X [] (Mod "" no_tables [("M", Some (Mod "M" no_tables [("N", Some (Mod "N" no_tables []))]))]).
Definition hd_par : node -> option ty := fun n => if String.eqb (n_name n) "Y" then Some hd_X else None.
Definition hd_tree : modl := Eval vm_compute in hd_add (TStruct "Y" 8 [("a", 0%N, TPrim PI32); ("c", 4%N, TPrim PI32)]) ["N"; "M"] (hd_add hd_MX ["M"] hd_top).
Definition hd_text : string :=
  "struct X" ++ NL ++ "{" ++ NL ++ "    int32 a;" ++ NL ++ "};" ++ NL ++ NL ++ "module M" ++ NL ++ "{" ++ NL ++ "    struct X" ++ NL ++ "    {" ++ NL ++ "        int8 b;" ++ NL ++ "    };" ++ NL ++ NL ++
  "    module N" ++ NL ++ "    {" ++ NL ++ "        struct Y : ::X" ++ NL ++ "        {" ++ NL ++ "            int32 c;" ++ NL ++ "        };" ++ NL ++ "    };" ++ NL ++ "};" ++ NL.
Example C39_absolute_nontrivial : DepSpec.well_named hd_tree /\ round_ok hd_tree hd_par /\
  (forall o n u, generates hd_tree hd_par o -> DepSpec.uses hd_tree hd_par n u -> DepSpec.wanted hd_tree n -> DepSpec.before o (EDecl u) (EDecl n)) /\
  generates_text hd_tree hd_par hd_text.
Proof.
  assert (W : DepSpec.well_named hd_tree) by (apply DepCheck.well_named_check; vm_compute; reflexivity).
  split; [exact W|]. split; [constructor|split].
  - apply names_onceb_ok. vm_compute. reflexivity.
  - apply modules_plain. vm_compute. reflexivity.
  - apply modules_filled. vm_compute. reflexivity.
  - assert (ST : forall p x s ms sz l y q, GenSpec.struct_of x None [(y, TPrim q)] = Ok (TStruct x sz l) -> In (Node p xSTRUCT x s) (all_nodes hd_tree) -> s = rename (TStruct x sz l) (scoped (scope p) x) -> plain_name x = true -> hd_par (Node p xSTRUCT x s) = None ->
        ms = y -> plain_name y = true -> y <> x -> forallb (fun q => negb (knownb hd_tree q y)) (outs p) = true -> q = PI32 \/ q = PI8 -> struct_ok hd_tree hd_par (Node p xSTRUCT x s)).
    { intros p x s ms sz l y q SO _ Es Px Hp _ Py Ny Hy Q. exists [(y, TPrim q)], (TStruct x sz l). cbn [n_in n_name n_type]. rewrite Hp. split; [exact SO|]. split; [exact Es|]. split; [exact Px|]. split; [repeat constructor; intros []|]. split; [|discriminate].
      intros y' mt [E | []]. injection E as <- <-. constructor; [exact Py|exact Ny|apply unseen, Hy|]. constructor; [exact Logic.I|destruct Q as [-> | ->]; cbn; discriminate|exact Logic.I|exact Logic.I]. }
    intros n [H P]. vm_compute in H. repeat (destruct H as [<- | H]; [try discriminate P; cbn [node_ok n_kind]|]); [..|contradiction]; clear P.
    + eapply ST with (y := "a") (q := PI32); try (vm_compute; reflexivity); try discriminate; [vm_compute; tauto|left; reflexivity].
    + eapply ST with (y := "b") (q := PI8); try (vm_compute; reflexivity); try discriminate; [vm_compute; tauto|right; reflexivity].
    + exists [("c", TPrim PI32)]. eexists. split; [vm_compute; reflexivity|]. split; [vm_compute; reflexivity|]. split; [reflexivity|]. split; [repeat constructor; intros []|]. split.
      * intros y mt [E | []]. injection E as <- <-. constructor; [reflexivity|discriminate|apply unseen; reflexivity|]. constructor; [exact Logic.I|cbn; discriminate|exact Logic.I|exact Logic.I].
      * intros b E. injection E as <-. exists (Node [] xSTRUCT "X" hd_X). split; [vm_compute; tauto|]. split; [reflexivity|]. split; [reflexivity|]. split; [right; split; [vm_compute; reflexivity|repeat constructor]|]. apply not_hidden_check; vm_compute; discriminate.
  - eapply (ordered_ok hd_tree hd_par _ W); [apply (generates_check _ _ 10); vm_compute; reflexivity|vm_compute; reflexivity].
  - apply (text_check _ _ 10). vm_compute. reflexivity.
Qed.
(** A member's type found by its name from the root is renamed. *)
Definition hd_Z : ty := TStruct "Z" 4 [("d", 0%N, hd_X)].
Theorem C39_renamed_refuted : forall fc flt flit, exists root text r, DepSpec.well_named root /\ entry root ["N"; "M"] Structs "Z" = Some (TStruct "M::N::Z" 4 [("d", 0%N, hd_X)]) /\ generates_text root (fun _ => None) text /\
  parses fc flt flit default_ctx text root_module (Ok (true, r)) /\ entry r ["N"; "M"] Structs "Z" = Some (TStruct "M::N::Z" 4 [("d", 0%N, rename hd_X "::X")]).
Proof.
  intros fc flt flit. exists (hd_add hd_Z ["N"; "M"] (hd_add hd_MX ["M"] hd_top)). do 2 eexists. split; [apply DepCheck.well_named_check; vm_compute; reflexivity|]. split; [vm_compute; reflexivity|].
  split; [apply (text_check _ _ 10); vm_compute; reflexivity|]. split; [parsed|vm_compute; reflexivity].
Qed.
(** A module without declarations is written, but its text is no IDL document: nothing of the tree is read. *)
Theorem C39_empty_module_refuted : forall fc flt flit, exists root text, DepSpec.well_named root /\ entry root [] Structs "X" = Some hd_X /\ exists_module root ["M"] = true /\ generates_text root (fun _ => None) text /\
  parses fc flt flit default_ctx text root_module (Ok (false, root_module)).
Proof.
  intros fc flt flit. exists (hd_add hd_X [] (Mod "" no_tables [("M", Some (Mod "M" no_tables []))])). eexists. split; [apply DepCheck.well_named_check; vm_compute; reflexivity|]. split; [vm_compute; reflexivity|].
  split; [reflexivity|]. split; [apply (text_check _ _ 10); vm_compute; reflexivity|]. parsed.
Qed.
(** A type of the root hidden by one of the module that mentions it is written without scope: the text means the other. *)
Theorem C39_hidden_refuted : forall fc flt flit, exists root text r, DepSpec.well_named root /\ entry root ["M"] Structs "Z" = Some (TStruct "M::Z" 4 [("d", 0%N, hd_X)]) /\ generates_text root (fun _ => None) text /\
  parses fc flt flit default_ctx text root_module (Ok (true, r)) /\ entry r ["M"] Structs "Z" = Some (TStruct "M::Z" 1 [("d", 0%N, rename hd_MX "M::X")]).
Proof.
  intros fc flt flit. exists (hd_add hd_Z ["M"] (hd_add hd_MX ["M"] (hd_add hd_X [] (Mod "" no_tables [("M", Some (Mod "M" no_tables []))])))). do 2 eexists. split; [apply DepCheck.well_named_check; vm_compute; reflexivity|]. split; [vm_compute; reflexivity|].
  split; [apply (text_check _ _ 10); vm_compute; reflexivity|]. split; [parsed|vm_compute; reflexivity].
Qed.

(** generate(module) writes each module of the tree once, and no other. *)
Lemma closed_opened : forall o stk s q, DepSpec.stack_after stk o = Some s -> In (EClose q) o -> In q stk \/ In (EOpen q) o.
Proof.
  induction o as [|e r IH]; intros stk s q H I; [contradiction|]. destruct I as [-> | I].
  - cbn in H. destruct stk as [|q' stk]; [discriminate H|]. destruct (place_eqb q q') eqn:E; [|discriminate H]. apply place_eqb_eq in E. left. now left.
  - destruct e as [p|p|n]; cbn [DepSpec.stack_after] in H.
    + assert (X : exists stk', DepSpec.stack_after (p :: stk') r = Some s /\ stk' = stk). { destruct p as [|c p], stk as [|q' stk]; try discriminate H; [exists []; split; [exact H|reflexivity]|]. destruct (place_eqb p q'); [|discriminate H]. eexists. split; [exact H|reflexivity]. }
      destruct X as (stk' & X & ->). destruct (IH _ _ _ X I) as [[-> | J] | J]; [right; now left|now left|right; now right].
    + destruct stk as [|q' stk]; [discriminate H|]. destruct (place_eqb p q') eqn:E; [|discriminate H]. destruct (IH _ _ _ H I) as [J | J]; [left; now right|right; now right].
    + destruct stk as [|q' stk]; [discriminate H|]. destruct (place_eqb (n_in n) q'); [|discriminate H]. destruct (IH _ _ _ H I) as [J | J]; [now left|right; now right].
Qed.
Theorem C40_modules_once : forall root par o q, DepSpec.well_named root -> generates root par o -> opens q o = if exists_module root q then 1%nat else 0%nat.
Proof.
  intros root par o q W G. destruct (modules_once root par o W G q) as [X L]. destruct (C40_complete root par o W G) as (WN & _ & _). destruct (exists_module root q) eqn:E.
  - assert (C : In (EClose q) o). { destruct G as (D & f & s & HS & HG & <-). destruct (DepSolve.solve_from root par D HS) as [F _]. destruct (DepGen.gen_result root D _ f s W (DepSolve.solve_Dok root par D W F) HG) as (_ & I & HC). rewrite <- (app_nil_r q). apply (DepGen.closed_all root D _ (g_out s) (DepGen.inv_q _ _ _ _ I) [] q HC). now rewrite app_nil_r. }
    destruct (closed_opened o [] [] q WN C) as [[] | I]. apply opens_in in I. lia.
  - destruct (opens q o) eqn:Z; [reflexivity|]. assert (I : In (EOpen q) o) by (apply opens_in; lia). specialize (X I). discriminate X.
Qed.

Print Assumptions C39_module_partial.
Print Assumptions C39_renamed_refuted.
Print Assumptions C39_empty_module_refuted.
Print Assumptions C39_hidden_refuted.
Print Assumptions C40_modules_once.
