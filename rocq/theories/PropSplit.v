(** Theorems about documents parsed in parts and about parses that fail: C61, C62. *)
From Verif Require Import Base Types TypeBuild Compat Mem MemSpec Hash MapOps Ops Module ModuleSpec ModuleFacts NumSpec IntSpec IntOps IdlLit IdlExpr IdlSpec Peg0 Grammar Peg PegFacts PegRules IdlParse IdlParseFacts GenIdl GenSpec TypeText StructText StructRead DocFacts DocSpec DocText DeclSpec DeclText PropParse PropDoc PropDecl KeepRun KeepSpec KeepFacts KeepSteady KeepNull SplitFacts PropKeep.
From Verif Require Import GapSpec GapText.
Local Open Scope string_scope.

Section Values.
  Variable fc : prim -> prim -> list N -> list N.
  Variable flt : arith -> prim -> list N -> list N -> list N.
  Variable flit : prim -> string -> res (list N).
  Variable c : ctx.
  Hypothesis U : usual c.
  Notation leaves := (leaves fc flt flit c).
  (** The declarations [l] come first: alone they turn [root] into [known].  [rest] is any text that does not begin with a
      blank or a comment. *)
  Variables (w : string) (l : list (string * string)) (root known : modl) (rest : string).
  Hypothesis W : gap w.
  Hypothesis N : no_nulls root.
  Hypothesis IS : ident_symbols root.
  Hypothesis NE : l <> [].
  Hypothesis L : say fc [] l root known.
  Hypothesis SO : solid rest.
  Hypothesis NR : rest <> "".
  Lemma whole_run : eventually (fun n => parse_run fc flt flit n c (w ++ row_text l ++ rest) root = match parse_run fc flt flit n c rest known with (_, Ok false) => (root, Ok false) | x => x end).
  Proof.
    destruct (say_reads fc flt flit c U [] l root known L (conj N IS) eq_refl) as [_ Se]. rewrite row_in_row. apply split_run; assumption.
  Qed.
  Lemma leaves_ev : forall text r0 r1 x, leaves text r0 r1 x <-> (x <> Fail Loop /\ eventually (fun n => parse_run fc flt flit n c text r0 = (r1, x))).
  Proof.
    intros text r0 r1 x. split.
    - intros (n & H & NL). split; [exact NL|]. exists n. intros m Lm. pose proof (firm_parse fc flt flit c text r0 n m Lm) as F. cbv beta in F. rewrite H in F. exact (F NL).
    - intros [NL (n & H)]. exists n. split; [exact (H n (le_n n))|exact NL].
  Qed.
  (** One parse of the whole is the parse of the first part and then the parse of the rest: same answer, exception, module. *)
Theorem C61_rest_partial : forall root' r, r <> Ok false -> (leaves (w ++ row_text l ++ rest) root root' r <-> leaves rest known root' r).
  Proof.
    intros root' r NF. rewrite !leaves_ev. split; intros [NL E]; (split; [exact NL|]); eapply ev_impl; [|apply (ev_and _ _ whole_run E)| |apply (ev_and _ _ whole_run E)]; intros n [A1 A2]; cbv beta in *.
    - rewrite A1 in A2. destruct (parse_run fc flt flit n c rest known) as [k [[]|e]]; congruence.
    - rewrite A2 in A1. destruct r as [[]|e]; congruence.
  Qed.
Theorem C61_first_partial : leaves (w ++ row_text l) root known (Ok true).
  Proof. apply C60_answer. eapply C49_document_partial; eassumption. Qed.
  (** The whole is no IDL exactly if the rest is none. *)
Theorem C61_syntax_partial : leaves (w ++ row_text l ++ rest) root root (Ok false) <-> leaves rest known known (Ok false).
  Proof.
    rewrite !leaves_ev. split; intros [NL E]; (split; [exact NL|]); eapply ev_impl; [|apply (ev_and _ _ whole_run E)| |apply (ev_and _ _ whole_run E)]; intros n [A1 A2]; cbv beta in *.
    - rewrite A1 in A2. unfold parse_run in *. destruct (parse_document n rest) as [[a|]|]; [|reflexivity|discriminate A2]. destruct (build_run fc flt flit n c [] a known) as [k [u|e]]; cbn [andthen] in A2; discriminate A2.
    - rewrite A1, A2. reflexivity.
  Qed.
  (** If the text is IDL, the declarations before the point where parse throws have taken effect. *)
Theorem C62_before_partial : forall root' e, leaves (w ++ row_text l ++ rest) root root' (Fail e) -> keeps known root'.
  Proof. intros root' e H. apply C61_rest_partial in H; [|discriminate]. eapply C60_kept, H. Qed.
End Values.
(** A text that is no IDL leaves the module as it was. *)
Theorem C62_no_idl : forall fc flt flit c text root root', leaves fc flt flit c text root root' (Ok false) -> root' = root.
Proof.
  intros fc flt flit c text root root' (n & H & _). unfold parse_run in H. destruct (parse_document n text) as [[a|]|]; [|congruence..]. destruct (build_run fc flt flit n c [] a root) as [r [u|e]]; cbn [andthen] in H; congruence.
Qed.

(** The hypotheses of C61_rest_partial, C61_first_partial, C61_syntax_partial and C62_before_partial hold for the document
    of C49_nontrivial followed by texts that are refused, are no IDL, or are accepted. *)
Example C61_hypotheses : forall rest, In rest ["struct Z { long a; long a; };"; "struct {"; "module M { typedef A B; };"] ->
  gap "" /\ no_nulls root_module /\ ident_symbols root_module /\ de_row <> [] /\ say keep [] de_row root_module de_r7 /\ solid rest /\ rest <> "".
Proof.
  intros rest I. destruct C49_nontrivial as (L & NN & IS & _). do 5 (split; [first [reflexivity|exact gap_none|exact NN|exact IS|exact L|discriminate]|]).
  destruct I as [<-|[<-|[<-|[]]]]; (split; [reflexivity|discriminate]).
Qed.
Example C61_instance : forall flt flit root', leaves keep flt flit default_ctx ("" ++ row_text de_row ++ "struct Z { long a; long a; };") root_module root' (Fail Throw) <-> leaves keep flt flit default_ctx "struct Z { long a; long a; };" de_r7 root' (Fail Throw).
Proof.
  intros flt flit root'. destruct (C61_hypotheses "struct Z { long a; long a; };" (or_introl eq_refl)) as (W & NN & IS & NE & L & SO & NR).
  apply (C61_rest_partial keep flt flit default_ctx (conj eq_refl (conj eq_refl eq_refl)) "" de_row root_module de_r7 _ W NN IS NE L SO NR). discriminate.
Qed.
Example C62_nontrivial : forall flt flit, exists root', leaves keep flt flit default_ctx ("" ++ row_text de_row ++ "struct Z { long a; long a; };") root_module root' (Fail Throw) /\ keeps de_r7 root'.
Proof.
  intros flt flit. assert (X : exists root', leaves keep flt flit default_ctx "struct Z { long a; long a; };" de_r7 root' (Fail Throw)) by (eexists; left_behind).
  destruct X as [root' X]. exists root'. apply C61_instance in X. split; [exact X|].
  destruct (C61_hypotheses "struct Z { long a; long a; };" (or_introl eq_refl)) as (W & NN & IS & NE & L & SO & NR).
  exact (C62_before_partial keep flt flit default_ctx (conj eq_refl (conj eq_refl eq_refl)) "" de_row root_module de_r7 _ W NN IS NE L SO NR root' Throw X).
Qed.
Example C61_nontrivial : forall fc flt flit, exists known root', leaves fc flt flit default_ctx "struct A { long x; }; " root_module known (Ok true) /\
  leaves fc flt flit default_ctx "struct B : A { A y; }; const long N = 2;" known root' (Ok true) /\ leaves fc flt flit default_ctx "struct A { long x; }; struct B : A { A y; }; const long N = 2;" root_module root' (Ok true).
Proof. intros fc flt flit. do 2 eexists. split; [left_behind|]. split; left_behind. Qed.
(** A parse that throws does not undo what it did: the declarations before the error stay, the struct in error stays without
    members, and the corrected text is refused. *)
Theorem C62_undone_refuted : forall fc flt flit, exists root, leaves fc flt flit default_ctx "struct A { long x; }; struct B { A y; A y; };" root_module root (Fail Throw) /\
  entry root [] Structs "A" = Some (TStruct "A" 4 [("x", 0%N, TPrim PI32)]) /\ entry root [] Structs "B" = Some (TStruct "B" 0 []) /\
  leaves fc flt flit default_ctx "struct A { long x; }; struct B { A y; };" root root (Fail Throw).
Proof. intros fc flt flit. eexists. split; [left_behind|]. split; [reflexivity|]. split; [reflexivity|]. left_behind. Qed.
(** The struct in error may also stay with some of its members: those before the one that its parent has already. *)
Theorem C62_half_refuted : forall fc flt flit, exists root sz, leaves fc flt flit default_ctx "struct A { long x; }; struct C : A { long z; long x; long w; };" root_module root (Fail Assert) /\
  entry root [] Structs "C" = Some (TStruct "C" sz [("x", 0%N, TPrim PI32); ("z", 4%N, TPrim PI32)]).
Proof. intros fc flt flit. do 2 eexists. split; [left_behind|]. reflexivity. Qed.

Print Assumptions C61_rest_partial.
Print Assumptions C61_first_partial.
Print Assumptions C61_syntax_partial.
Print Assumptions C62_before_partial.
Print Assumptions C62_no_idl.
Print Assumptions C62_undone_refuted.
Print Assumptions C62_half_refuted.
