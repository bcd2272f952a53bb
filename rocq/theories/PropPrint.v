(** C51: the text of a value (to_string). *)
From Verif Require Import Base Types TypeBuild TypeSpec Mem MemSpec TyInd Layout CompatFacts2 MemEqns MemFacts
  EnumFacts ConstructFacts CopyFacts CompareFacts Ops OpsSpec UnionFacts SeqFacts CollectFacts NumSpec NumFacts
  Hash HashSpec MapOps MapSpec MapValue MapFacts PathFacts Realize Prog ProgSpec ProgFacts ValueSpec ValueFacts DataSpec DataFacts Visit VisitSpec Print PrintSpec PrintFacts PrintInj PropTypes PropData PropVisit.
Local Open Scope string_scope.

(** ** to_string gives the text of the value: a line for every element in preorder, indented by its level, with the name
    or the index under which its parent has it, its type and, for a scalar, its value. *)
Theorem C51_text : forall flo conv d v, holds d v -> print flo conv (d_type d) (d_mem d) 0 = shown flo conv (d_type d) v 0 "".
Proof. intros flo conv d v Hh. pose proof (holds_good _ _ Hh) as Hg. destruct Hh as (_ & _ & Hr & L & R). apply print_spec; assumption. Qed.
(** The number in the text is the number of the element. *)
Theorem C51_number : forall p bs, N.of_nat (List.length bs) = prim_size p -> Forall (fun y => (y < 256)%N) bs -> number p bs (as_number p bs).
Proof. exact as_number_ok. Qed.

(** ** It always succeeds, provided that every union has an active member and that there are no wide characters. *)
Fixpoint narrow (t : ty) : Prop :=
  match t with
  | TPrim p => p <> PC16 /\ p <> PWC
  | TStr k _ => k = SK8
  | TEnum _ _ _ => True
  | TArr _ c _ | TSeq c _ | TAlias _ c => narrow c
  | TMap x y _ | TPair x y => narrow x /\ narrow y
  | TStruct _ _ ms | TUnion _ _ ms _ _ _ _ =>
      (fix go (ms : list (string * N * ty)) : Prop := match ms with [] => True | (_, _, mt) :: r => narrow mt /\ go r end) ms
  end.
Lemma narrow_in : forall ms, (fix go (ms : list (string * N * ty)) : Prop := match ms with [] => True | (_, _, mt) :: r => narrow mt /\ go r end) ms -> Forall (fun m => narrow (m_type m)) ms.
Proof. induction ms as [|[[mn mo] mt] r IH]; intros H; constructor; [apply H|apply IH, H]. Qed.
Lemma elements_ok F (P : value -> Prop) : (forall i v, P v -> exists x, F i v = Ok x) -> forall l i, Forall P l -> exists x, elements F l i = Ok x.
Proof.
  intros HF. induction l as [|v l IH]; intros i H; [eexists; reflexivity|]. inversion H; subst. destruct (HF i v) as (x & E); [assumption|]. destruct (IH (S i)) as (y & E'); [assumption|].
  cbn [elements]. rewrite E, E'. eexists. reflexivity.
Qed.
Lemma full_all l : full (VNode l) -> Forall full l.
Proof. intros H. apply Forall_forall. intros x Hx. apply In_nth_error in Hx as (i & E). eapply full_nth; eassumption. Qed.
Lemma shown_ok flo conv t : good t -> narrow t -> forall v d f, wf_value t v -> full v -> exists x, shown flo conv t v d f = Ok x.
Proof.
  induction t as [p|nm sz vals|k bd|nm c n IHc|c bd IHc|k w bd IHk IHw|x y IHx IHy|nm s ms IHms|nm s ms labels dv iv d0 IHms|nm a IHa]
    using ty_ind'; intros Hg Hn v d f W F; cbn [wf_value] in W; cbn [shown].
  - destruct v as [bs| | |]; try contradiction W. cbn [narrow] in Hn. destruct Hn. destruct p; try congruence; eexists; reflexivity.
  - eexists; reflexivity.
  - destruct v; try contradiction W. cbn [narrow] in Hn. subst k. eexists; reflexivity.
  - destruct v as [| |l|]; try contradiction W. destruct W as [_ W].
    destruct (elements_ok (fun i x => shown flo conv c x (S d) (by_index i)) (fun v => wf_value c v /\ full v) ltac:(intros i v [? ?]; eapply IHc; eauto using good_arr) l 0 ltac:(apply Forall_both; [assumption|apply full_all, F])) as (x & ->). eexists; reflexivity.
  - destruct v as [| |l|]; try contradiction W. destruct W as [_ W].
    destruct (elements_ok (fun i x => shown flo conv c x (S d) (by_index i)) (fun v => wf_value c v /\ full v) ltac:(intros i v [? ?]; eapply IHc; eauto using good_seq) l 0 ltac:(apply Forall_both; [assumption|apply full_all, F])) as (x & ->). eexists; reflexivity.
  - destruct (good_map _ _ _ Hg) as [Gk Gw]. destruct Hn as [Nk Nw]. destruct v as [| |l|]; try contradiction W. destruct W as [_ W].
    match goal with |- context [elements ?F l 0] => destruct (elements_ok F (fun e => match e with VNode [x; y] => wf_value k x /\ wf_value w y | _ => False end /\ full e)) with (l := l) (i := 0%nat) as (x & ->) end;
      [|apply Forall_both; [assumption|apply full_all, F]|eexists; reflexivity].
    intros i e [We Fe]. destruct e as [| |[|x [|y [|? ?]]]|]; try contradiction We. destruct We as [Wx Wy]. cbn [full] in Fe. destruct Fe as (Fx & Fy & _).
    destruct (IHk Gk Nk x (S (S d)) (by_index 0) Wx Fx) as (? & ->). destruct (IHw Gw Nw y (S (S d)) (by_index 1) Wy Fy) as (? & ->). eexists; reflexivity.
  - destruct (good_pair _ _ Hg) as [Gx Gy]. destruct Hn as [Nx Ny]. destruct v as [| |[|a [|b [|? ?]]]|]; try contradiction W. destruct W as [Wx Wy]. cbn [full] in F. destruct F as (Fx & Fy & _).
    destruct (IHx Gx Nx a (S d) (by_index 0) Wx Fx) as (? & ->). destruct (IHy Gy Ny b (S d) (by_index 1) Wy Fy) as (? & ->). eexists; reflexivity.
  - destruct v as [| |l|]; try contradiction W.
    assert (GM : Forall (fun m => good (m_type m)) ms) by (apply Forall_forall; intros m Hm; eapply good_struct; eassumption). cbn [narrow] in Hn. apply narrow_in in Hn. apply full_all in F. clear Hg.
    match goal with |- context [bind ?X _] => assert (Q : exists x, X = Ok x) end; [|destruct Q as (? & ->); eexists; reflexivity].
    revert l W F. induction ms as [|[[mn mo] mt] r IH]; intros [|v l] W F; try contradiction W; [eexists; reflexivity|].
    inversion IHms; subst. inversion GM; subst. inversion Hn; subst. inversion F; subst. destruct W as [W1 W2]. cbn [m_type snd] in *.
    match goal with H : good mt -> _ |- _ => destruct (H ltac:(assumption) ltac:(assumption) v (S d) (by_name mn) W1 ltac:(assumption)) as (? & ->) end.
    destruct (IH ltac:(assumption) ltac:(assumption) ltac:(assumption) l W2 ltac:(assumption)) as (? & ->). eexists; reflexivity.
  - destruct (good_union_inv _ _ _ _ _ _ _ Hg) as (dn & disc & cs & -> & Gd & Hc & _). cbn [narrow] in Hn. apply (narrow_in ((dn, 0%N, disc) :: cs)) in Hn.
    destruct v as [| | |dv1 mv]; try contradiction W. destruct W as (Wd & l & El & W).
    destruct (lookup_label l labels) as [a|] eqn:A; [|subst mv; contradiction F]. destruct mv as [w|]; [|contradiction W]. cbn [full] in F. rewrite El, A.
    destruct (u_label _ _ _ _ _ _ _ _ _ Hg _ _ A) as (m & Fm). destruct (u_member _ _ _ _ _ _ _ _ _ Hg _ _ Fm) as (F1' & In1 & Nm1 & _ & _ & Hgm).
    rewrite (shown_select flo conv _ _ _ _ _ _ _ Fm). pose proof (wf_select _ _ _ _ F1' W) as V. rewrite Forall_forall in IHms, Hn.
    destruct (IHms m ltac:(right; exact In1) Hgm (Hn m ltac:(right; exact In1)) w (S d) (by_name (m_name m)) V F) as (? & ->). eexists; reflexivity.
  - apply IHa; assumption.
Qed.
Theorem C51_prints_partial : forall flo conv d v, holds d v -> narrow (d_type d) -> full v -> exists s, print flo conv (d_type d) (d_mem d) 0 = Ok s.
Proof.
  intros flo conv d v Hh Hn Hf. rewrite (C51_text flo conv d v Hh). pose proof (holds_good _ _ Hh) as Hg. destruct Hh as (_ & _ & _ & L & R).
  apply shown_ok; try assumption. eapply live_wf_value; eassumption.
Qed.
(** A wchar_t is read as a char16_t (DynamicDataImpl.hpp:147-154): the check of the type fails; so does the visit of a union
    without active member. *)
Theorem C51_prints_refuted : forall flo conv,
  (exists d, new_data (TPrim PWC) = Ok d /\ print flo conv (d_type d) (d_mem d) 0 = Fail Assert) /\
  (exists d, new_data exd_nodef = Ok d /\ print flo conv (d_type d) (d_mem d) 0 = Fail Assert).
Proof. intros flo conv. split; eexists; (split; [vm_compute; reflexivity|vm_compute; reflexivity]). Qed.

(** ** Two data of one type with the same text hold the same value.  Missing for the full property: [legible] (no
    enumerations, floating point numbers, wide characters and strings; strings without line breaks; unions whose cases have
    one label); the first and the last two are refuted below. *)
Theorem C51_told_partial : forall flo conv x y v w s, holds x v -> holds y w -> d_type x = d_type y -> legible (d_type x) v -> legible (d_type y) w ->
  print flo conv (d_type x) (d_mem x) 0 = Ok s -> print flo conv (d_type y) (d_mem y) 0 = Ok s -> v = w.
Proof.
  intros flo conv x y v w s Hx Hy Ht Lv Lw Px Py. rewrite (C51_text _ _ _ _ Hx) in Px. rewrite (C51_text _ _ _ _ Hy) in Py. pose proof (holds_good _ _ Hx) as Gx. pose proof (holds_good _ _ Hy) as Gy.
  destruct Hx as (_ & _ & _ & L1 & R1). destruct Hy as (_ & _ & _ & L2 & R2).
  pose proof (live_wf_value _ Gx _ _ _ L1 R1) as W1. pose proof (live_wf_value _ Gy _ _ _ L2 R2) as W2. rewrite <- Ht in *.
  exact (proj1 (shown_told flo conv _ Gx v w 0%nat "" s s "" "" W1 W2 Lv Lw Px Py eq_refl)).
Qed.
(** Different enumerators; strings with line breaks; two labels of one case. *)
Definition pr_enum : ty := enum_type (fst (add_enumerator (fst (add_enumerator (enum_new "E" 4) "A" 0)) "B" 1)).
Definition pr_strings : ty := mk_array (TStr SK8 0) 2.
Definition pr_chars (s : string) : list N := map Ascii.N_of_ascii (list_ascii_of_string s).
Definition pr_union : ty :=
  match union_new "U" (TPrim PI32) with Ok u => match add_case_member u [1%Z; 2%Z] "m" (TPrim PU16) false with (u', _) => u' end | Fail _ => TPrim PBool end.
Theorem C51_told_refuted : forall flo conv fc,
  (exists x y s, new_data pr_enum = Ok x /\ after fc pr_enum [] (ScPrim PU32 [1; 0; 0; 0]%N) = Ok y /\ data_eq x y = Ok false /\
     print flo conv (d_type x) (d_mem x) 0 = Ok s /\ print flo conv (d_type y) (d_mem y) 0 = Ok s) /\
  (exists x y s, after fc pr_strings [SIdx 0] (ScStr SK8 (pr_chars ("a" ++ PrintSpec.NL ++ "    [1] <std::string>  b"))) = Ok x /\
     (do d <- after fc pr_strings [SIdx 0] (ScStr SK8 (pr_chars "a")); do r <- run_on fc sh0 d [SIdx 1] (writing (set_value fc (ScStr SK8 (pr_chars ("b" ++ PrintSpec.NL ++ "    [1] <std::string>  "))))); Ok (snd r)) = Ok y /\
     data_eq x y = Ok false /\ print flo conv (d_type x) (d_mem x) 0 = Ok s /\ print flo conv (d_type y) (d_mem y) 0 = Ok s).
Proof.
  intros flo conv fc. split; (eexists; eexists; eexists; split; [vm_compute; reflexivity|split; [vm_compute; reflexivity|split; [vm_compute; reflexivity|split; vm_compute; reflexivity]]]).
Qed.
(** Two labels of one case: only the active member is shown. *)
Theorem C51_union_told_refuted : forall flo conv fc, exists x y s,
  (do d <- new_data pr_union; do r <- run_on fc sh0 d [] (writing (set_disc 1)); Ok (snd r)) = Ok x /\
  (do d <- new_data pr_union; do r <- run_on fc sh0 d [] (writing (set_disc 2)); Ok (snd r)) = Ok y /\
  data_eq x y = Ok false /\ print flo conv (d_type x) (d_mem x) 0 = Ok s /\ print flo conv (d_type y) (d_mem y) 0 = Ok s.
Proof. intros flo conv fc. eexists. eexists. eexists. split; [vm_compute; reflexivity|]. split; [vm_compute; reflexivity|]. split; [vm_compute; reflexivity|]. split; vm_compute; reflexivity. Qed.

(** ** A value that meets the hypotheses: struct with a sequence of strings, an array, a union. *)
Example C51_nontrivial : exists d, holds d exd_final /\ d_type d = exd_type /\ narrow exd_type /\ full exd_final /\
  print (fun _ _ => "") (fun _ => Ok "") (d_type d) (d_mem d) 0 = Ok
"Structure: <D>
    [n] <uint32_t>  0
    [q] <sequence_3_std::string_4[1]>
        [0] <std::string_4>  hi
    [a] <array_2_int16_t>
        [0] <int16_t>  0
        [1] <int16_t>  261
    [u] Unsupported type: U
        [x] <std::string_4>  abcd
".
Proof.
  destruct C08_nontrivial as (d & Hh & Ht). exists d. split; [exact Hh|]. split; [exact Ht|]. split; [vm_compute; repeat split; congruence|]. split; [vm_compute; tauto|].
  rewrite (C51_text _ _ _ _ Hh), Ht. vm_compute. reflexivity.
Qed.
Definition pr_u : ty :=
  match union_new "U" (TPrim PI32) with Ok u => fst (add_case_member (fst (add_case_member u [1%Z] "m" (TPrim PU16) false)) [] "s" (TStr SK8 0) true) | Fail _ => TPrim PBool end.
Definition pr_type : ty := fst (add_member (fst (add_member (fst (add_member (fst (add_member (TStruct "D" 0 []) "b" (TPrim PBool))) "a" (mk_array (TStr SK8 0) 2))) "m" (TMap (TPrim PI8) (TPrim PI64) 0))) "u" pr_u).
Example C51_told_nontrivial : exists d, new_data pr_type = Ok d /\ holds d (default_value pr_type) /\ d_type d = pr_type /\ legible pr_type (default_value pr_type) /\
  print (fun _ _ => "") (fun _ => Ok "") (d_type d) (d_mem d) 0 = Ok
"Structure: <D>
    [b] <bool>  0
    [a] <array_2_std::string>
        [0] <std::string>  
        [1] <std::string>  
    [m] <map_pair_int8_t_int64_t[0]>
    [u] Unsupported type: U
        [s] <std::string>  
".
Proof.
  assert (Hu : union_built pr_u).
  { unfold pr_u. cbn [union_new check_discriminator rget bind assert_]. eapply ub_add; [|apply (at_str SK8 0); reflexivity|apply surjective_pairing].
    eapply ub_add; [|apply (at_prim PU16)|apply surjective_pairing]. apply (ub_new "U"%string (TPrim PI32)); [apply at_prim|reflexivity]. }
  assert (Hs : struct_built pr_type).
  { unfold pr_type. repeat (apply built_add; [| |vm_compute; reflexivity]); [apply sb_new|apply at_prim|apply at_arr; [apply at_str; reflexivity|reflexivity]|apply at_map; [apply at_prim|apply at_prim|reflexivity]|apply at_union, Hu]. }
  assert (Ho : ok_ty pr_type) by (vm_compute; repeat split; congruence).
  destruct (new_holds pr_type (at_struct _ Hs) Ho) as (d & E & Ht & Hh & _).
  exists d. split; [exact E|]. split; [exact Hh|]. split; [exact Ht|]. split; [|rewrite (C51_text _ _ _ _ Hh), Ht; vm_compute; reflexivity].
  vm_compute. split; [left; reflexivity|]. split; [repeat constructor|]. split; [constructor|]. split; [|exact I].
  split; [repeat constructor; cbn; intuition discriminate|]. split; [repeat constructor; discriminate|constructor].
Qed.

Print Assumptions C51_text.
Print Assumptions C51_number.
Print Assumptions C51_prints_partial.
Print Assumptions C51_prints_refuted.
Print Assumptions C51_told_partial.
Print Assumptions C51_told_refuted.
Print Assumptions C51_union_told_refuted.
