(** Histories of calls on one sequence, as a client sees them. *)
From Verif Require Import Base Types TypeBuild TypeSpec Mem MemSpec Ops OpsSpec DataSpec.

(** push(other), push(value), resize(n). *)
Inductive seq_call := CPush (e : data) | CPushVal (x : scalar) | CResize (n : N).

Section Calls.
  Variable fc : prim -> prim -> list N -> list N.
  Variable strhash : skind -> list N -> N.

  (** A client that goes on after a refused call: the checks of push and resize come before any modification
      (DynamicData.hpp:1033-1087), so a refused call leaves the data as it was. *)
  Definition call_seq (d : data) (o : seq_call) : res data :=
    let r := match o with
             | CPush e => run_on fc strhash d [] (writing (push fc (d_mem e) 0))
             | CPushVal x => run_on fc strhash d [] (writing (push_scalar fc x))
             | CResize n => run_on fc strhash d [] (writing (resize fc n))
             end in
    match r with Ok x => Ok (snd x) | Fail Assert => Ok d | Fail e => Fail e end.
  Fixpoint calls_seq (d : data) (l : list seq_call) : res data :=
    match l with [] => Ok d | o :: r => do d1 <- call_seq d o; calls_seq d1 r end.
End Calls.

(** ** The specification: lists *)
Inductive list_call := LPush (w : value) | LResize (n : N).
(** push appends unless the bound is reached; resize appends default elements, never removes any, and does nothing
    when the requested size is above the bound. *)
Definition list_step (c : ty) (bd : N) (l : list value) (o : list_call) : list value :=
  match o with
  | LPush w => if (bd =? 0) || (N.of_nat (List.length l) <? bd) then l ++ [w] else l
  | LResize n => if (bd =? 0) || (n <=? bd) then l ++ repeat (default_value c) (N.to_nat n - List.length l) else l
  end.
Definition list_run (c : ty) (bd : N) (l : list value) (os : list list_call) : list value := fold_left (list_step c bd) os l.
(** What a call means for a sequence of [c]: the pushed data has the type of the elements (and if it contains unions
    outside sequences and maps, they have an active member). *)
Definition means (c : ty) (o : seq_call) (a : list_call) : Prop :=
  match o, a with
  | CPush e, LPush w => holds e w /\ d_type e = rget c /\ vselected c w
  | CPushVal x, LPush w => match c with TPrim _ | TStr _ _ => scalar_ok c x | _ => False end /\ w = scalar_value c x
  | CResize n, LResize m => n = m
  | _, _ => False
  end.

(** ** Components *)
(** [w], of type [T], is [v] itself or a component of [v] at any depth: array, sequence and struct elements, keys and
    values of maps, halves of pairs, the discriminator and the active member of unions. *)
Inductive inside : ty -> value -> ty -> value -> Prop :=
| in_here t v : inside t v t v
| in_arr nm c n l x T w : In x l -> inside c x T w -> inside (TArr nm c n) (VNode l) T w
| in_seq c bd l x T w : In x l -> inside c x T w -> inside (TSeq c bd) (VNode l) T w
| in_key k v bd l x y T w : In (VNode [x; y]) l -> inside k x T w -> inside (TMap k v bd) (VNode l) T w
| in_val k v bd l x y T w : In (VNode [x; y]) l -> inside v y T w -> inside (TMap k v bd) (VNode l) T w
| in_fst a c x y T w : inside a x T w -> inside (TPair a c) (VNode [x; y]) T w
| in_snd a c x y T w : inside c y T w -> inside (TPair a c) (VNode [x; y]) T w
| in_struct nm s ms l i m x T w : nth_error ms i = Some m -> nth_error l i = Some x -> inside (m_type m) x T w ->
    inside (TStruct nm s ms) (VNode l) T w
| in_disc nm s dn o disc cs labels dv iv d dv0 mv T w : inside disc dv0 T w ->
    inside (TUnion nm s ((dn, o, disc) :: cs) labels dv iv d) (VUnion dv0 mv) T w
| in_case nm s dn o disc cs labels dv iv d dv0 x l a m T w : label_of disc dv0 = Some l -> lookup_label l labels = Some a ->
    find_member a ((dn, o, disc) :: cs) = Some m -> inside (m_type m) x T w ->
    inside (TUnion nm s ((dn, o, disc) :: cs) labels dv iv d) (VUnion dv0 (Some x)) T w
| in_alias nm a v T w : inside a v T w -> inside (TAlias nm a) v T w.
(** The memory block [m] has exactly [n] bytes. *)
Definition allocated (m : block) (n : N) : Prop := forall j, at_ m j <> CNone <-> j < n.
