(** for_each of DynamicType. *)
From Verif Require Import Base Types TypeBuild Mem Visit.

(** DynamicType::TypeNode (DynamicType.hpp:95-180). *)
Inductive tnode := TNode (parent : option tnode) (type : ty) (deep : nat) (index : N) (member : option string).
Definition tn_parent (n : tnode) := match n with TNode p _ _ _ _ => p end.
Definition tn_type (n : tnode) := match n with TNode _ t _ _ _ => t end.
Definition tn_deep (n : tnode) := match n with TNode _ _ d _ _ => d end.
Definition tn_index (n : tnode) := match n with TNode _ _ _ i _ => i end.
Definition tn_member (n : tnode) := match n with TNode _ _ _ _ m => m end.
(** The two constructors. *)
Definition root_tnode (t : ty) : tnode := TNode None t 0 0 None.
Definition child_tnode (p : tnode) (t : ty) (i : N) (m : option string) : tnode := TNode (Some p) t (S (tn_deep p)) i m.
(** The member of the children of a pair (PairType.hpp:181-189). *)
Definition pair_member (n : tnode) : option string :=
  match tn_member n with Some m => Some m | None => match tn_parent n with Some p => tn_member p | None => None end end.

Section Each.
  Context {S : Type}.
  (** The user's function: its state and, if it throws a bool, the bool. *)
  Variable visitor : S -> tnode -> S * option bool.
  Definition tcall (n : tnode) (s : S) : visit S :=
    match visitor s n with (s', None) => VDone s' | (s', Some x) => VStop s' x end.
  (** for_each_type of every type on the node [n]. *)
  Fixpoint each_type (t : ty) (n : tnode) (s : S) {struct t} : visit S :=
    match t with
    (* PrimitiveType.hpp:271-276 (inherited by the enumerations), StringType.hpp:159-164 *)
    | TPrim _ | TEnum _ _ _ | TStr _ _ => tcall n s
    (* ArrayType.hpp:275-282, SequenceType.hpp:198-205 *)
    | TArr _ c _ | TSeq c _ => and_then (tcall n s) (each_type c (child_tnode n c 0 None))
    (* MapType.hpp:211-218; the content type is a PairType, PairType.hpp:176-194 *)
    | TMap k v _ =>
        let c := child_tnode n (TPair k v) 0 None in
        and_then (tcall n s) (fun s => and_then (tcall c s) (fun s =>
        and_then (each_type k (child_tnode c k 0 (pair_member c)) s) (each_type v (child_tnode c v 1 (pair_member c)))))
    (* PairType.hpp:176-194 *)
    | TPair x y =>
        and_then (tcall n s) (fun s => and_then (each_type x (child_tnode n x 0 (pair_member n)) s) (each_type y (child_tnode n y 1 (pair_member n))))
    (* StructType.hpp:254-265, UnionType.hpp:437-448 *)
    | TStruct _ _ ms | TUnion _ _ ms _ _ _ _ =>
        and_then (tcall n s)
          ((fix go (l : list (string * N * ty)) (i : N) (s : S) : visit S :=
              match l with
              | [] => VDone s
              | (mn, _, mt) :: r => and_then (each_type mt (child_tnode n mt i (Some mn)) s) (go r (i + 1))
              end) ms 0)
    (* AliasType.hpp:130-135: the node stays the one of the alias *)
    | TAlias _ a => each_type a n s
    end.
End Each.
(** DynamicType::for_each (DynamicType.hpp:201-211). *)
Definition type_for_each {S} (visitor : S -> tnode -> S * option bool) (t : ty) (s : S) : res (S * bool) :=
  match each_type visitor t (root_tnode t) s with VDone s' => Ok (s', true) | VStop s' x => Ok (s', x) | VFail _ e => Fail e end.
(** The visitor that records the nodes. *)
Definition trecorder (s : list tnode) (n : tnode) : list tnode * option bool := (s ++ [n], None).
