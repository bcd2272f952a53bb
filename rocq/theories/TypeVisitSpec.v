(** The types a type is made of, as a tree. *)
From Verif Require Import Base Types TypeBuild TypeVisit.

(** The types used by a type, with the name of the member, for a struct or union (the first member of a union is its
    discriminator); a map is a collection of pairs; an alias is made of what its type is made of. *)
Fixpoint parts_of (t : ty) : list (option string * ty) :=
  match t with
  | TPrim _ | TEnum _ _ _ | TStr _ _ => []
  | TArr _ c _ | TSeq c _ => [(None, c)]
  | TMap k v _ => [(None, TPair k v)]
  | TPair x y => [(None, x); (None, y)]
  | TStruct _ _ ms | TUnion _ _ ms _ _ _ _ => map (fun m => (Some (m_name m), m_type m)) ms
  | TAlias _ a => parts_of a
  end.
(** [part t ns T]: going down from [t] along the positions [ns] leads to [T]. *)
Inductive part : ty -> list nat -> ty -> Prop :=
| pa_here t : part t [] t
| pa_down t i nm c ns T : nth_error (parts_of t) i = Some (nm, c) -> part c ns T -> part t (i :: ns) T.
(** [shows t ns T n]: the node [n] shows the part [T] at [ns] of [t]: the type, the depth, the index and the member through
    which its parent leads to it, and its parent shows the part one level up. *)
Inductive shows (t : ty) : list nat -> ty -> tnode -> Prop :=
| sh_root n : tn_parent n = None -> tn_type n = t -> tn_deep n = 0%nat -> tn_index n = 0 -> tn_member n = None -> shows t [] t n
| sh_child ns T p i nm T' n : shows t ns T p -> nth_error (parts_of T) i = Some (nm, T') ->
    tn_parent n = Some p -> tn_type n = T' -> tn_deep n = S (List.length ns) -> tn_index n = N.of_nat i -> (nm <> None -> tn_member n = nm) ->
    shows t (ns ++ [i]) T' n.
