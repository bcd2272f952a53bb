(** The elements of a value, as a tree. *)
From Coq Require Import Sorted.
From Verif Require Import Base Types TypeBuild Mem MemSpec Ops OpsSpec Visit.

(** [child T v i x nm T' w]: the [i]-th element of [v] : [T] is [w] : [T'] (aliases resolved); it is accessed with the
    index [x], for a struct or union also with the name [nm].  The only element of a union is the active member, its
    index is the value of the discriminator. *)
Inductive child : ty -> value -> nat -> N -> option string -> ty -> value -> Prop :=
| ch_arr nm c n l i w : nth_error l i = Some w -> child (TArr nm c n) (VNode l) i (N.of_nat i) None (rget c) w
| ch_seq c bd l i w : nth_error l i = Some w -> child (TSeq c bd) (VNode l) i (N.of_nat i) None (rget c) w
| ch_map k v bd l i w : nth_error l i = Some w -> child (TMap k v bd) (VNode l) i (N.of_nat i) None (TPair k v) w
| ch_first x y a c : child (TPair x y) (VNode [a; c]) 0 0 None (rget x) a
| ch_second x y a c : child (TPair x y) (VNode [a; c]) 1 1 None (rget y) c
| ch_struct nm s ms l i mn mo mt w : nth_error ms i = Some (mn, mo, mt) -> nth_error l i = Some w ->
    child (TStruct nm s ms) (VNode l) i (N.of_nat i) (Some mn) (rget mt) w
| ch_union nm s dn o disc cs labels dv iv d v0 w l a m :
    label_of disc v0 = Some l -> lookup_label l labels = Some a -> find_member a ((dn, o, disc) :: cs) = Some m ->
    child (TUnion nm s ((dn, o, disc) :: cs) labels dv iv d) (VUnion v0 (Some w)) 0 (Z.to_N (l mod 2 ^ 64)) (Some a) (rget (m_type m)) w.
(** [reach t v ns T w]: going down from [v] : [t] along the positions [ns] leads to [w] : [T]. *)
Inductive reach (t : ty) (v : value) : list nat -> ty -> value -> Prop :=
| re_root : reach t v [] t v
| re_child ns T w i x nm T' w' : reach t v ns T w -> child T w i x nm T' w' -> reach t v (ns ++ [i]) T' w'.
(** Every union has an active member. *)
Definition all_selected (t : ty) (v : value) : Prop := forall ns T dv, ~ reach t v ns T (VUnion dv None).

(** [stands_for t v ns n]: the node [n] shows the element at [ns] of [v] : [t]: its type, its value, the depth, the index
    and the member through which its parent leads to it, and its parent shows the element one level up. *)
Inductive stands_for (t : ty) (v : value) : list nat -> ty -> value -> node -> Prop :=
| sf_root n : n_parent n = None -> n_type n = t -> read t (n_blk n) (n_off n) = Ok v -> n_deep n = 0%nat -> n_index n = 0 -> n_member n = None ->
    stands_for t v [] t v n
| sf_child ns T w p i x nm T' w' n : stands_for t v ns T w p -> child T w i x nm T' w' ->
    n_parent n = Some p -> n_type n = T' -> read T' (n_blk n) (n_off n) = Ok w' -> n_deep n = S (List.length ns) -> n_index n = x ->
    (nm <> None -> n_member n = nm) ->
    stands_for t v (ns ++ [i]) T' w' n.

(** Preorder: an element comes before its own elements, and these from left to right. *)
Inductive before : list nat -> list nat -> Prop :=
| be_root i l : before [] (i :: l)
| be_left i j l l' : (i < j)%nat -> before (i :: l) (j :: l')
| be_down i l l' : before l l' -> before (i :: l) (i :: l').
