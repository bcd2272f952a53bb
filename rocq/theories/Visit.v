(** for_each and the iterators of DynamicData. *)
From Verif Require Import Base Types TypeBuild Mem Ops MapOps.

(** InstanceNode (Instanceable.hpp:91-129).  The instance is a place in a block. *)
Inductive node := Node (parent : option node) (type : ty) (blk : block) (off : N) (deep : nat) (index : N) (member : option string).
Definition n_parent (n : node) := match n with Node p _ _ _ _ _ _ => p end.
Definition n_type (n : node) := match n with Node _ t _ _ _ _ _ => t end.
Definition n_blk (n : node) := match n with Node _ _ b _ _ _ _ => b end.
Definition n_off (n : node) := match n with Node _ _ _ o _ _ _ => o end.
Definition n_deep (n : node) := match n with Node _ _ _ _ d _ _ => d end.
Definition n_index (n : node) := match n with Node _ _ _ _ _ i _ => i end.
Definition n_member (n : node) := match n with Node _ _ _ _ _ _ m => m end.
(** The two constructors, Instanceable.hpp:100-127. *)
Definition root_node (t : ty) (b : block) (off : N) : node := Node None t b off 0 0 None.
Definition child_node (p : node) (t : ty) (b : block) (off i : N) (m : option string) : node := Node (Some p) t b off (S (n_deep p)) i m.

(** How a visit ends, with the state of the visitor at that moment: completed, the visitor threw a bool, a check
    failed. *)
Inductive visit (S : Type) := VDone (s : S) | VStop (s : S) (x : bool) | VFail (s : S) (e : err).
Arguments VDone {S}. Arguments VStop {S}. Arguments VFail {S}.

Section Each.
  Context {S : Type}.
  (** The user's function: its state and, if it throws a bool, the bool.
      Simplification: it does not modify the visited instance. *)
  Variable visitor : S -> node -> S * option bool.

  Definition and_then (x : visit S) (f : S -> visit S) : visit S := match x with VDone s => f s | _ => x end.
  Definition call (n : node) (s : S) : visit S :=
    match visitor s n with (s', None) => VDone s' | (s', Some x) => VStop s' x end.
  (** for (i = 0; i < n; i++) *)
  Fixpoint loop (n : nat) (i : N) (f : N -> S -> visit S) (s : S) : visit S :=
    match n with O => VDone s | Datatypes.S n' => and_then (f i s) (loop n' (i + 1) f) end.

  (** for_each_instance of every type on the node [n], whose type is [t]. *)
  Fixpoint each (t : ty) (n : node) (s : S) {struct t} : visit S :=
    let b := n_blk n in
    let off := n_off n in
    match t with
    (* PrimitiveType.hpp:264-269 (inherited by the enumerations), StringType.hpp:152-157 *)
    | TPrim _ | TEnum _ _ _ | TStr _ _ => call n s
    (* ArrayType.hpp:262-273 *)
    | TArr _ c k =>
        and_then (call n s) (loop (N.to_nat k) 0 (fun i => each c (child_node n c b (off + i * msize c) i None)))
    (* SequenceType.hpp:185-196, SequenceInstance.hpp:192-198 *)
    | TSeq c _ =>
        match at_ b off with
        | CSeq c' _ size m =>
            if intact b off SZ_SEQ
            then and_then (call n s) (loop (N.to_nat size) 0 (fun i => each c (child_node n c m (wrap32 (i * wrap32 (msize c'))) i None)))
            else VFail s UB
        | _ => VFail s UB
        end
    (* MapType.hpp:198-209, MapInstance.hpp:169-173, 436-439; the content type is a PairType, PairType.hpp:196-214 *)
    | TMap k v _ =>
        match at_ b off with
        | CMap k' v' _ size m =>
            if intact b off SZ_MAP
            then and_then (call n s) (loop (N.to_nat size) 0 (fun i s =>
                   let c := child_node n (TPair k v) m (i * map_bs k' v') i None in
                   let fm := n_member n in
                   and_then (call c s) (fun s =>
                   and_then (each k (child_node c k m (i * map_bs k' v') 0 fm) s)
                            (each v (child_node c v m (i * map_bs k' v' + msize k) 1 fm)))))
            else VFail s UB
        | _ => VFail s UB
        end
    (* PairType.hpp:196-214 *)
    | TPair x y =>
        let fm := match n_member n with Some m => Some m | None => match n_parent n with Some p => n_member p | None => None end end in
        and_then (call n s) (fun s =>
        and_then (each x (child_node n x b off 0 fm) s) (each y (child_node n y b (off + msize x) 1 fm)))
    (* StructType.hpp:241-252 *)
    | TStruct _ _ ms =>
        and_then (call n s)
          ((fix go (l : list (string * N * ty)) (i : N) (s : S) : visit S :=
              match l with
              | [] => VDone s
              | (mn, mo, mt) :: r => and_then (each mt (child_node n mt b (off + mo) i (Some mn)) s) (go r (i + 1))
              end) ms 0)
    (* UnionType.hpp:419-435; the int64_t label becomes a size_t *)
    | TUnion _ _ ms labels _ _ _ =>
        match ms with
        | [] => VFail s UB
        | (_, _, disc) :: _ =>
            match get_label disc b off with
            | Fail e => VFail s e
            | Ok l =>
                match lookup_label l labels with
                | None => VFail s Assert
                | Some nm =>
                    (fix go (x : list (string * N * ty)) : visit S :=
                       match x with
                       | [] => VFail s UB
                       | (mn, mo, mt) :: r =>
                           if String.eqb nm mn
                           then and_then (call n s) (each mt (child_node n mt b (off + mo) (Z.to_N (l mod 2 ^ 64)) (Some mn)))
                           else go r
                       end) ms
                end
            end
        end
    (* AliasType.hpp:105-111: *node.parent is a null reference at the root *)
    | TAlias _ a =>
        match n_parent n with
        | None => VFail s UB
        | Some p => each a (child_node p a b off (n_index n) (n_member n)) s
        end
    end.
End Each.

(** ReadableDynamicDataRef::for_each (DynamicData.hpp:408-424) on the reference ([t], [off] in [b]); a reference never
    has an alias type (DynamicData.hpp:624-652).  A failed check is not a bool and reaches the caller. *)
Definition for_each {S} (visitor : S -> node -> S * option bool) (t : ty) (b : block) (off : N) (s : S) : res (S * bool) :=
  match each visitor (rget t) (root_node (rget t) b off) s with
  | VDone s' => Ok (s', true)
  | VStop s' x => Ok (s', x)
  | VFail _ e => Fail e
  end.
(** The visitor that records the nodes. *)
Definition recorder (s : list node) (n : node) : list node * option bool := (s ++ [n], None).

(** for (auto&& x : ref): begin(), end(), != and ++ (DynamicData.hpp:427-515): the references in the order in which they
    are reached; get_instance_at: ArrayType.hpp:284-289, SequenceType.hpp:133-138, MapType.hpp:139-144.
    Simplification: not for strings. *)
Definition instance_at (t : ty) (b : block) (off i : N) : res (ty * block * N) :=
  match t with
  | TArr _ c n => Ok (rget c, b, off + i * msize c)
  | TSeq c _ =>
      match at_ b off with
      | CSeq c' _ size m =>
          if intact b off SZ_SEQ then if i <? size then Ok (rget c, m, wrap32 (i * wrap32 (msize c'))) else Fail Assert else Fail UB
      | _ => Fail UB
      end
  | TMap k v _ =>
      match at_ b off with
      | CMap k' v' _ _ m => if intact b off SZ_MAP then Ok (TPair k v, m, i * map_bs k' v') else Fail UB
      | _ => Fail UB
      end
  | _ => Fail Assert
  end.
Fixpoint iterate (n : nat) (i : N) (f : N -> res (ty * block * N)) : res (list (ty * block * N)) :=
  match n with O => Ok [] | S n' => do x <- f i; do r <- iterate n' (i + 1) f; Ok (x :: r) end.
Definition range_for (t : ty) (b : block) (off : N) : res (list (ty * block * N)) :=
  match t with
  | TArr _ _ _ | TSeq _ _ | TMap _ _ _ =>
      do n <- get_size t b off;
      match n with ONat n => iterate (N.to_nat n) 0 (instance_at t b off) | _ => Fail UB end
  | _ => Fail Assert
  end.
