(** Specification of operations on values: what a statement on a reference means for the value the
    instance denotes.  Written without the memory model. *)
From Verif Require Import Base Types TypeBuild Mem MemSpec Ops HashSpec MapSpec.

Fixpoint replace_nth {A} (n : nat) (x : A) (l : list A) : list A :=
  match n, l with
  | _, [] => []
  | O, _ :: r => x :: r
  | S k, y :: r => y :: replace_nth k x r
  end.
Fixpoint member_index (nm : string) (ms : list (string * N * ty)) : option nat :=
  match ms with
  | [] => None
  | m :: r => if String.eqb nm (m_name m) then Some O else option_map S (member_index nm r)
  end.
(** The smallest label of a member. *)
Fixpoint first_label (nm : string) (ls : list (Z * string)) : option Z :=
  match ls with [] => None | (l, x) :: r => if String.eqb nm x then Some l else first_label nm r end.
(** The label a discriminator value stands for. *)
Definition label_of (disc : ty) (dv : value) : option Z :=
  match dv with VBytes bs => Some (shrink_label (Z.of_N (le_decode bs)) (msize disc)) | _ => None end.

(** One access on a value: a member by name (through a writable or a readable reference), an index, a map
    entry by key (created if absent), a map entry by key (must exist). *)
Inductive vstep := VName (nm : string) | VGet (nm : string) | VIdx (i : N) | VKey (kv : value) | VAt (kv : value).

(** The type of the element a path leads to. *)
Fixpoint path_ty (p : list vstep) (t : ty) : option ty :=
  match p with
  | [] => Some (rget t)
  | (VName nm | VGet nm) :: r =>
      match rget t with
      | TStruct _ _ ms | TUnion _ _ ms _ _ _ _ =>
          match find_member nm ms with Some m => path_ty r (m_type m) | None => None end
      | _ => None
      end
  | VIdx i :: r =>
      match rget t with
      | TArr _ c _ | TSeq c _ => path_ty r c
      | TPair x y => if i =? 0 then path_ty r x else path_ty r y
      | TStruct _ _ ms => match nth_error ms (N.to_nat i) with Some m => path_ty r (m_type m) | None => None end
      | _ => None
      end
  | (VKey _ | VAt _) :: r => match rget t with TMap _ v _ => path_ty r v | _ => None end
  end.

(** Apply [k] to the [i]-th element; [k] also returns a result. *)
Definition at_index {A} (i : nat) (k : value -> option (A * value)) (v : value) : option (A * value) :=
  match v with
  | VNode l =>
      match nth_error l i with
      | Some x => option_map (fun y => (fst y, VNode (replace_nth i (snd y) l))) (k x)
      | None => None
      end
  | _ => None
  end.
(** The value of member [nm] of type [t] after it has been named, when [act] is the active member and [mv] its
    value. *)
Definition keep_or_default (act : option string) (mv : option value) (nm : string) (t : ty) : value :=
  match act, mv with
  | Some a, Some x => if String.eqb a nm then x else default_value t
  | _, _ => default_value t
  end.
(** [size] elements of [c] can be requested from the 32-bit allocator. *)
Definition allocatable (c : ty) (size : N) : bool := (size * msize c <? 4294967296) && (size <=? 2147483648).
(** A sequence or map of [n] elements accepts [n'] elements: within the bound if there is one, otherwise limited
    only by what the allocator can be asked for. *)
Definition accepts (c : ty) (bd n' ask : N) : bool := if bd =? 0 then allocatable c ask else n' <=? bd.

Section Values.
  Variable strhash : skind -> list N -> N.

  (** The entries after key [kv] has been named: a new key gets the default value.  Undefined when the bound is
      reached or when another key of the map has the same hash. *)
  Definition touch_key (k v : ty) (bd : N) (kv : value) (l : list value) : option (list value) :=
    let n := N.of_nat (List.length l) in
    if ordered strhash k l then
      match key_pos kv l with
      | Some _ => Some l
      | None => if negb (collides strhash k kv l) && accepts (TPair k v) bd (n + 1) (2 * (n + 1))
                then Some (add_entry strhash k kv (default_value v) l) else None
      end
    else None.
  (** Apply [f] to the value of the entry of key [kv]. *)
  Definition at_key {A} (kv : value) (f : value -> option (A * value)) (l : list value) : option (A * value) :=
    match key_pos kv l with Some i => at_index i (at_index 1 f) (VNode l) | None => None end.

  (** [vmod p g t v]: the value [v] of type [t] after modifying the element at path [p] by [g]; [None] when the
      path does not exist.  Naming a union member that is not the active one through a writable reference makes
      it the active one, with a default value; through a readable reference it must be the active one.  In both
      cases the discriminator becomes the member's smallest label. *)
  Fixpoint vmod {A} (p : list vstep) (g : value -> option (A * value)) (t : ty) (v : value) : option (A * value) :=
    match p with
    | [] => g v
    | VName nm :: r =>
        match rget t with
        | TStruct _ _ ms =>
            match member_index nm ms, find_member nm ms with
            | Some i, Some m => at_index i (vmod r g (m_type m)) v
            | _, _ => None
            end
        | TUnion _ _ ((_, _, disc) :: cs) labels _ _ _ =>
            match v, find_member nm cs, first_label nm labels with
            | VUnion dv mv, Some m, Some l =>
                match label_of disc dv with
                | None => None
                | Some cur =>
                    option_map (fun y => (fst y, VUnion (label_bytes disc l) (Some (snd y))))
                      (vmod r g (m_type m) (keep_or_default (lookup_label cur labels) mv nm (m_type m)))
                end
            | _, _, _ => None
            end
        | _ => None
        end
    | VGet nm :: r =>
        match rget t with
        | TStruct _ _ ms =>
            match member_index nm ms, find_member nm ms with
            | Some i, Some m => at_index i (vmod r g (m_type m)) v
            | _, _ => None
            end
        | TUnion _ _ ((_, _, disc) :: cs) labels _ _ _ =>
            match v, find_member nm cs, first_label nm labels with
            | VUnion dv (Some w), Some m, Some l =>
                match label_of disc dv with
                | None => None
                | Some cur =>
                    match lookup_label cur labels with
                    | Some a =>
                        if String.eqb a nm
                        then option_map (fun y => (fst y, VUnion (label_bytes disc l) (Some (snd y)))) (vmod r g (m_type m) w)
                        else None
                    | None => None
                    end
                end
            | _, _, _ => None
            end
        | _ => None
        end
    | VIdx i :: r =>
        match rget t with
        | TArr _ c _ | TSeq c _ => at_index (N.to_nat i) (vmod r g c) v
        | TPair x y =>
            if i =? 0 then at_index 0 (vmod r g x) v
            else if i =? 1 then at_index 1 (vmod r g y) v else None
        | TStruct _ _ ms =>
            match nth_error ms (N.to_nat i) with
            | Some m => at_index (N.to_nat i) (vmod r g (m_type m)) v
            | None => None
            end
        | _ => None
        end
    | VKey kv :: r =>
        match rget t, v with
        | TMap k w bd, VNode l =>
            match touch_key k w bd kv l with Some l' => at_key kv (vmod r g w) l' | None => None end
        | _, _ => None
        end
    | VAt kv :: r =>
        match rget t, v with
        | TMap k w _, VNode l => if ordered strhash k l then at_key kv (vmod r g w) l else None
        | _, _ => None
        end
    end.
End Values.

(** The element at a path that goes through struct members, array and sequence elements, map entries and pair
    halves. *)
Fixpoint vget (p : list vstep) (t : ty) (v : value) : option value :=
  match p with
  | [] => Some v
  | (VName nm | VGet nm) :: r =>
      match rget t, v with
      | TStruct _ _ ms, VNode l =>
          match member_index nm ms, find_member nm ms with
          | Some i, Some m => match nth_error l i with Some x => vget r (m_type m) x | None => None end
          | _, _ => None
          end
      | _, _ => None
      end
  | VIdx i :: r =>
      match rget t, v with
      | (TArr _ c _ | TSeq c _), VNode l =>
          match nth_error l (N.to_nat i) with Some x => vget r c x | None => None end
      | TPair x y, VNode [a; b] => if i =? 0 then vget r x a else if i =? 1 then vget r y b else None
      | TStruct _ _ ms, VNode l =>
          match nth_error ms (N.to_nat i), nth_error l (N.to_nat i) with
          | Some m, Some x => vget r (m_type m) x
          | _, _ => None
          end
      | _, _ => None
      end
  | (VKey kv | VAt kv) :: r =>
      match rget t, v with
      | TMap _ w _, VNode l => match map_get kv l with Some x => vget r w x | None => None end
      | _, _ => None
      end
  end.

(** Every union that is not inside a sequence or map has an active member. *)
Fixpoint vselected (t : ty) (v : value) {struct t} : Prop :=
  match t with
  | TPrim _ | TEnum _ _ _ | TStr _ _ | TSeq _ _ | TMap _ _ _ => True
  | TArr _ c _ => match v with VNode l => Forall (vselected c) l | _ => False end
  | TPair x y => match v with VNode [a; b] => vselected x a /\ vselected y b | _ => False end
  | TStruct _ _ ms =>
      match v with
      | VNode l =>
          (fix go (ms : list (string * N * ty)) (l : list value) : Prop :=
             match ms, l with
             | [], _ => True
             | (_, _, mt) :: r, x :: l' => vselected mt x /\ go r l'
             | _, [] => False
             end) ms l
      | _ => False
      end
  | TUnion _ _ ms labels _ _ _ =>
      match ms, v with
      | (_, _, disc) :: _, VUnion dv (Some w) =>
          exists l nm, label_of disc dv = Some l /\ lookup_label l labels = Some nm /\
            (fix go (x : list (string * N * ty)) : Prop :=
               match x with
               | [] => False
               | (mn, _, mt) :: r => if String.eqb nm mn then vselected mt w else go r
               end) ms
      | _, _ => False
      end
  | TAlias _ a => vselected a v
  end.

(** What is needed of the key and value types of a map: both can be copied and moved (see [copy_ok],
    [movable]), the hash is a function of the key's value, an entry has at least one byte. *)
Definition entry_ok (k v : ty) : Prop :=
  copy_ok k /\ copy_ok v /\ movable k /\ movable v /\ hashable k /\ 0 < msize k + msize v.
(** The instance at [kb + ko] is a key of type [k] with value [kv]. *)
Definition key_at (k : ty) (kb : block) (ko : N) (kv : value) : Prop :=
  live k kb ko /\ read k kb ko = Ok kv /\ vselected k kv.
(** [p] are the accesses [q] on an instance of [t]: keys are instances of the key type with the given value. *)
Fixpoint path_rel (p : list step) (q : list vstep) (t : ty) : Prop :=
  match p, q with
  | [], [] => True
  | SName x :: p', VName y :: q' | SGet x :: p', VGet y :: q' =>
      x = y /\
      match rget t with
      | TStruct _ _ ms | TUnion _ _ ms _ _ _ _ =>
          match find_member x ms with Some m => path_rel p' q' (m_type m) | None => False end
      | _ => False
      end
  | SIdx i :: p', VIdx j :: q' =>
      i = j /\
      match rget t with
      | TArr _ c _ | TSeq c _ => path_rel p' q' c
      | TPair x y => if i =? 0 then path_rel p' q' x else path_rel p' q' y
      | TStruct _ _ ms => match nth_error ms (N.to_nat i) with Some m => path_rel p' q' (m_type m) | None => False end
      | _ => False
      end
  | SKey kb ko :: p', VKey kv :: q' | SAt kb ko :: p', VAt kv :: q' =>
      match rget t with TMap k v _ => key_at k kb ko kv /\ entry_ok k v /\ path_rel p' q' v | _ => False end
  | _, _ => False
  end.

(** A C++ value that value(t) accepts for an element of type [t]: the types match exactly (any number of the
    right size for an enumeration), the number is one of the enumerators. *)
Definition scalar_ok (t : ty) (x : scalar) : Prop :=
  match t, x with
  | TStr k _, ScStr k' _ => k = k'
  | TPrim p, ScPrim q bs => p = q /\ N.of_nat (List.length bs) = prim_size p /\ Forall (fun y => y < 256) bs
  | TEnum _ sz vals, ScPrim q bs =>
      prim_size q = sz /\ N.of_nat (List.length bs) = sz /\ Forall (fun y => y < 256) bs /\
      Exists (fun e => snd e = le_decode bs) vals
  | _, _ => False
  end.
(** The value stored: a bounded string keeps the characters within its bound. *)
Definition scalar_value (t : ty) (x : scalar) : value :=
  match t, x with
  | _, ScPrim _ bs => VBytes bs
  | TStr _ bd, ScStr _ s => VStr (if bd =? 0 then s else firstn (N.to_nat bd) s)
  | _, ScStr _ s => VStr s
  end.
Definition push_value (c : ty) (bd : N) (w v : value) : option value :=
  match v with
  | VNode l =>
      let n := N.of_nat (List.length l) in
      if accepts c bd (n + 1) (2 * (n + 1)) then Some (VNode (l ++ [w])) else None
  | _ => None
  end.
Definition resize_value (c : ty) (bd n : N) (v : value) : option value :=
  match v with
  | VNode l =>
      if accepts c bd n n then Some (VNode (l ++ repeat (default_value c) (N.to_nat n - List.length l))) else None
  | _ => None
  end.
(** d(v): the new discriminator value must be a label of the active member, which keeps its value. *)
Definition disc_value (t : ty) (l : Z) (v : value) : option value :=
  match t, v with
  | TUnion _ _ ((_, _, disc) :: _) labels _ _ _, VUnion dv (Some w) =>
      match label_of disc dv, lookup_label l labels with
      | Some cur, Some x =>
          match lookup_label cur labels with
          | Some y => if String.eqb x y then Some (VUnion (label_bytes disc l) (Some w)) else None
          | None => None
          end
      | _, _ => None
      end
  | _, _ => None
  end.

(** ** Queries *)
(** value<T>(): the kind must match; an enumeration is read as any type of its size. *)
Definition read_value (t : ty) (x : scalar_ty) (v : value) : option out :=
  match t, x, v with
  | TPrim p, StPrim q, VBytes bs => if prim_eqb p q then Some (OVal (ScPrim q bs)) else None
  | TEnum _ sz _, StPrim q, VBytes bs => if sz =? prim_size q then Some (OVal (ScPrim q bs)) else None
  | TStr k _, StStr k', VStr s => if skind_eqb k k' then Some (OVal (ScStr k' s)) else None
  | _, _, _ => None
  end.
(** size(): the number of elements; a union counts its members and its discriminator. *)
Definition size_value (t : ty) (v : value) : option out :=
  match t, v with
  | TStr _ _, VStr s => Some (ONat (N.of_nat (List.length s)))
  | (TArr _ _ _ | TSeq _ _ | TMap _ _ _ | TPair _ _ | TStruct _ _ _), VNode l => Some (ONat (N.of_nat (List.length l)))
  | TUnion _ _ ms _ _ _ _, VUnion _ _ => Some (ONat (N.of_nat (List.length ms)))
  | _, _ => None
  end.
(** current_case(): the active member. *)
Definition case_value (t : ty) (v : value) : option out :=
  match t, v with
  | TUnion _ _ ((_, _, disc) :: _) labels _ _ _, VUnion dv (Some _) =>
      match label_of disc dv with Some l => option_map OName (lookup_label l labels) | None => None end
  | _, _ => None
  end.
Section MapQueries.
  Variable strhash : skind -> list N -> N.
  (** has_key *)
  Definition has_key_value (k : ty) (kv : value) (v : value) : option out :=
    match v with
    | VNode l =>
        if ordered strhash k l then
          match key_pos kv l with
          | Some _ => Some (OBool true)
          | None => if collides strhash k kv l then None else Some (OBool false)
          end
        else None
    | _ => None
    end.
  (** insert(pair): as coded, the second half of the pair is ignored. *)
  Definition insert_value (k w : ty) (bd : N) (e v : value) : option (out * value) :=
    match v with
    | VNode l =>
        let n := N.of_nat (List.length l) in
        if ordered strhash k l then
          if (bd =? 0) || (n <? bd) then
            if negb (collides strhash k (entry_key e) l) && accepts (TPair k w) bd (n + 1) (2 * (n + 1))
            then Some (OBool true, VNode (add_entry strhash k (entry_key e) (default_value w) l)) else None
          else Some (OBool false, v)
        else None
    | _ => None
    end.
End MapQueries.
(** A query leaves the value unchanged. *)
Definition asking (g : value -> option out) (v : value) : option (out * value) := option_map (fun x => (x, v)) (g v).
