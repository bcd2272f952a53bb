(** Specification vocabulary for instance memory: well-formed instance states, the value an instance
    denotes, and the side conditions on types.  No function of the model of the code is used here
    except the label arithmetic of union discriminators. *)
From Verif Require Import Base Types TypeBuild TypeSpec Mem.

(** [n] initialised bytes at [off]. *)
Definition bytes_at (b : block) (off n : N) : Prop :=
  forall i, i < n -> exists x, at_ b (off + i) = CByte x /\ x < 256.
(** The live object [c] of [sz] bytes at [off]. *)
Definition obj_at (b : block) (off sz : N) (c : cell) : Prop := at_ b off = c /\ intact b off sz = true.
(** [n] allocated cells at [off]. *)
Definition alloc (b : block) (off n : N) : Prop := forall i, i < n -> at_ b (off + i) <> CNone.
(** Equal inside / outside [lo, lo + n). *)
Definition agree_out (b b' : block) (lo n : N) : Prop :=
  forall j, ~ (lo <= j < lo + n) -> at_ b' j = at_ b j.
Definition agree_on (b b' : block) (lo n : N) : Prop :=
  forall j, lo <= j < lo + n -> at_ b' j = at_ b j.

(** [live t b off]: the memory at [off] holds a well-formed instance of [t]: every scalar is
    initialised, every string/sequence/map object is alive and within its bound (the capacity of an unbounded
    one is at most twice its size), all the slots a
    sequence or map has allocated hold live elements, the active member of a union is alive. *)
Fixpoint live (t : ty) (b : block) (off : N) {struct t} : Prop :=
  match t with
  | TPrim p => bytes_at b off (prim_size p)
  | TEnum _ sz _ => bytes_at b off sz
  | TStr k bd => exists s, obj_at b off SZ_STRING (CStr k s) /\ (bd = 0 \/ N.of_nat (List.length s) <= bd)
  | TArr _ c n => forall i, i < n -> live c b (off + i * msize c)
  | TSeq c bd => exists cap size m, obj_at b off SZ_SEQ (CSeq c cap size m) /\
      size <= cap /\ (bd = 0 /\ cap <= 2 * size \/ cap <= bd) /\ cap * msize c < 4294967296 /\ cap <= 2147483648 /\
      forall i, i < cap -> live c m (i * msize c)
  | TMap k v bd => exists cap size m, obj_at b off SZ_MAP (CMap k v cap size m) /\
      size <= cap /\ (bd = 0 /\ cap <= 2 * size \/ cap <= bd) /\ cap * (msize k + msize v) < 4294967296 /\ cap <= 2147483648 /\
      forall i, i < cap -> live k m (i * (msize k + msize v)) /\ live v m (i * (msize k + msize v) + msize k)
  | TPair x y => live x b off /\ live y b (off + msize x)
  | TStruct _ _ ms =>
      (fix go (l : list (string * N * ty)) : Prop :=
         match l with [] => True | (_, mo, mt) :: r => live mt b (off + mo) /\ go r end) ms
  | TUnion _ s ms labels _ _ _ =>
      alloc b off s /\
      match ms with
      | [] => False
      | (_, _, disc) :: _ =>
          live disc b off /\
          exists l, get_label disc b off = Ok l /\
            match lookup_label l labels with
            | None => True
            | Some nm =>
                (fix go (x : list (string * N * ty)) : Prop :=
                   match x with
                   | [] => False
                   | (mn, mo, mt) :: r => if String.eqb nm mn then live mt b (off + mo) else go r
                   end) ms
            end
      end
  | TAlias _ a => live a b off
  end.

(** The value denoted by an instance. *)
Inductive value :=
| VBytes (bs : list N)                       (* number / character / enumerator: its bytes *)
| VStr (s : list N)
| VNode (l : list value)                     (* array, sequence, map, pair, struct: its elements *)
| VUnion (disc : value) (m : option value).  (* discriminator and active member *)

(** Collect [f 0 .. f (n-1)]. *)
Fixpoint collect (n : nat) (i : N) (f : N -> res value) : res (list value) :=
  match n with
  | O => Ok []
  | S k => do x <- f i; do r <- collect k (i + 1) f; Ok (x :: r)
  end.

Fixpoint read (t : ty) (b : block) (off : N) {struct t} : res value :=
  match t with
  | TPrim p => do bs <- read_bytes b off (prim_size p); Ok (VBytes bs)
  | TEnum _ sz _ => do bs <- read_bytes b off sz; Ok (VBytes bs)
  | TStr k _ =>
      match at_ b off with
      | CStr k' s => if skind_eqb k k' && intact b off SZ_STRING then Ok (VStr s) else Fail UB
      | _ => Fail UB
      end
  | TArr _ c n => do l <- collect (N.to_nat n) 0 (fun i => read c b (off + i * msize c)); Ok (VNode l)
  | TSeq c _ =>
      match at_ b off with
      | CSeq _ _ size m =>
          if intact b off SZ_SEQ
          then do l <- collect (N.to_nat size) 0 (fun i => read c m (i * msize c)); Ok (VNode l)
          else Fail UB
      | _ => Fail UB
      end
  | TMap k v _ =>
      match at_ b off with
      | CMap _ _ _ size m =>
          if intact b off SZ_MAP
          then do l <- collect (N.to_nat size) 0 (fun i =>
                   do x <- read k m (i * (msize k + msize v));
                   do y <- read v m (i * (msize k + msize v) + msize k);
                   Ok (VNode [x; y])); Ok (VNode l)
          else Fail UB
      | _ => Fail UB
      end
  | TPair x y => do a <- read x b off; do c <- read y b (off + msize x); Ok (VNode [a; c])
  | TStruct _ _ ms =>
      do l <- (fix go (l : list (string * N * ty)) : res (list value) :=
                 match l with
                 | [] => Ok []
                 | (_, mo, mt) :: r => do x <- read mt b (off + mo); do y <- go r; Ok (x :: y)
                 end) ms;
      Ok (VNode l)
  | TUnion _ _ ms labels _ _ _ =>
      match ms with
      | [] => Fail UB
      | (_, _, disc) :: _ =>
          do dv <- read disc b off;
          do l <- get_label disc b off;
          match lookup_label l labels with
          | None => Ok (VUnion dv None)
          | Some nm =>
              (fix go (x : list (string * N * ty)) : res value :=
                 match x with
                 | [] => Fail UB
                 | (mn, mo, mt) :: r =>
                     if String.eqb nm mn then (do v <- read mt b (off + mo); Ok (VUnion dv (Some v))) else go r
                 end) ms
          end
      end
  | TAlias _ a => read a b off
  end.

(** Zero numbers, empty strings, sequences and maps, the default case of a union. *)
Definition default_bytes (n : N) : value := VBytes (repeat 0 (N.to_nat n)).
Definition label_bytes (disc : ty) (l : Z) : value :=
  VBytes (le_encode (N.to_nat (msize disc)) (Z.to_N (l mod 2 ^ (8 * Z.of_N (msize disc))))).
Fixpoint default_value (t : ty) : value :=
  match t with
  | TPrim p => default_bytes (prim_size p)
  | TEnum _ sz _ => default_bytes sz
  | TStr _ _ => VStr []
  | TArr _ c n => VNode (repeat (default_value c) (N.to_nat n))
  | TSeq _ _ | TMap _ _ _ => VNode []
  | TPair x y => VNode [default_value x; default_value y]
  | TStruct _ _ ms =>
      VNode ((fix go (l : list (string * N * ty)) : list value :=
                match l with [] => [] | (_, _, mt) :: r => default_value mt :: go r end) ms)
  | TUnion _ _ ms labels _ iv d =>
      match ms with
      | [] => VNode []
      | (_, _, disc) :: _ =>
          VUnion (label_bytes disc d)
            (if Z.eqb d iv then None
             else match lookup_label d labels with
                  | None => None
                  | Some nm =>
                      (fix go (x : list (string * N * ty)) : option value :=
                         match x with
                         | [] => None
                         | (mn, _, mt) :: r => if String.eqb nm mn then Some (default_value mt) else go r
                         end) ms
                  end)
      end
  | TAlias _ a => default_value a
  end.

(** Conjunction over member types. *)
Definition all_members (P : ty -> Prop) (ms : list (string * N * ty)) : Prop :=
  Forall (fun m => P (m_type m)) ms.

(** Side conditions on types under which the 32-bit size arithmetic does not wrap
    ([C14] shows what happens otherwise), union discriminators are as wide as the code assumes, and no
    union case uses the label reserved for "no member" ([C21] shows what happens otherwise). *)
Fixpoint ok_ty (t : ty) : Prop :=
  match t with
  | TPrim _ | TEnum _ _ _ | TStr _ _ => True
  | TArr _ c n => ok_ty c /\ n <= 2147483648
  | TSeq c bd => ok_ty c /\ msize c < 4294967296 /\ bd * msize c < 4294967296 /\ bd <= 2147483648
  | TMap k v bd => ok_ty k /\ ok_ty v /\ msize k + msize v < 4294967296 /\
      bd * (msize k + msize v) < 4294967296 /\ bd <= 2147483648
  | TPair x y => ok_ty x /\ ok_ty y
  | TStruct _ _ ms =>
      (fix go (l : list (string * N * ty)) : Prop :=
         match l with [] => True | m :: r => ok_ty (m_type m) /\ go r end) ms
  | TUnion _ _ ms labels _ iv _ =>
      match ms with
      | [] => False
      | (_, _, disc) :: _ => label_width disc = msize disc /\ lookup_label iv labels = None
      end /\
      (fix go (l : list (string * N * ty)) : Prop :=
         match l with [] => True | m :: r => ok_ty (m_type m) /\ go r end) ms
  | TAlias _ a => ok_ty a
  end.

Definition is_union (t : ty) : bool := match t with TUnion _ _ _ _ _ _ _ => true | _ => false end.

(** Types of which instances can be copied with copy_instance_from_type from the same type: no
    1- or 2-byte enumeration and no alias of a union (the code reads the former as uint32_t and
    casts the latter to UnionType). *)
Fixpoint cf_ok (t : ty) : Prop :=
  match t with
  | TPrim _ | TStr _ _ => True
  | TEnum _ sz _ => sz = 4
  | TArr _ c _ | TSeq c _ => cf_ok c
  | TMap k v _ | TPair k v => cf_ok k /\ cf_ok v
  | TStruct _ _ ms | TUnion _ _ ms _ _ _ _ =>
      (fix go (l : list (string * N * ty)) : Prop :=
         match l with [] => True | m :: r => cf_ok (m_type m) /\ go r end) ms
  | TAlias _ a => is_union (rget a) = false /\ cf_ok a
  end.
(** For copy_instance the restriction only concerns what is stored in sequences and maps. *)
Fixpoint copy_ok (t : ty) : Prop :=
  match t with
  | TPrim _ | TStr _ _ | TEnum _ _ _ => True
  | TArr _ c _ => copy_ok c
  | TSeq c _ => cf_ok c
  | TMap k v _ => cf_ok k /\ cf_ok v
  | TPair k v => copy_ok k /\ copy_ok v
  | TStruct _ _ ms | TUnion _ _ ms _ _ _ _ =>
      (fix go (l : list (string * N * ty)) : Prop :=
         match l with [] => True | m :: r => copy_ok (m_type m) /\ go r end) ms
  | TAlias _ a => copy_ok a
  end.

(** Every union that is not inside a sequence or map has an active member. *)
Fixpoint selected (t : ty) (b : block) (off : N) {struct t} : Prop :=
  match t with
  | TPrim _ | TEnum _ _ _ | TStr _ _ | TSeq _ _ | TMap _ _ _ => True
  | TArr _ c n => forall i, i < n -> selected c b (off + i * msize c)
  | TPair x y => selected x b off /\ selected y b (off + msize x)
  | TStruct _ _ ms =>
      (fix go (l : list (string * N * ty)) : Prop :=
         match l with [] => True | (_, mo, mt) :: r => selected mt b (off + mo) /\ go r end) ms
  | TUnion _ _ ms labels _ _ _ =>
      match ms with
      | [] => False
      | (_, _, disc) :: _ =>
          exists l nm, get_label disc b off = Ok l /\ lookup_label l labels = Some nm /\
            (fix go (x : list (string * N * ty)) : Prop :=
               match x with
               | [] => False
               | (mn, mo, mt) :: r => if String.eqb nm mn then selected mt b (off + mo) else go r
               end) ms
      end
  | TAlias _ a => selected a b off
  end.

(** No floating point component. *)
Fixpoint nofloat (t : ty) : Prop :=
  match t with
  | TPrim p => is_float p = false
  | TStr _ _ | TEnum _ _ _ => True
  | TArr _ c _ | TSeq c _ => nofloat c
  | TMap k v _ | TPair k v => nofloat k /\ nofloat v
  | TStruct _ _ ms | TUnion _ _ ms _ _ _ _ =>
      (fix go (l : list (string * N * ty)) : Prop :=
         match l with [] => True | m :: r => nofloat (m_type m) /\ go r end) ms
  | TAlias _ a => nofloat a
  end.

(** No live object starts in [off, off + n). *)
Definition clean (b : block) (off n : N) : Prop := forall i, i < n -> is_object (at_ b (off + i)) = false.

(** [tight t b off]: the only live objects inside the instance are those its type accounts for; the
    bytes of a union that do not belong to the active member hold no object. *)
Fixpoint tight (t : ty) (b : block) (off : N) {struct t} : Prop :=
  match t with
  | TPrim _ | TEnum _ _ _ | TStr _ _ => True
  | TArr _ c n => forall i, i < n -> tight c b (off + i * msize c)
  | TSeq c _ =>
      match at_ b off with
      | CSeq _ cap _ m => forall i, i < cap -> tight c m (i * msize c)
      | _ => True
      end
  | TMap k v _ =>
      match at_ b off with
      | CMap _ _ cap _ m => forall i, i < cap ->
          tight k m (i * (msize k + msize v)) /\ tight v m (i * (msize k + msize v) + msize k)
      | _ => True
      end
  | TPair x y => tight x b off /\ tight y b (off + msize x)
  | TStruct _ _ ms =>
      (fix go (l : list (string * N * ty)) : Prop :=
         match l with [] => True | (_, mo, mt) :: r => tight mt b (off + mo) /\ go r end) ms
  | TUnion _ s ms labels _ _ _ =>
      match ms with
      | [] => True
      | (_, _, disc) :: _ =>
          match get_label disc b off with
          | Fail _ => True
          | Ok l =>
              match lookup_label l labels with
              | None => clean b (off + msize disc) (s - msize disc)
              | Some nm =>
                  (fix go (x : list (string * N * ty)) : Prop :=
                     match x with
                     | [] => True
                     | (mn, mo, mt) :: r =>
                         if String.eqb nm mn
                         then tight mt b (off + mo) /\ clean b (off + mo + msize mt) (s - mo - msize mt)
                         else go r
                     end) ms
              end
          end
      end
  | TAlias _ a => tight a b off
  end.

(** No sequence and no map anywhere. *)
Fixpoint nocont (t : ty) : Prop :=
  match t with
  | TPrim _ | TStr _ _ | TEnum _ _ _ => True
  | TSeq _ _ | TMap _ _ _ => False
  | TArr _ c _ => nocont c
  | TPair k v => nocont k /\ nocont v
  | TStruct _ _ ms | TUnion _ _ ms _ _ _ _ =>
      (fix go (l : list (string * N * ty)) : Prop :=
         match l with [] => True | m :: r => nocont (m_type m) /\ go r end) ms
  | TAlias _ a => nocont a
  end.
(** Types whose instances can be moved over live instances: no sequence or map inside a union (the code
    destroys the destination of a moved sequence or map, which a union may not contain). *)
Fixpoint movable (t : ty) : Prop :=
  match t with
  | TPrim _ | TStr _ _ | TEnum _ _ _ | TSeq _ _ | TMap _ _ _ => True
  | TArr _ c _ => movable c
  | TPair k v => movable k /\ movable v
  | TStruct _ _ ms =>
      (fix go (l : list (string * N * ty)) : Prop :=
         match l with [] => True | m :: r => movable (m_type m) /\ go r end) ms
  | TUnion _ _ ms _ _ _ _ =>
      (fix go (l : list (string * N * ty)) : Prop :=
         match l with [] => True | m :: r => nocont (m_type m) /\ go r end) ms
  | TAlias _ a => movable a
  end.
