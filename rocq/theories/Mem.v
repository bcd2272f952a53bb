(** Instance memory: bytes and C++ objects placed in memory blocks.

    An instance lives in a block (the buffer allocated by DynamicData, SequenceInstance or
    MapInstance).  A block maps byte offsets to cells:
    - [CNone]  outside the allocation;
    - [CRaw]   allocated, no readable value (destroyed object);
    - [CByte]  an initialised byte;
    - [CStr], [CSeq], [CMap] the first byte of a live std::basic_string / SequenceInstance /
      MapInstance object, whose remaining sizeof - 1 bytes are [CTail].
    A SequenceInstance owns the buffer it points to (memory_), hence the nested [block]; capacity 0
    is exactly memory_ == nullptr (SequenceInstance.hpp:242: [size > 0 ? new ... : nullptr]).
    Placement new may overwrite anything allocated (as in the code); overwriting bytes of an
    object destroys its recognisability, using an unrecognisable object is UB.
    Simplifications: characters of strings are numbers; alignment is ignored; the bytes of a
    std::string / SequenceInstance are not inspectable; allocation never fails. *)
From Verif Require Import Base Types TypeBuild.

Inductive cell :=
| CNone
| CRaw
| CByte (x : N)
| CStr (k : skind) (s : list N)
| CSeq (c : ty) (cap size : N) (m : block)
| CMap (k v : ty) (cap size : N) (m : block)
| CTail
with block := Blk (f : N -> cell).

Definition at_ (b : block) (i : N) : cell := match b with Blk f => f i end.
Definition is_none (c : cell) : bool := match c with CNone => true | _ => false end.
Definition is_tail (c : cell) : bool := match c with CTail => true | _ => false end.
Definition is_object (c : cell) : bool :=
  match c with CStr _ _ | CSeq _ _ _ _ | CMap _ _ _ _ _ => true | _ => false end.

(** [p] holds at [lo], ..., [lo + n - 1]. *)
Fixpoint allr (n : nat) (lo : N) (p : N -> bool) : bool :=
  match n with O => true | S k => p lo && allr k (lo + 1) p end.

Definition upd (b : block) (lo n : N) (g : N -> cell) : block :=
  Blk (fun j => if (lo <=? j) && (j <? lo + n) then g (j - lo) else at_ b j).

(** A write of [n] cells: undefined unless all of them are allocated. *)
Definition write_cells (b : block) (lo n : N) (g : N -> cell) : res block :=
  if allr (N.to_nat n) lo (fun j => negb (is_none (at_ b j))) then Ok (upd b lo n g) else Fail UB.

Definition write_bytes (b : block) (off : N) (bs : list N) : res block :=
  write_cells b off (N.of_nat (List.length bs)) (fun i => CByte (nth (N.to_nat i) bs 0)).

Fixpoint read_bytes_n (b : block) (off : N) (n : nat) : res (list N) :=
  match n with
  | O => Ok []
  | S k =>
      match at_ b off with
      | CByte x => do r <- read_bytes_n b (off + 1) k; Ok (x :: r)
      | _ => Fail UB
      end
  end.
Definition read_bytes (b : block) (off n : N) : res (list N) := read_bytes_n b off (N.to_nat n).

(** Placement new of an object of [sz] bytes, and the end of its lifetime. *)
Definition put_obj (b : block) (off sz : N) (c : cell) : res block :=
  write_cells b off sz (fun i => if i =? 0 then c else CTail).
Definition kill (b : block) (off sz : N) : res block := write_cells b off sz (fun _ => CRaw).
(** The object starting at [off] is intact. *)
Definition intact (b : block) (off sz : N) : bool :=
  allr (N.to_nat (sz - 1)) (off + 1) (fun j => is_tail (at_ b j)).

(** std::memcpy / std::memmove and std::memcmp on initialised bytes. *)
Definition memcpy (d : block) (doff : N) (b : block) (off n : N) : res block :=
  do bs <- read_bytes b off n; write_bytes d doff bs.
Fixpoint bytes_eqb (a b : list N) : bool :=
  match a, b with
  | [], [] => true
  | x :: r, y :: s => (x =? y) && bytes_eqb r s
  | _, _ => false
  end.
Definition memcmp_eq (a : block) (aoff : N) (b : block) (boff n : N) : res bool :=
  do x <- read_bytes a aoff n; do y <- read_bytes b boff n; Ok (bytes_eqb x y).

Definition zeros (n : N) : list N := repeat 0 (N.to_nat n).

(** A freshly allocated, zeroed buffer of [n] bytes (SequenceInstance.hpp:242-245). *)
Definition fresh (n : N) : block := Blk (fun j => if j <? n then CByte 0 else CNone).
(** The buffer of a DynamicData: [new uint8_t[memory_size]], not zeroed (DynamicData.hpp:1323-1333). *)
Definition fresh_raw (n : N) : block := Blk (fun j => if j <? n then CRaw else CNone).

(** ** Union discriminators *)

(** Number of bytes current_label accesses: an enumeration is always accessed as uint32_t
    (UnionType.hpp:727-734 and 821-827). *)
Definition label_width (disc : ty) : N :=
  match rget disc with TEnum _ _ _ => 4 | t => msize t end.

(** current_label(type, instance) (UnionType.hpp:748-840): the signed reads followed by
    shrink_label keep exactly the low bytes. *)
Definition get_label (disc : ty) (b : block) (off : N) : res Z :=
  do bs <- read_bytes b off (label_width disc);
  Ok (shrink_label (Z.of_N (le_decode bs)) (msize disc)).

(** current_label(instance, new_value) (UnionType.hpp:636-745). *)
Definition put_label (disc : ty) (b : block) (off : N) (v : Z) : res block :=
  let w := label_width disc in
  write_bytes b off (le_encode (N.to_nat w) (Z.to_N (v mod 2 ^ (8 * Z.of_N w)))).

(** ** construct_instance *)

(** SequenceInstance::init_memory (SequenceInstance.hpp:232-252) on a null pointer:
    [construct] is content_->construct_instance.  block_size_ is a uint32_t and the products
    [size * block_size_], [idx * block_size_] are uint32_t products. *)
Definition init_memory (construct : block -> N -> res block) (bs n : N) : res block :=
  if n =? 0 then Ok (fresh 0)
  else for_up n (fun i b => construct b (wrap32 (i * bs))) (fresh (wrap32 (n * bs))).

Fixpoint construct (t : ty) (b : block) (off : N) {struct t} : res block :=
  match t with
  (* PrimitiveType.hpp:117-121 *)
  | TPrim p => write_bytes b off (zeros (prim_size p))
  | TEnum _ sz _ => write_bytes b off (zeros sz)
  (* StringType.hpp:56-61 *)
  | TStr k _ => put_obj b off SZ_STRING (CStr k [])
  (* ArrayType.hpp:107-115 *)
  | TArr _ c n => for_up n (fun i b => construct c b (off + i * msize c)) b
  (* SequenceType.hpp:75-79, SequenceInstance.hpp:37-56 *)
  | TSeq c bound =>
      do m <- init_memory (construct c) (wrap32 (msize c)) bound;
      put_obj b off SZ_SEQ (CSeq c bound 0 m)
  (* MapType.hpp:79-83, MapInstance.hpp:37-57 *)
  | TMap k v bound =>
      do m <- init_memory (fun b o => do b1 <- construct k b o; construct v b1 (o + msize k))
                          (wrap32 (msize k + msize v)) bound;
      put_obj b off SZ_MAP (CMap k v bound 0 m)
  (* PairType.hpp:90-95 *)
  | TPair x y => do b1 <- construct x b off; construct y b1 (off + msize x)
  (* StructType.hpp:94-101 *)
  | TStruct _ _ ms =>
      (fix go (l : list (string * N * ty)) (b : block) {struct l} : res block :=
         match l with
         | [] => Ok b
         | (_, mo, mt) :: r => do b1 <- construct mt b (off + mo); go r b1
         end) ms b
  (* UnionType.hpp:253-270; member() asserts that the name exists (AggregationType.hpp:61-66) *)
  | TUnion _ _ ms labels dv iv d =>
      match ms with
      | [] => Fail UB
      | (_, _, disc) :: _ =>
          do b1 <- construct disc b off;
          do b2 <- (if Z.eqb d iv then Ok b1
                    else match lookup_label d labels with
                         | None => Fail Throw
                         | Some nm =>
                             (fix go (l : list (string * N * ty)) : res block :=
                                match l with
                                | [] => Fail Assert
                                | (mn, mo, mt) :: r =>
                                    if String.eqb nm mn then construct mt b1 (off + mo) else go r
                                end) ms
                         end);
          put_label disc b2 off d
      end
  (* AliasType.hpp:63-67 *)
  | TAlias _ a => construct a b off
  end.

(** ** copy_instance_from_type *)

(** Integer reading of a primitive: sign and width (char is signed on x86-64, wchar_t is int). *)
Definition prim_signed (p : prim) : bool :=
  match p with PI8 | PI16 | PI32 | PI64 | PC8 | PWC => true | _ => false end.
Definition is_float (p : prim) : bool := match p with PF32 | PF64 | PF128 => true | _ => false end.
Definition prim_int (p : prim) (bs : list N) : Z :=
  let x := Z.of_N (le_decode bs) in
  let w := (8 * Z.of_N (prim_size p))%Z in
  if prim_signed p then (if (x <? 2 ^ (w - 1))%Z then x else x - 2 ^ w)%Z else x.
Definition int_bytes (p : prim) (x : Z) : list N :=
  match p with
  | PBool => [if Z.eqb x 0 then 0 else 1]
  | _ => le_encode (N.to_nat (prim_size p)) (Z.to_N (x mod 2 ^ (8 * Z.of_N (prim_size p))))
  end.
(** EnumerationType<T> is a PrimitiveType<T> (EnumerationType.hpp:24, EnumeratedType.hpp:30). *)
Definition enum_prim (sz : N) : prim := if sz =? 1 then PU8 else if sz =? 2 then PU16 else PU32.

Definition list_trunc {A} (bound : N) (s : list A) : list A :=
  if bound =? 0 then s else firstn (N.to_nat bound) s.

Section FloatConversion.
  (** [fc p p' bs]: the C++ conversion between values of different primitive types of which one is
      a floating point type.  It is a parameter: no theorem depends on it. *)
  Variable fc : prim -> prim -> list N -> list N.

  Definition convert (src tgt : prim) (bs : list N) : list N :=
    if prim_eqb src tgt then bs
    else if is_float src || is_float tgt
         then le_encode (N.to_nat (prim_size tgt)) (le_decode (fc src tgt bs))
         else int_bytes tgt (prim_int src bs).

  (** PrimitiveType<T>::copy_instance_from_type (PrimitiveType.hpp:135-210): an enumeration source
      is read as uint32_t whatever its size. *)
  Definition copy_prim_from (tgt : prim) (b : block) (o : ty) (off : N) (d : block) (doff : N)
    : res block :=
    match strip1 o with
    | TPrim p => do bs <- read_bytes b off (prim_size p); write_bytes d doff (convert p tgt bs)
    | TEnum _ _ _ => do bs <- read_bytes b off 4; write_bytes d doff (convert PU32 tgt bs)
    | _ => Fail Assert
    end.

  (** The two new-object constructors of SequenceInstance: SequenceInstance.hpp:58-73 (copy: same
      content) and 78-103 (compatible copy), with copy_content (254-295).  [copy_el] copies one
      element.  The [realloc] in copy_content is never reached: min_size <= capacity_ whenever
      memory_ is not null (SeqFacts.copy_content_no_realloc). *)
  Definition seq_min_size (cap ocap osize bounds : N) : N :=
    let mc := if N.min cap ocap =? 0 then N.max cap ocap else N.min cap ocap in
    let ms := if mc =? 0 then osize else N.min mc osize in
    if bounds =? 0 then ms else N.min ms bounds.
  Definition seq_construct_copy (copy_el : N -> block -> N -> res block)
      (c oc : ty) (cap size ocap osize : N) (m : block) : res (N * N * block) :=
    let bs := wrap32 (msize c) in
    do m0 <- init_memory (construct c) bs cap;
    if cap =? 0 then Ok (cap, size, m0)
    else
      let n := seq_min_size cap ocap osize size in
      do m1 <- (if is_constructed_type c || negb (bs =? msize oc)
                then for_up n (fun i d => copy_el (i * msize oc) d (wrap32 (i * bs))) m0
                else memcpy m0 0 m 0 (wrap32 (n * bs)));
      Ok (cap, n, m1).
  (** The same for MapInstance (MapInstance.hpp:59-93, 256-301); the content type of the new
      map is always the source's content_. *)
  Definition map_construct_copy (copy_el : N -> block -> N -> res block)
      (k v : ty) (cap size ocap osize : N) (m : block) : res (N * N * block) :=
    let bs := wrap32 (msize (TPair k v)) in
    do m0 <- init_memory (construct (TPair k v)) bs cap;
    if cap =? 0 then Ok (cap, size, m0)
    else
      let n := seq_min_size cap ocap osize size in
      do m1 <- (if is_constructed_type k || is_constructed_type v
                then for_up n (fun i d => copy_el (i * msize (TPair k v)) d (wrap32 (i * bs))) m0
                else memcpy m0 0 m 0 (wrap32 (n * bs)));
      Ok (cap, n, m1).
  Definition bound_min (x bound : N) : N := if bound =? 0 then x else N.min x bound.

  (** [copy_from b t o off d doff]: t.copy_instance_from_type(d + doff, b + off, o). *)
  Fixpoint copy_from (b : block) {struct b} : ty -> ty -> N -> block -> N -> res block :=
    match b with
    | Blk f =>
        fix inner (t : ty) (o : ty) (off : N) (d : block) (doff : N) {struct t} : res block :=
          match t with
          | TPrim p => copy_prim_from p (Blk f) o off d doff
          | TEnum _ sz _ => copy_prim_from (enum_prim sz) (Blk f) o off d doff
          (* StringType.hpp:72-99 *)
          | TStr k bound =>
              match strip1 o with
              | TStr k' _ =>
                  if skind_eqb k k' then
                    match f off with
                    | CStr k'' s =>
                        if skind_eqb k k'' && intact (Blk f) off SZ_STRING
                        then put_obj d doff SZ_STRING (CStr k (list_trunc bound s))
                        else Fail UB
                    | _ => Fail UB
                    end
                  else Fail Assert
              | _ => Fail Assert
              end
          (* ArrayType.hpp:135-177 *)
          | TArr _ c n =>
              match strip1 o with
              | TArr _ c' n' =>
                  let k := N.min n n' in
                  if is_constructed_type c || negb (msize c =? msize c')
                  then for_up k (fun i d => inner c c' (off + i * msize c') d (doff + i * msize c)) d
                  else memcpy d doff (Blk f) off (k * msize c)
              | _ => Fail Assert
              end
          (* SequenceType.hpp:88-113 *)
          | TSeq c bound =>
              match strip1 o with
              | TSeq _ _ =>
                  match f off with
                  | CSeq c' ocap osize m =>
                      if intact (Blk f) off SZ_SEQ then
                        do r <- seq_construct_copy (copy_from m c c')
                                  c c' (bound_min ocap bound) (bound_min osize bound) ocap osize m;
                        let '(cap, size, m') := r in
                        put_obj d doff SZ_SEQ (CSeq c cap size m')
                      else Fail UB
                  | _ => Fail UB
                  end
              | _ => Fail Assert
              end
          (* MapType.hpp:92-119 *)
          | TMap k v bound =>
              match strip1 o with
              | TMap ok ov _ =>
                  if String.eqb (tname (TPair k v)) (tname (TPair ok ov)) then
                    match f off with
                    | CMap k' v' ocap osize m =>
                        if intact (Blk f) off SZ_MAP then
                          do r <- map_construct_copy (copy_from m (TPair k' v') (TPair k' v'))
                                    k' v' (bound_min ocap bound) (bound_min osize bound) ocap osize m;
                          let '(cap, size, m') := r in
                          put_obj d doff SZ_MAP (CMap k' v' cap size m')
                        else Fail UB
                    | _ => Fail UB
                    end
                  else Fail Assert
              | _ => Fail Assert
              end
          (* PairType.hpp:105-130: the second half of the source is taken at the offset of the
             second half of the target *)
          | TPair x y =>
              match strip1 o with
              | TPair x' y' =>
                  do d1 <- inner x x' off d doff;
                  inner y y' (off + msize x) d1 (doff + msize x)
              | _ => Fail Assert
              end
          (* StructType.hpp:113-152: [started] records that other_member was already at end(),
             so that the next comparison is with an iterator past the end *)
          | TStruct _ _ ms =>
              let members :=
                (fix go (l ol : list (string * N * ty)) (past : bool) (d : block) {struct l} : res block :=
                   match l with
                   | [] => Ok d
                   | (_, mo, mt) :: r =>
                       if past then Fail UB
                       else
                         match ol with
                         | (_, oo, ot) :: orest =>
                             do d1 <- inner mt ot (off + oo) d (doff + mo); go r orest false d1
                         | [] => do d1 <- construct mt d (doff + mo); go r [] true d1
                         end
                   end) in
              match ms with
              | [(_, _, mt)] =>
                  match rget o with
                  | TStruct _ _ oms => members ms oms false d
                  | o' => inner mt o' off d doff
                  end
              | _ =>
                  match rget o with
                  | TStruct _ _ oms => members ms oms false d
                  | _ => Fail Assert
                  end
              end
          (* UnionType.hpp:283-315: an AliasType is static_cast to UnionType; the source member is
             taken to have the target member's type and offset *)
          | TUnion _ _ ms labels _ _ _ =>
              match o with
              | TAlias _ _ => match rget o with TUnion _ _ _ _ _ _ _ => Fail UB | _ => Fail Assert end
              | TUnion _ _ ((_, _, odisc) :: _) _ _ _ _ =>
                  match ms with
                  | [] => Fail UB
                  | (_, _, disc) :: _ =>
                      do d1 <- inner disc odisc off d doff;
                      do l <- get_label disc d1 doff;
                      match lookup_label l labels with
                      | None => Ok d1
                      | Some nm =>
                          (fix go (x : list (string * N * ty)) : res block :=
                             match x with
                             | [] => Fail Assert
                             | (mn, mo, mt) :: r =>
                                 if String.eqb nm mn then inner mt mt (off + mo) d1 (doff + mo) else go r
                             end) ms
                      end
                  end
              | _ => Fail Assert
              end
          (* AliasType.hpp:76-82 *)
          | TAlias _ a => inner a o off d doff
          end
    end.

  (** ** copy_instance *)

  (** SequenceInstance(const SequenceInstance&) and MapInstance(const MapInstance&) on the object at
      [off] of [b], placed at [doff] of [d]. *)
  Definition copy_seq (b : block) (off : N) (d : block) (doff : N) : res block :=
    match at_ b off with
    | CSeq c cap size m =>
        if intact b off SZ_SEQ then
          do r <- seq_construct_copy (copy_from m c c) c c cap size cap size m;
          let '(cap', size', m') := r in
          put_obj d doff SZ_SEQ (CSeq c cap' size' m')
        else Fail UB
    | _ => Fail UB
    end.
  Definition copy_map (b : block) (off : N) (d : block) (doff : N) : res block :=
    match at_ b off with
    | CMap k v cap size m =>
        if intact b off SZ_MAP then
          do r <- map_construct_copy (copy_from m (TPair k v) (TPair k v)) k v cap size cap size m;
          let '(cap', size', m') := r in
          put_obj d doff SZ_MAP (CMap k v cap' size' m')
        else Fail UB
    | _ => Fail UB
    end.
  Definition copy_str (k : skind) (trunc : N) (b : block) (off : N) (d : block) (doff : N) : res block :=
    match at_ b off with
    | CStr k' s =>
        if skind_eqb k k' && intact b off SZ_STRING
        then put_obj d doff SZ_STRING (CStr k (list_trunc trunc s))
        else Fail UB
    | _ => Fail UB
    end.

  (** [copy t b off d doff]: t.copy_instance(d + doff, b + off). *)
  Fixpoint copy (t : ty) (b : block) (off : N) (d : block) (doff : N) {struct t} : res block :=
    match t with
    | TPrim p => memcpy d doff b off (prim_size p)                      (* PrimitiveType.hpp:128-133 *)
    | TEnum _ sz _ => memcpy d doff b off sz
    | TStr k bound => copy_str k bound b off d doff                     (* StringType.hpp:63-70 *)
    | TArr _ c n =>                                                     (* ArrayType.hpp:117-133 *)
        if is_constructed_type c
        then for_up n (fun i d => copy c b (off + i * msize c) d (doff + i * msize c)) d
        else memcpy d doff b off (n * msize c)
    | TSeq _ _ => copy_seq b off d doff                                 (* SequenceType.hpp:81-86 *)
    | TMap _ _ _ => copy_map b off d doff                               (* MapType.hpp:85-90 *)
    | TPair x y =>                                                      (* PairType.hpp:97-103 *)
        do d1 <- copy x b off d doff; copy y b (off + msize x) d1 (doff + msize x)
    | TStruct _ _ ms =>                                                 (* StructType.hpp:103-111 *)
        (fix go (l : list (string * N * ty)) (d : block) {struct l} : res block :=
           match l with
           | [] => Ok d
           | (_, mo, mt) :: r => do d1 <- copy mt b (off + mo) d (doff + mo); go r d1
           end) ms d
    | TUnion _ _ ms labels _ _ _ =>                                     (* UnionType.hpp:272-281 *)
        match ms with
        | [] => Fail UB
        | (_, _, disc) :: _ =>
            do d1 <- copy disc b off d doff;
            do l <- get_label disc b off;
            match lookup_label l labels with
            | None => Fail Assert
            | Some nm =>
                (fix go (x : list (string * N * ty)) : res block :=
                   match x with
                   | [] => Fail Assert
                   | (mn, mo, mt) :: r =>
                       if String.eqb nm mn then copy mt b (off + mo) d1 (doff + mo) else go r
                   end) ms
            end
        end
    | TAlias _ a => copy a b off d doff                                 (* AliasType.hpp:69-74 *)
    end.
End FloatConversion.

(** ** destroy_instance *)

(** Number of iterations of [for (int32_t i = n - 1; i >= 0; i--)] (ArrayType.hpp:204,
    SequenceInstance.hpp:323): [n - 1] is converted to a signed 32-bit integer. *)
Definition int32_iterations (n : N) : N := if n =? 0 then 0 else if n - 1 <? 2147483648 then n else 0.

(** Destruction of a list of objects of a block, in order: each must still be alive. *)
Fixpoint kill_all (l : list (N * N)) (b : block) : res block :=
  match l with
  | [] => Ok b
  | (off, sz) :: r =>
      if is_object (at_ b off) && intact b off sz
      then do b1 <- kill b off sz; kill_all r b1
      else Fail UB
  end.

(** Collect the results of [f (n-1)], ..., [f 0]. *)
Fixpoint concat_down {A} (n : nat) (f : N -> res (list A)) : res (list A) :=
  match n with
  | O => Ok []
  | S k => do x <- f (N.of_nat k); do y <- concat_down k f; Ok (x ++ y)
  end.

(** [dlist b t off]: the (offset, size) of the objects of [b] whose destructors
    t.destroy_instance(b + off) runs, in order; the buffers they own are destroyed on the way.
    [destroy] then ends their lifetimes, failing on any object that is not (or no longer) alive. *)
Fixpoint dlist (b : block) {struct b} : ty -> N -> res (list (N * N)) :=
  match b with
  | Blk f =>
      fix inner (t : ty) (off : N) {struct t} : res (list (N * N)) :=
        match t with
        | TPrim _ | TEnum _ _ _ => Ok []                                 (* PrimitiveType.hpp:123-126 *)
        | TStr k _ =>                                                    (* StringType.hpp:109-113 *)
            match f off with
            | CStr k' _ => if skind_eqb k k' then Ok [(off, SZ_STRING)] else Fail UB
            | _ => Fail UB
            end
        | TArr _ c n =>                                                  (* ArrayType.hpp:198-209 *)
            if is_constructed_type c
            then concat_down (N.to_nat (int32_iterations n)) (fun i => inner c (off + i * msize c))
            else Ok []
        | TSeq _ _ =>                                (* SequenceType.hpp:127-131, SequenceInstance.hpp:317-332 *)
            match f off with
            | CSeq c cap _ m =>
                do _ <- (if (cap =? 0) || negb (is_constructed_type c) then Ok m
                         else do l <- concat_down (N.to_nat (int32_iterations cap))
                                        (fun i => dlist m c (wrap32 (i * wrap32 (msize c))));
                              kill_all l m);
                Ok [(off, SZ_SEQ)]
            | _ => Fail UB
            end
        | TMap _ _ _ =>                              (* MapType.hpp:133-137, MapInstance.hpp:456-471 *)
            match f off with
            | CMap k v cap _ m =>
                do _ <- (if cap =? 0 then Ok m
                         else do l <- concat_down (N.to_nat (int32_iterations cap))
                                        (fun i => dlist m (TPair k v) (wrap32 (i * wrap32 (msize k + msize v))));
                              kill_all l m);
                Ok [(off, SZ_MAP)]
            | _ => Fail UB
            end
        | TPair x y =>                                                   (* PairType.hpp:141-146 *)
            do l1 <- inner x off; do l2 <- inner y (off + msize x); Ok (l1 ++ l2)
        | TStruct _ _ ms =>                                              (* StructType.hpp:165-172 *)
            (fix go (l : list (string * N * ty)) : res (list (N * N)) :=
               match l with
               | [] => Ok []
               | (_, mo, mt) :: r => do lr <- go r; do lm <- inner mt (off + mo); Ok (lr ++ lm)
               end) ms
        | TUnion _ _ ms labels _ _ _ =>                                  (* UnionType.hpp:332-342 *)
            match ms with
            | [] => Fail UB
            | (_, _, disc) :: _ =>
                do l0 <- inner disc off;
                do l <- get_label disc (Blk f) off;
                match lookup_label l labels with
                | None => Ok l0
                | Some nm =>
                    (fix go (x : list (string * N * ty)) : res (list (N * N)) :=
                       match x with
                       | [] => Fail Assert
                       | (mn, mo, mt) :: r =>
                           if String.eqb nm mn then (do lm <- inner mt (off + mo); Ok (l0 ++ lm)) else go r
                       end) ms
                end
            end
        | TAlias _ a => inner a off                                      (* AliasType.hpp:92-96 *)
        end
  end.

Definition destroy (t : ty) (b : block) (off : N) : res block :=
  do l <- dlist b t off; kill_all l b.

(** ** compare_instance *)

(** IEEE comparison of little-endian floats: NaN is different from everything, +0 equals -0.
    Simplification: x87 extended precision looks at the 10 significant bytes, and its
    non-canonical encodings are compared as bit patterns. *)
Definition float_eq (p : prim) (x y : list N) : bool :=
  let '(ebits, mbits) := match p with PF32 => (8, 23) | PF64 => (11, 52) | _ => (15, 64) end in
  let norm := fun l => le_decode (match p with PF128 => firstn 10 l | _ => l end) in
  let a := norm x in let b := norm y in
  let mant := fun v => v mod 2 ^ mbits in
  let expo := fun v => (v / 2 ^ mbits) mod 2 ^ ebits in
  let is_nan := fun v => (expo v =? 2 ^ ebits - 1) &&
                 negb (match p with PF128 => mant v =? 2 ^ 63 | _ => mant v =? 0 end) in
  let is_zero := fun v => (expo v =? 0) && (mant v =? 0) in
  if is_nan a || is_nan b then false
  else if is_zero a && is_zero b then true
  else a =? b.
Definition prim_eq (p : prim) (x y : list N) : bool :=
  if is_float p then float_eq p x y else bytes_eqb x y.

(** [compare b1 t off1 b2 off2]: t.compare_instance(b1 + off1, b2 + off2). *)
Fixpoint compare (b1 : block) {struct b1} : ty -> N -> block -> N -> res bool :=
  match b1 with
  | Blk f =>
      fix inner (t : ty) (off1 : N) (b2 : block) (off2 : N) {struct t} : res bool :=
        match t with
        | TPrim p =>                                                     (* PrimitiveType.hpp:220-225 *)
            do x <- read_bytes (Blk f) off1 (prim_size p); do y <- read_bytes b2 off2 (prim_size p);
            Ok (prim_eq p x y)
        | TEnum _ sz _ => memcmp_eq (Blk f) off1 b2 off2 sz
        | TStr k _ =>                                                    (* StringType.hpp:115-121 *)
            match f off1, at_ b2 off2 with
            | CStr k1 s1, CStr k2 s2 =>
                if skind_eqb k k1 && skind_eqb k k2
                   && intact (Blk f) off1 SZ_STRING && intact b2 off2 SZ_STRING
                then Ok (bytes_eqb s1 s2) else Fail UB
            | _, _ => Fail UB
            end
        | TArr _ c n =>                                                  (* ArrayType.hpp:211-229 *)
            if is_constructed_type c
            then alland n (fun i => inner c (off1 + i * msize c) b2 (off2 + i * msize c))
            else memcmp_eq (Blk f) off1 b2 off2 (n * msize c)
        | TSeq _ _ =>                                (* SequenceType.hpp:146-152, SequenceInstance.hpp:117-138 *)
            match f off1, at_ b2 off2 with
            | CSeq c _ size1 m1, CSeq _ _ size2 m2 =>
                if intact (Blk f) off1 SZ_SEQ && intact b2 off2 SZ_SEQ then
                  if negb (size1 =? size2) then Ok false
                  else if is_constructed_type c
                  then alland size1 (fun i => compare m1 c (wrap32 (i * wrap32 (msize c)))
                                                      m2 (wrap32 (i * wrap32 (msize c))))
                  else memcmp_eq m1 0 m2 0 (wrap32 (size1 * wrap32 (msize c)))
                else Fail UB
            | _, _ => Fail UB
            end
        | TMap _ _ _ =>                              (* MapType.hpp:159-165, MapInstance.hpp:106-127 *)
            match f off1, at_ b2 off2 with
            | CMap k v _ size1 m1, CMap _ _ _ size2 m2 =>
                if intact (Blk f) off1 SZ_MAP && intact b2 off2 SZ_MAP then
                  if negb (size1 =? size2) then Ok false
                  else if is_constructed_type k || is_constructed_type v
                  then alland size1 (fun i => compare m1 (TPair k v) (wrap32 (i * wrap32 (msize k + msize v)))
                                                      m2 (wrap32 (i * wrap32 (msize k + msize v))))
                  else memcmp_eq m1 0 m2 0 (wrap32 (size1 * wrap32 (msize k + msize v)))
                else Fail UB
            | _, _ => Fail UB
            end
        | TPair x y =>                                                   (* PairType.hpp:148-155 *)
            do c1 <- inner x off1 b2 off2;
            if c1 then inner y (off1 + msize x) b2 (off2 + msize x) else Ok false
        | TStruct _ _ ms =>                                              (* StructType.hpp:174-186 *)
            (fix go (l : list (string * N * ty)) : res bool :=
               match l with
               | [] => Ok true
               | (_, mo, mt) :: r =>
                   do c <- inner mt (off1 + mo) b2 (off2 + mo);
                   if c then go r else Ok false
               end) ms
        | TUnion _ _ ms labels _ _ _ =>                                  (* UnionType.hpp:344-364 *)
            match ms with
            | [] => Fail UB
            | (_, _, disc) :: _ =>
                do c <- inner disc off1 b2 off2;
                if c then
                  do l <- get_label disc (Blk f) off1;
                  match lookup_label l labels with
                  | None => Ok true
                  | Some nm =>
                      (fix go (x : list (string * N * ty)) : res bool :=
                         match x with
                         | [] => Fail Assert
                         | (mn, mo, mt) :: r =>
                             if String.eqb nm mn then inner mt (off1 + mo) b2 (off2 + mo) else go r
                         end) ms
                  end
                else Ok false
            end
        | TAlias _ a => inner a off1 b2 off2                             (* AliasType.hpp:98-103 *)
        end
  end.

(** ** move_instance *)
Section Move.
  Variable fc : prim -> prim -> list N -> list N.
  (** [move t b off d doff init]: t.move_instance(d + doff, b + off, init).  The sources are cast to
      const objects, so std::move selects the copy constructors. *)
  Fixpoint move (t : ty) (b : block) (off : N) (d : block) (doff : N) (init : bool) {struct t} : res block :=
    match t with
    | TPrim p => memcpy d doff b off (prim_size p)                      (* PrimitiveType.hpp:212-218 *)
    | TEnum _ sz _ => memcpy d doff b off sz
    | TStr k _ => copy_str k 0 b off d doff                             (* StringType.hpp:101-107: no bound *)
    | TArr _ c n =>                                                     (* ArrayType.hpp:179-196 *)
        if is_constructed_type c
        then for_up n (fun i d => move c b (off + i * msize c) d (doff + i * msize c) init) d
        else memcpy d doff b off (n * msize c)
    | TSeq _ _ =>                                                       (* SequenceType.hpp:115-125 *)
        do d1 <- (if init then destroy t d doff else Ok d);
        copy_seq fc b off d1 doff
    | TMap _ _ _ =>                                                     (* MapType.hpp:121-131 *)
        do d1 <- (if init then destroy t d doff else Ok d);
        copy_map fc b off d1 doff
    | TPair x y =>                                                      (* PairType.hpp:132-139 *)
        do d1 <- move x b off d doff init; move y b (off + msize x) d1 (doff + msize x) init
    | TStruct _ _ ms =>                                                 (* StructType.hpp:154-163 *)
        (fix go (l : list (string * N * ty)) (d : block) {struct l} : res block :=
           match l with
           | [] => Ok d
           | (_, mo, mt) :: r => do d1 <- move mt b (off + mo) d (doff + mo) init; go r d1
           end) ms d
    | TUnion _ _ ms labels _ _ _ =>                                     (* UnionType.hpp:317-330 *)
        match ms with
        | [] => Fail UB
        | (_, _, disc) :: _ =>
            do d1 <- move disc b off d doff init;
            do l <- get_label disc d1 doff;
            match lookup_label l labels with
            | None => Ok d1
            | Some nm =>
                (fix go (x : list (string * N * ty)) : res block :=
                   match x with
                   | [] => Fail Assert
                   | (mn, mo, mt) :: r =>
                       if String.eqb nm mn then move mt b (off + mo) d1 (doff + mo) init else go r
                   end) ms
            end
        end
    | TAlias _ a => move a b off d doff init                            (* AliasType.hpp:84-90 *)
    end.
End Move.
