(** Operations on instances: typed access, sequences, unions, references, DynamicData. *)
From Verif Require Import Base Types TypeBuild Compat Mem Hash MapOps.

Section Ops.
  Variable fc : prim -> prim -> list N -> list N.
  (** std::hash of the three string types. *)
  Variable strhash : skind -> list N -> N.

  (** ** Sequences *)

  (** SequenceInstance::free_memory (SequenceInstance.hpp:317-332): destroys every allocated slot. *)
  Definition seq_free (c : ty) (cap : N) (m : block) : res block :=
    if (cap =? 0) || negb (is_constructed_type c) then Ok m
    else do l <- concat_down (N.to_nat (int32_iterations cap)) (fun i => dlist m c (wrap32 (i * wrap32 (msize c))));
         kill_all l m.
  (** SequenceInstance::move_content (SequenceInstance.hpp:297-315). *)
  Definition seq_move_content (c : ty) (cap size : N) (m target : block) : res block :=
    if cap =? 0 then Ok target
    else if is_constructed_type c
    then for_up size (fun i d => move fc c m (wrap32 (i * wrap32 (msize c))) d (wrap32 (i * wrap32 (msize c))) true) target
    else memcpy target 0 m 0 (wrap32 (size * wrap32 (msize c))).
  (** SequenceInstance::realloc (SequenceInstance.hpp:217-230): new capacity and buffer. *)
  Definition seq_realloc (c : ty) (cap size : N) (m : block) (desired bounds : N) : res (N * block) :=
    let nc := if bounds =? 0 then desired else N.min desired bounds in
    do nm <- init_memory (construct c) (wrap32 (msize c)) (wrap32 nc);
    do nm1 <- seq_move_content c cap size m nm;
    do _ <- seq_free c cap m;
    Ok (wrap32 nc, nm1).
  (** SequenceInstance::push (SequenceInstance.hpp:149-164). *)
  Definition seq_push (c : ty) (cap size : N) (m : block) (src : block) (soff bounds : N) : res (N * N * block) :=
    do r <- (if (cap =? 0) || (size =? cap)
             then seq_realloc c cap size m (if 0 <? cap then wrap32 (cap * 2) else 1) bounds
             else Ok (cap, m));
    let '(cap', m') := r in
    do m1 <- copy fc c src soff m' (wrap32 (size * wrap32 (msize c)));
    Ok (cap', wrap32 (size + 1), m1).
  (** SequenceInstance::resize (SequenceInstance.hpp:169-187); [i * block_size_] is a size_t product. *)
  Definition seq_resize (c : ty) (cap size : N) (m : block) (new_size bounds : N) : res (N * N * block) :=
    if new_size <=? size then Ok (cap, size, m)
    else
      do r <- seq_realloc c cap size m new_size bounds;
      let '(cap', m') := r in
      do m1 <- for_from (N.to_nat (new_size - size)) size (fun i d => construct c d (i * wrap32 (msize c))) m';
      Ok (cap', wrap32 new_size, m1).

  (** Replace the first cell of an object, keeping the object alive. *)
  Definition set_cell (b : block) (off : N) (c : cell) : block := upd b off 1 (fun _ => c).

  (** push through a reference (DynamicData.hpp:1033-1066, SequenceType.hpp:212-221).  The two overloads
      differ in an additional check of T; [src], [soff] is the pushed instance. *)
  Definition push (src : block) (soff : N) (t : ty) (b : block) (off : N) : res block :=
    match rget t with
    | TSeq _ bounds =>
        match at_ b off with
        | CSeq c cap size m =>
            if intact b off SZ_SEQ then
              if (size <? bounds) || (bounds =? 0) then
                do r <- seq_push c cap size m src soff bounds;
                let '(cap', size', m') := r in Ok (set_cell b off (CSeq c cap' size' m'))
              else Fail Assert
            else Fail UB
        | _ => Fail UB
        end
    | _ => Fail Assert
    end.
  (** resize through a reference (DynamicData.hpp:1075-1087). *)
  Definition resize (n : N) (t : ty) (b : block) (off : N) : res block :=
    match rget t with
    | TSeq _ bounds =>
        if (bounds =? 0) || (n <=? bounds) then
          match at_ b off with
          | CSeq c cap size m =>
              if intact b off SZ_SEQ then
                do r <- seq_resize c cap size m n bounds;
                let '(cap', size', m') := r in Ok (set_cell b off (CSeq c cap' size' m'))
              else Fail UB
          | _ => Fail UB
          end
        else Fail Assert
    | _ => Fail Assert
    end.

  (** ** Unions *)

  (** members_.at by name: member(name) asserts existence (AggregationType.hpp:61-66). *)
  Definition member_at (nm : string) (ms : list (string * N * ty)) : res (string * N * ty) :=
    match find_member nm ms with Some m => Ok m | None => Fail Assert end.
  (** activate_member (UnionType.hpp:932-948).  Members are compared by address, i.e. by name. *)
  Definition activate_member (ms : list (string * N * ty)) (labels : list (Z * string)) (disc : ty)
      (m : string * N * ty) (b : block) (off : N) : res block :=
    do l <- get_label disc b off;
    match lookup_label l labels with
    | Some nm =>
        do a <- member_at nm ms;
        if String.eqb (m_name a) (m_name m) then Ok b
        else do b1 <- destroy (m_type a) b (off + m_off a); construct (m_type m) b1 (off + m_off m)
    | None => construct (m_type m) b (off + m_off m)
    end.
  (** select_case (UnionType.hpp:879-894): the labels in increasing order. *)
  Fixpoint select_case_loop (ms : list (string * N * ty)) (labels : list (Z * string)) (disc : ty)
      (nm : string) (ls : list (Z * string)) (b : block) (off : N) : res (block * bool) :=
    match ls with
    | [] => Ok (b, false)
    | (l, x) :: r =>
        do m <- member_at x ms;
        if String.eqb (m_name m) nm
        then do b1 <- activate_member ms labels disc m b off;
             do b2 <- put_label disc b1 off l; Ok (b2, true)
        else select_case_loop ms labels disc nm r b off
    end.
  Definition select_case (u : ty) (nm : string) (b : block) (off : N) : res (block * bool) :=
    match u with
    | TUnion _ _ ((dn, do_, disc) :: cs) labels _ _ _ =>
        select_case_loop ((dn, do_, disc) :: cs) labels disc nm labels b off
    | _ => Fail UB
    end.
  (** select_default (UnionType.hpp:897-908). *)
  Definition select_default (u : ty) (b : block) (off : N) : res (block * bool) :=
    match u with
    | TUnion _ _ ((dn, do_, disc) :: cs) labels _ iv d =>
        if Z.eqb d iv then Ok (b, false)
        else match lookup_label d labels with
             | None => Fail Throw
             | Some x =>
                 do m <- member_at x ((dn, do_, disc) :: cs);
                 do b1 <- activate_member ((dn, do_, disc) :: cs) labels disc m b off;
                 do b2 <- put_label disc b1 off d; Ok (b2, true)
             end
    | _ => Fail UB
    end.
  (** select_disc (UnionType.hpp:852-876): d(value). *)
  Definition select_disc (u : ty) (v : Z) (b : block) (off : N) : res (block * bool) :=
    match u with
    | TUnion _ _ ((_, _, disc) :: _) labels _ iv d =>
        match lookup_label v labels with
        | None =>
            if Z.eqb d iv then Ok (b, false)
            else
              do l <- get_label disc b off;
              match lookup_label l labels with
              | Some _ => Fail Throw                       (* labels_.at(value) *)
              | None => do b1 <- put_label disc b off v; Ok (b1, true)
              end
        | Some x =>
            do l <- get_label disc b off;
            match lookup_label l labels with
            | Some y => if String.eqb y x then do b1 <- put_label disc b off v; Ok (b1, true) else Fail Assert
            | None => do b1 <- put_label disc b off v; Ok (b1, true)
            end
        end
    | _ => Fail UB
    end.
  (** get_current_selection (UnionType.hpp:911-928): the name of the active member. *)
  Definition current_case (u : ty) (b : block) (off : N) : res string :=
    match u with
    | TUnion _ _ ((dn, do_, disc) :: cs) labels _ _ _ =>
        do l <- get_label disc b off;
        match lookup_label l labels with
        | None => Fail Assert
        | Some x => do m <- member_at x ((dn, do_, disc) :: cs); Ok (m_name m)
        end
    | _ => Fail UB
    end.

  (** ** Typed access *)

  (** The C++ types T accepted by value<T>: primitives and the three string types. *)
  Inductive scalar := ScPrim (p : prim) (bs : list N) | ScStr (k : skind) (s : list N).
  Inductive scalar_ty := StPrim (p : prim) | StStr (k : skind).
  Definition scalar_type (x : scalar) : scalar_ty :=
    match x with ScPrim p _ => StPrim p | ScStr k _ => StStr k end.
  (** The C++ object [t] of value(const T& t), seen as a memory block. *)
  Definition scalar_block (x : scalar) : block :=
    match x with
    | ScPrim _ bs => Blk (fun i => if i <? N.of_nat (List.length bs) then CByte (nth (N.to_nat i) bs 0) else CNone)
    | ScStr k s => Blk (fun i => if i =? 0 then CStr k s else if i <? SZ_STRING then CTail else CNone)
    end.
  Definition sizeof (x : scalar_ty) : N := match x with StPrim p => prim_size p | StStr _ => SZ_STRING end.
  (** The assertions of value() (DynamicData.hpp:131-149, 1001-1025). *)
  Definition type_check (t : ty) (x : scalar_ty) : bool :=
    match t, x with
    | TStr k _, StStr k' => skind_eqb k k'
    | TPrim p, StPrim q => prim_eqb p q
    | TEnum _ sz _, _ => sz =? sizeof x
    | _, _ => false
    end.
  (** value<T>() (DynamicData.hpp:131-149): reinterpret_cast of the instance. *)
  Definition get_value (x : scalar_ty) (t : ty) (b : block) (off : N) : res scalar :=
    if type_check (rget t) x then
      match x with
      | StPrim p => do bs <- read_bytes b off (prim_size p); Ok (ScPrim p bs)
      | StStr k =>
          match at_ b off with
          | CStr k' s => if skind_eqb k k' && intact b off SZ_STRING then Ok (ScStr k s) else Fail UB
          | _ => Fail UB
          end
      end
    else Fail Assert.
  (** value(t) (DynamicData.hpp:1001-1025). *)
  Definition set_value (x : scalar) (t : ty) (b : block) (off : N) : res block :=
    if type_check (rget t) (scalar_type x) then
      do _ <- (match rget t, x with
               | TEnum _ _ vals, ScPrim _ bs => assert_ (is_allowed_value vals (le_decode bs))
               | _, _ => Ok tt
               end);
      do b1 <- destroy (rget t) b off;
      copy fc (rget t) (scalar_block x) 0 b1 off
    else Fail Assert.

  (** ** References *)

  (** One access: operator[](name) of a writable reference; operator[](name) of a readable reference (also
      get_member); operator[](index); operator[](key) of a writable reference; at(key).  A key is the instance
      [kb + koff] of a reference: its type is not checked by the code. *)
  Inductive step := SName (nm : string) | SGet (nm : string) | SIdx (i : N) | SKey (kb : block) (koff : N) | SAt (kb : block) (koff : N).

  (** The union part of operator_at_impl with read_only = false (DynamicData.hpp:676-690). *)
  Definition select_for_write (u : ty) (nm : string) (b : block) (off : N) : res block :=
    if String.eqb nm UNION_DISCRIMINATOR then Fail Assert
    else do r <- select_case u nm b off; Ok (fst r).
  (** The same with read_only = true: the member must be the selected one; select_case is called nevertheless. *)
  Definition select_for_read (u : ty) (nm : string) (b : block) (off : N) : res block :=
    if String.eqb nm UNION_DISCRIMINATOR then Fail Assert
    else do x <- current_case u b off;
         if String.eqb nm x then do r <- select_case u nm b off; Ok (fst r) else Fail Assert.

  (** [on_path p f t b off]: evaluate ref[p1][p2]... on the instance [off] of [b] and run [f] on the
      reference obtained (operator_at_impl, DynamicData.hpp:665-693; operator[](index),
      DynamicData.hpp:180-217; operator[](key), 936-952; at, 245-257; the alias resolution of the reference
      constructor, 624-652).  The result is what [f] returns and the new content of [b].
      Simplification: characters of a string are not accessible by index. *)
  Fixpoint on_path {A} (p : list step) (f : ty -> block -> N -> res (A * block)) (t : ty) (b : block) (off : N) {struct p}
    : res (A * block) :=
    match p with
    | [] => f (rget t) b off
    | SName nm :: r =>
        match rget t with
        | TStruct _ _ ms =>
            do m <- member_at nm ms; on_path r f (m_type m) b (off + m_off m)
        | TUnion _ _ ms _ _ _ _ =>
            do m <- member_at nm ms;
            do b1 <- select_for_write (rget t) nm b off;
            on_path r f (m_type m) b1 (off + m_off m)
        | _ => Fail Assert
        end
    | SGet nm :: r =>
        match rget t with
        | TStruct _ _ ms =>
            do m <- member_at nm ms; on_path r f (m_type m) b (off + m_off m)
        | TUnion _ _ ms _ _ _ _ =>
            do m <- member_at nm ms;
            do b1 <- select_for_read (rget t) nm b off;
            on_path r f (m_type m) b1 (off + m_off m)
        | _ => Fail Assert
        end
    | SIdx i :: r =>
        match rget t with
        | TArr _ c n => if i <? n then on_path r f c b (off + i * msize c) else Fail Assert
        | TSeq c _ =>
            match at_ b off with
            | CSeq c' cap size m =>
                if intact b off SZ_SEQ then
                  if i <? size then
                    do x <- on_path r f c m (wrap32 (i * wrap32 (msize c')));
                    Ok (fst x, set_cell b off (CSeq c' cap size (snd x)))
                  else Fail Assert
                else Fail UB
            | _ => Fail UB
            end
        | TPair x y =>
            if i =? 0 then on_path r f x b off
            else if i =? 1 then on_path r f y b (off + msize x) else Fail Assert
        | TStruct _ _ ms =>
            match nth_error ms (N.to_nat i) with
            | Some m => on_path r f (m_type m) b (off + m_off m)
            | None => Fail Assert
            end
        | _ => Fail Assert
        end
    | SKey kb koff :: r =>
        match rget t with
        | TMap k v bounds =>
            match at_ b off with
            | CMap k' v' cap size m =>
                if intact b off SZ_MAP then
                  do a <- map_access fc strhash k' v' cap size m kb koff bounds;
                  let '(cap1, size1, m1, p) := a in
                  do x <- on_path r f v m1 (p * map_bs k' v' + msize k);
                  Ok (fst x, set_cell b off (CMap k' v' cap1 size1 (snd x)))
                else Fail UB
            | _ => Fail UB
            end
        | _ => Fail Assert
        end
    | SAt kb koff :: r =>
        match rget t with
        | TMap k v _ =>
            match at_ b off with
            | CMap k' v' cap size m =>
                if intact b off SZ_MAP then
                  do pl <- find_place strhash k' (map_bs k' v') size m kb koff;
                  if snd pl then
                    do x <- on_path r f v m (fst pl * map_bs k' v' + msize k);
                    Ok (fst x, set_cell b off (CMap k' v' cap size (snd x)))
                  else Fail Assert
                else Fail UB
            | _ => Fail UB
            end
        | _ => Fail Assert
        end
    end.

  (** What a statement returns. *)
  Inductive out := ONone | OVal (x : scalar) | ONat (n : N) | OBool (x : bool) | OName (nm : string).
  Definition writing (f : ty -> block -> N -> res block) (t : ty) (b : block) (off : N) : res (out * block) :=
    do b' <- f t b off; Ok (ONone, b').
  Definition reading (f : ty -> block -> N -> res out) (t : ty) (b : block) (off : N) : res (out * block) :=
    do x <- f t b off; Ok (x, b).

  (** size() (DynamicData.hpp:264-283) with get_instance_size: ArrayType.hpp:291-295,
      SequenceType.hpp:140-144, MapType.hpp:153-157, StringType.hpp:173-177. *)
  Definition get_size (t : ty) (b : block) (off : N) : res out :=
    match rget t with
    | TArr _ _ n => Ok (ONat n)
    | TSeq _ _ => match at_ b off with CSeq _ _ size _ => if intact b off SZ_SEQ then Ok (ONat size) else Fail UB | _ => Fail UB end
    | TMap _ _ _ => match at_ b off with CMap _ _ _ size _ => if intact b off SZ_MAP then Ok (ONat size) else Fail UB | _ => Fail UB end
    | TStr _ _ => match at_ b off with CStr _ s => if intact b off SZ_STRING then Ok (ONat (N.of_nat (List.length s))) else Fail UB | _ => Fail UB end
    | TStruct _ _ ms | TUnion _ _ ms _ _ _ _ => Ok (ONat (N.of_nat (List.length ms)))
    | TPair _ _ => Ok (ONat 2)
    | _ => Fail Assert
    end.
  (** current_case().name() (DynamicData.hpp:231-236). *)
  Definition get_case (t : ty) (b : block) (off : N) : res out :=
    match rget t with
    | TUnion _ _ _ _ _ _ _ => do x <- current_case (rget t) b off; Ok (OName x)
    | _ => Fail Assert
    end.
  (** value<T>() as a statement. *)
  Definition get_scalar (x : scalar_ty) (t : ty) (b : block) (off : N) : res out :=
    do v <- get_value x t b off; Ok (OVal v).
  (** operator== of two references (DynamicData.hpp:82-92); [ot], [ob], [ooff] is the right operand. *)
  Definition ref_eq (ot : ty) (ob : block) (ooff : N) (t : ty) (b : block) (off : N) : res out :=
    match t with
    | TArr nm _ _ => if String.eqb nm (tname ot) then do x <- compare b t off ob ooff; Ok (OBool x) else Ok (OBool false)
    | _ => do x <- compare b t off ob ooff; Ok (OBool x)
    end.
  (** has_key (DynamicData.hpp:984-995; MapType.hpp:237-242, MapInstance::contains_key). *)
  Definition has_key (kt : ty) (kb : block) (koff : N) (t : ty) (b : block) (off : N) : res out :=
    match rget t with
    | TMap k v _ =>
        do c <- is_compatible k kt;
        if c =? EQUALS then
          match at_ b off with
          | CMap k' v' cap size m =>
              if intact b off SZ_MAP
              then do pl <- find_place strhash k' (map_bs k' v') size m kb koff; Ok (OBool (snd pl))
              else Fail UB
          | _ => Fail UB
          end
        else Fail Assert
    | _ => Fail Assert
    end.
  (** insert(pair) (DynamicData.hpp:970-980): the instance of the pair is used as the key. *)
  Definition insert_pair (pt : ty) (pb : block) (poff : N) (t : ty) (b : block) (off : N) : res (out * block) :=
    match rget t with
    | TMap k v bounds =>
        do c <- is_compatible (TPair k v) pt;
        if c =? EQUALS then
          match at_ b off with
          | CMap k' v' cap size m =>
              if intact b off SZ_MAP then
                do r <- insert_instance fc strhash k' v' cap size m pb poff bounds;
                match r with
                | Some (cap1, size1, m1, _) => Ok (OBool true, set_cell b off (CMap k' v' cap1 size1 m1))
                | None => Ok (OBool false, b)
                end
              else Fail UB
          | _ => Fail UB
          end
        else Fail Assert
    | _ => Fail Assert
    end.

  (** ref = other (DynamicData.hpp:819-825), distinct operands. *)
  Definition assign_from (src : block) (soff : N) (t : ty) (b : block) (off : N) : res block :=
    do b1 <- destroy t b off; copy fc t src soff b1 off.

  (** d(value) through a reference (DynamicData.hpp:911-917). *)
  Definition set_disc (v : Z) (t : ty) (b : block) (off : N) : res block :=
    match rget t with
    | TUnion _ _ _ _ _ _ _ => do r <- select_disc (rget t) v b off; Ok (fst r)
    | _ => Fail Assert
    end.
  (** push(T) (DynamicData.hpp:1033-1052): the kind of the content must be the kind of T. *)
  Definition push_scalar (x : scalar) (t : ty) (b : block) (off : N) : res block :=
    match rget t with
    | TSeq c _ =>
        if match c with TPrim _ | TStr _ _ => type_check c (scalar_type x) | _ => false end
        then push (scalar_block x) 0 t b off else Fail Assert
    | _ => Fail Assert
    end.

  (** ** DynamicData *)
  Record data := mkData { d_type : ty; d_mem : block }.

  (** DynamicData(type) (DynamicData.hpp:1323-1330); the reference constructor resolves aliases
      (DynamicData.hpp:624-652). *)
  Definition new_data (t : ty) : res data :=
    do b <- construct (rget t) (fresh (msize t)) 0; Ok (mkData (rget t) b).
  (** DynamicData(const DynamicData&) (DynamicData.hpp:1364-1371). *)
  Definition copy_data (x : data) : res data :=
    do b <- copy fc (d_type x) (d_mem x) 0 (fresh (msize (d_type x))) 0; Ok (mkData (d_type x) b).
  (** DynamicData(DynamicData&&) (DynamicData.hpp:1374-1381); the source is never destroyed. *)
  Definition move_data (x : data) : res data :=
    do b <- move fc (d_type x) (d_mem x) 0 (fresh (msize (d_type x))) 0 false; Ok (mkData (d_type x) b).
  (** DynamicData(other, type) (DynamicData.hpp:1350-1361). *)
  Definition convert_data (x : data) (t : ty) : res data :=
    do c <- is_compatible (rget t) (d_type x);
    if c =? NONE then Fail Assert
    else do b <- copy_from fc (d_mem x) (rget t) (d_type x) 0 (fresh (msize t)) 0; Ok (mkData (rget t) b).
  (** operator=(const DynamicData&) (DynamicData.hpp:1384-1393), distinct operands. *)
  Definition assign_data (x y : data) : res data :=
    do c <- is_compatible (d_type x) (d_type y);
    if c =? EQUALS then do b <- assign_from (d_mem y) 0 (d_type x) (d_mem x) 0; Ok (mkData (d_type x) b)
    else Fail Assert.
  (** The same with [&x == &y]: the source is destroyed before it is copied. *)
  Definition assign_self (x : data) : res data :=
    do b1 <- destroy (d_type x) (d_mem x) 0;
    do b2 <- copy fc (d_type x) b1 0 b1 0;
    Ok (mkData (d_type x) b2).
  (** operator== (DynamicData.hpp:82-92). *)
  Definition data_eq (x y : data) : res bool :=
    match d_type x with
    | TArr nm _ _ =>
        if String.eqb nm (tname (d_type y)) then compare (d_mem x) (d_type x) 0 (d_mem y) 0 else Ok false
    | _ => compare (d_mem x) (d_type x) 0 (d_mem y) 0
    end.
  (** ~DynamicData (DynamicData.hpp:1590-1597): the memory just before delete[]. *)
  Definition destroy_data (x : data) : res block := destroy (d_type x) (d_mem x) 0.
  (** A statement [data[p1][p2]... .op()] on a DynamicData. *)
  Definition run_on {A} (x : data) (p : list step) (f : ty -> block -> N -> res (A * block)) : res (A * data) :=
    do r <- on_path p f (d_type x) (d_mem x) 0; Ok (fst r, mkData (d_type x) (snd r)).
End Ops.
