(** Map instances: binary search on the hash of the keys, insertion. *)
From Verif Require Import Base Types TypeBuild Mem Hash.

Section MapOps.
  Variable fc : prim -> prim -> list N -> list N.
  Variable strhash : skind -> list N -> N.

  (** The loop of find_place (MapInstance.hpp:379-429).  [s], [e] are istart, iend; start and end always point to
      the elements istart and iend.  Result: index of the place, and whether the hash there is [h]. *)
  Fixpoint find_loop (fuel : nat) (k : ty) (bs : N) (m : block) (h s e : N) : res (N * bool) :=
    match fuel with
    | O => Fail Loop
    | S f =>
        let c := (s + e) / 2 in
        do ch <- hash strhash k m (c * bs);
        if c =? s then
          if h =? ch then Ok (c, true) else if h <? ch then Ok (c, false) else Ok (e, false)
        else if h =? ch then Ok (c, true)
        else if ch <? h then
          if c * bs =? s * bs then Fail Loop           (* current = end; continue: icurrent does not change *)
          else find_loop f k bs m h c e
        else find_loop f k bs m h s c
    end.
  (** find_place (MapInstance.hpp:361-430); with exact = true the place is nullptr when the flag is false. *)
  Definition find_place (k : ty) (bs size : N) (m : block) (src : block) (soff : N) : res (N * bool) :=
    if size =? 0 then Ok (0, false)
    else do h <- hash strhash k src soff; find_loop (S (N.to_nat size)) k bs m h 0 size.
  (** get_key_index (MapInstance.hpp:438-447). *)
  Definition key_index (k : ty) (bs cap size : N) (m : block) (src : block) (soff : N) : res N :=
    if cap =? 0 then Ok 0
    else do r <- find_place k bs size m src soff; if snd r then Ok (fst r) else Fail Assert.

  Definition map_bs (k v : ty) : N := wrap32 (msize k + msize v).
  (** move_content into a new buffer (MapInstance.hpp:303-335): the buffers do not overlap. *)
  Definition map_move_all (k v : ty) (cap size : N) (m target : block) : res block :=
    let bs := map_bs k v in
    if cap =? 0 then Ok target
    else if is_constructed_type k || is_constructed_type v
    then for_up size (fun i d => move fc (TPair k v) m (wrap32 (i * bs)) d (wrap32 (i * bs)) true) target
    else do i <- key_index k bs cap size m m 0; memcpy target 0 m 0 ((size - i) * bs).
  (** move_content one place up, in place: move_content(place + block_size_, place, true) for the place of index
      [p]; from the last element to the first.  Simplifications: block_size_ > 0; a moved-from element keeps its
      value in the model (insert overwrites the only one that is left).  memcpy of the model reads everything
      before writing, i.e. it is std::memmove. *)
  Definition map_shift (k v : ty) (cap size p : N) (m : block) : res block :=
    let bs := map_bs k v in
    do i <- key_index k bs cap size m m (p * bs);
    if is_constructed_type k || is_constructed_type v
    then for_down (wrap32 (size - i))
           (fun j b => move fc (TPair k v) b (p * bs + wrap32 (j * bs)) b (p * bs + bs + wrap32 (j * bs)) true) m
    else memcpy m (p * bs + bs) m (p * bs) ((size - i) * bs).
  (** free_memory (MapInstance.hpp:456-471). *)
  Definition map_free (k v : ty) (cap : N) (m : block) : res block :=
    if cap =? 0 then Ok m
    else do l <- concat_down (N.to_nat (int32_iterations cap)) (fun i => dlist m (TPair k v) (wrap32 (i * map_bs k v)));
         kill_all l m.
  (** realloc (MapInstance.hpp:219-232). *)
  Definition map_realloc (k v : ty) (cap size : N) (m : block) (desired bounds : N) : res (N * block) :=
    let nc := if bounds =? 0 then desired else N.min desired bounds in
    do nm <- init_memory (construct (TPair k v)) (map_bs k v) (wrap32 nc);
    do nm1 <- map_move_all k v cap size m nm;
    do _ <- map_free k v cap m;
    Ok (wrap32 nc, nm1).
  (** insert (MapInstance.hpp:139-155) with create_place (345-359): new capacity, size, buffer, index of the
      new entry. *)
  Definition map_insert (k v : ty) (cap size : N) (m : block) (src : block) (soff bounds : N)
    : res (N * N * block * N) :=
    let bs := map_bs k v in
    do r <- (if (cap =? 0) || (size =? cap)
             then map_realloc k v cap size m (if 0 <? cap then wrap32 (cap * 2) else 1) bounds
             else Ok (cap, m));
    let '(cap', m') := r in
    do pl <- find_place k bs size m' src soff;
    let p := fst pl in
    do _ <- (if (size =? 0) || (p =? size) then Ok tt
             else do h1 <- hash strhash k src soff; do h2 <- hash strhash k m' (p * bs); assert_ (negb (h1 =? h2)));
    do m1 <- (if p =? size then Ok m' else map_shift k v cap' size p m');
    do m2 <- copy fc k src soff m1 (p * bs);
    do m3 <- construct v m2 (p * bs + msize k);
    Ok (cap', wrap32 (size + 1), m3, p).
  (** MapType::insert_instance (MapType.hpp:225-234): None is nullptr. *)
  Definition insert_instance (k v : ty) (cap size : N) (m : block) (src : block) (soff bounds : N)
    : res (option (N * N * block * N)) :=
    if (size <? bounds) || (bounds =? 0)
    then do r <- map_insert k v cap size m src soff bounds; Ok (Some r)
    else Ok None.
  (** The entry operator[](key) of a writable reference gives access to (DynamicData.hpp:936-952): the existing
      one or a new one. *)
  Definition map_access (k v : ty) (cap size : N) (m : block) (src : block) (soff bounds : N)
    : res (N * N * block * N) :=
    do pl <- find_place k (map_bs k v) size m src soff;
    if snd pl then Ok (cap, size, m, fst pl)
    else do r <- insert_instance k v cap size m src soff bounds;
         match r with Some x => Ok x | None => Fail Assert end.
End MapOps.
