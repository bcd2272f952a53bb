(** Hashing of instances, used by maps to order and compare keys. *)
From Verif Require Import Base Types TypeBuild Mem.

(** mix (Instanceable.hpp:199-206); uint64_t arithmetic. *)
Definition mix (h : N) : N :=
  let h1 := N.lxor h (N.shiftr h 23) in
  let h2 := u64 (h1 * 0x2127599bf4325c37) in
  N.lxor h2 (N.shiftr h2 47).
Definition HASH_M : N := 0x880355f21e6d1965.
Definition HASH_SEED : N := 0x2145654af87a5b6d.
(** One round of hash64: [h ^= mix(v); h *= m]. *)
Definition hash_round (h v : N) : N := u64 (N.lxor h (mix v) * HASH_M).
(** The loop over the 8-byte words and the tail (Instanceable.hpp:158-179): the switch assembles the
    remaining bytes in little-endian order. *)
Fixpoint hash_words (n : nat) (bs : list N) (h : N) : N :=
  match n with
  | O => match bs with [] => h | _ => hash_round h (le_decode bs) end
  | S k => hash_words k (skipn 8 bs) (hash_round h (le_decode (firstn 8 bs)))
  end.
(** hash64 (Instanceable.hpp:146-182). *)
Definition hash64 (bs : list N) : N :=
  let len := N.of_nat (List.length bs) in
  mix (hash_words (N.to_nat (len / 8)) bs (N.lxor HASH_SEED (u64 (len * HASH_M)))).
(** hash_combine (Instanceable.hpp:185-190). *)
Definition hash_combine (r h : N) : N :=
  N.lxor r (u64 (h + 0x9e3779b9 + u64 (N.shiftl r 6) + N.shiftr r 2)).

Section Hash.
  (** std::hash of the three string types. *)
  Variable strhash : skind -> list N -> N.

  (** hash(instance) of every type.  Simplifications: the content type of a map is taken from the type, not
      from the MapInstance (they are the same for every live map).  The hash of a bounded sequence reads the
      bytes of the SequenceInstance object itself, i.e. addresses (SequenceType.hpp:234-255), or uses it as an
      instance of the content type: [Fail UB]. *)
  Fixpoint hash (t : ty) (b : block) (off : N) {struct t} : res N :=
    match t with
    | TPrim p => do bs <- read_bytes b off (prim_size p); Ok (hash64 bs)     (* Instanceable.hpp:139-144 *)
    | TEnum _ sz _ => do bs <- read_bytes b off sz; Ok (hash64 bs)
    | TStr k _ =>                                                            (* StringType.hpp:180-185 *)
        match at_ b off with
        | CStr k' s => if skind_eqb k k' && intact b off SZ_STRING then Ok (strhash k s) else Fail UB
        | _ => Fail UB
        end
    | TArr _ c n =>                                                          (* ArrayType.hpp:297-318 *)
        if n =? 0 then Ok 0
        else if is_constructed_type c
        then do h <- hash c b off;
             for_from1 n (fun i h => do x <- hash c b (off + i * msize c); Ok (hash_combine h x)) h
        else do bs <- read_bytes b off (n * msize c); Ok (hash64 bs)
    | TSeq _ bd => if bd =? 0 then Ok 0 else Fail UB
    | TMap k v _ =>                                                          (* MapType.hpp:244-249, MapInstance.hpp:195-207 *)
        match at_ b off with
        | CMap _ _ _ size m =>
            if intact b off SZ_MAP then
              if size =? 0 then Ok 0
              else
                let pair i := do x <- hash k m (i * (msize k + msize v));
                              do y <- hash v m (i * (msize k + msize v) + msize k); Ok (hash_combine x y) in
                do h <- pair 0;
                for_from1 size (fun i h => do x <- pair i; Ok (hash_combine h x)) h
            else Fail UB
        | _ => Fail UB
        end
    | TPair x y =>                                                           (* PairType.hpp:216-222 *)
        do a <- hash x b off; do c <- hash y b (off + msize x); Ok (hash_combine a c)
    | TStruct _ _ ms =>                                                      (* StructType.hpp:267-281 *)
        match ms with
        | [] => Ok 0
        | (_, o, t0) :: r =>
            do h <- hash t0 b (off + o);
            (fix go (l : list (string * N * ty)) (h : N) : res N :=
               match l with
               | [] => Ok h
               | (_, mo, mt) :: r => do x <- hash mt b (off + mo); go r (hash_combine h x)
               end) r h
        end
    | TUnion _ _ ms labels _ _ _ =>                                          (* UnionType.hpp:450-460 *)
        match ms with
        | [] => Fail UB
        | (_, _, disc) :: _ =>
            do h <- hash disc b off;
            (* labels_ is keyed by int64_t *)
            let l := if h <? 2 ^ 63 then Z.of_N h else (Z.of_N h - 2 ^ 64)%Z in
            match lookup_label l labels with
            | None => Ok h
            | Some nm =>
                (fix go (x : list (string * N * ty)) : res N :=
                   match x with
                   | [] => Fail Assert
                   | (mn, mo, mt) :: r =>
                       if String.eqb nm mn then (do x <- hash mt b (off + mo); Ok (hash_combine h x)) else go r
                   end) ms
            end
        end
    | TAlias _ a => hash a b off                                             (* AliasType.hpp:172-176 *)
    end.
End Hash.
