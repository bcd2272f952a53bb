(** Types: TypeKind, the DynamicType hierarchy and memory sizes. *)
From Verif Require Import Base.

(** PrimitiveType<T> instances (include/xtypes/PrimitiveType.hpp:45-59). *)
Inductive prim :=
| PBool | PI8 | PU8 | PI16 | PU16 | PI32 | PU32 | PI64 | PU64
| PF32 | PF64 | PF128 | PC8 | PC16 | PWC.

Definition prim_eqb (a b : prim) : bool :=
  match a, b with
  | PBool, PBool | PI8, PI8 | PU8, PU8 | PI16, PI16 | PU16, PU16 | PI32, PI32
  | PU32, PU32 | PI64, PI64 | PU64, PU64 | PF32, PF32 | PF64, PF64 | PF128, PF128
  | PC8, PC8 | PC16, PC16 | PWC, PWC => true
  | _, _ => false
  end.

(** sizeof(T) on x86-64 Linux (PrimitiveType.hpp:112-115 memory_size). *)
Definition prim_size (p : prim) : N :=
  match p with
  | PBool | PI8 | PU8 | PC8 => 1
  | PI16 | PU16 | PC16 => 2
  | PI32 | PU32 | PF32 | PWC => 4
  | PI64 | PU64 | PF64 => 8
  | PF128 => 16
  end.

(** The three TStringType specialisations (include/xtypes/StringType.hpp:196-206). *)
Inductive skind := SK8 | SKW | SK16.
Definition skind_eqb (a b : skind) : bool :=
  match a, b with SK8, SK8 | SKW, SKW | SK16, SK16 => true | _, _ => false end.

(** A Member: name, offset_, type_ (include/xtypes/Member.hpp:33-133).
    Simplification: the id/key/optional annotations are not used by any modelled function. *)

(** DynamicType hierarchy.
    - [TEnum nm sz vals]: EnumerationType<T> with sizeof(T) = sz in {1,2,4}
      (EnumerationType.hpp:64-71), vals = values_ (EnumeratedType.hpp:153).
    - [TArr nm c n]: ArrayType; the name is stored because the two constructors
      compute it differently (ArrayType.hpp:40-49 and 75-93).
    - [TMap k v b]: MapType whose content_ is PairType(k, v) (MapType.hpp:40-50).
    - [TStruct nm msize ms]: StructType with memory_size_ and members_
      (StructType.hpp:290-292, AggregationType.hpp:131-133).
    - [TUnion nm msize ms labels dv iv d]: UnionType with labels_, default_value_,
      invalid_value_, default_ (UnionType.hpp:64-79, 1131-1150); members_[0] is the
      discriminator (UnionType.hpp:475-482).  labels_ is a std::map, kept sorted.
    Simplification: parent_ of a StructType is not stored (its members are copied,
    AggregationType.hpp:113-129); shared_ptr identity of types is modelled in [TypeHeap] only. *)
Inductive ty :=
| TPrim (p : prim)
| TEnum (nm : string) (sz : N) (vals : list (string * N))
| TStr (k : skind) (bound : N)
| TArr (nm : string) (c : ty) (n : N)
| TSeq (c : ty) (bound : N)
| TMap (k v : ty) (bound : N)
| TPair (a b : ty)
| TStruct (nm : string) (msize : N) (ms : list (string * N * ty))
| TUnion (nm : string) (msize : N) (ms : list (string * N * ty))
         (labels : list (Z * string)) (dv iv d : Z)
| TAlias (nm : string) (t : ty).

Definition m_name (m : string * N * ty) : string := fst (fst m).
Definition m_off (m : string * N * ty) : N := snd (fst m).
Definition m_type (m : string * N * ty) : ty := snd m.

(** TypeKind values (include/xtypes/TypeKind.hpp:27-72). *)
Definition K_PRIMITIVE : N := 0x4000.
Definition K_CONSTRUCTED : N := 0x8000.
Definition K_COLLECTION : N := 0x200.
Definition K_AGGREGATION : N := 0x100.
Definition K_ENUMERATED : N := 0x400.
Definition K_UNSIGNED : N := 0x80.

Definition prim_kind (p : prim) : N :=
  N.lor K_PRIMITIVE
    match p with
    | PBool => 1 | PI8 => 2 | PU8 => N.lor 3 K_UNSIGNED | PI16 => 4
    | PU16 => N.lor 5 K_UNSIGNED | PI32 => 6 | PU32 => N.lor 7 K_UNSIGNED
    | PI64 => 8 | PU64 => N.lor 9 K_UNSIGNED | PF32 => 10 | PF64 => 11 | PF128 => 12
    | PC8 => 13 | PC16 => 14 | PWC => 15
    end.

Definition K_ENUMERATION := N.lor (N.lor K_CONSTRUCTED K_ENUMERATED) 1.
Definition K_ALIAS := N.lor K_CONSTRUCTED 3.
Definition K_ARRAY := N.lor (N.lor K_CONSTRUCTED K_COLLECTION) 4.
Definition K_SEQUENCE := N.lor (N.lor K_CONSTRUCTED K_COLLECTION) 5.
Definition K_STRING := N.lor (N.lor K_CONSTRUCTED K_COLLECTION) 6.
Definition K_WSTRING := N.lor (N.lor K_CONSTRUCTED K_COLLECTION) 7.
Definition K_MAP := N.lor (N.lor K_CONSTRUCTED K_COLLECTION) 8.
Definition K_STRING16 := N.lor (N.lor K_CONSTRUCTED K_COLLECTION) 9.
Definition K_UNION := N.lor (N.lor K_CONSTRUCTED K_AGGREGATION) 9.
Definition K_STRUCTURE := N.lor (N.lor K_CONSTRUCTED K_AGGREGATION) 10.
Definition K_PAIR := N.lor K_CONSTRUCTED 15.

(** DynamicType::kind() (include/xtypes/DynamicType.hpp:45-58). *)
Definition kind (t : ty) : N :=
  match t with
  | TPrim p => prim_kind p
  | TEnum _ _ _ => K_ENUMERATION
  | TStr SK8 _ => K_STRING
  | TStr SKW _ => K_WSTRING
  | TStr SK16 _ => K_STRING16
  | TArr _ _ _ => K_ARRAY
  | TSeq _ _ => K_SEQUENCE
  | TMap _ _ _ => K_MAP
  | TPair _ _ => K_PAIR
  | TStruct _ _ _ => K_STRUCTURE
  | TUnion _ _ _ _ _ _ _ => K_UNION
  | TAlias _ _ => K_ALIAS
  end.

(** DynamicType.hpp:60-95. *)
Definition has_bits (t : ty) (m : N) : bool := negb (N.land (kind t) m =? 0).
Definition is_primitive_type (t : ty) : bool := has_bits t K_PRIMITIVE.
Definition is_collection_type (t : ty) : bool := has_bits t K_COLLECTION.
Definition is_aggregation_type (t : ty) : bool := has_bits t K_AGGREGATION.
Definition is_constructed_type (t : ty) : bool := has_bits t K_CONSTRUCTED.
Definition is_enumerated_type (t : ty) : bool := has_bits t K_ENUMERATED.

(** sizeof(std::basic_string<...>), sizeof(SequenceInstance), sizeof(MapInstance):
    libstdc++ on x86-64.  No proof depends on the numbers, only on their being positive. *)
Definition SZ_STRING : N := 32.
Definition SZ_SEQ : N := 56.
Definition SZ_MAP : N := 56.

(** memory_size() of each type: PrimitiveType.hpp:112, StringType.hpp:51, ArrayType.hpp:102,
    SequenceType.hpp:70, MapType.hpp:74, PairType.hpp:85, StructType.hpp:89,
    UnionType.hpp:248, AliasType.hpp:58.
    Simplification: size_t products/sums are unbounded naturals. *)
Fixpoint msize (t : ty) : N :=
  match t with
  | TPrim p => prim_size p
  | TEnum _ sz _ => sz
  | TStr _ _ => SZ_STRING
  | TArr _ c n => n * msize c
  | TSeq _ _ => SZ_SEQ
  | TMap _ _ _ => SZ_MAP
  | TPair a b => msize a + msize b
  | TStruct _ s _ => s
  | TUnion _ s _ _ _ _ _ => s
  | TAlias _ t => msize t
  end.

(** AliasType::rget (AliasType.hpp:152-159), extended by the identity on other types. *)
Fixpoint rget (t : ty) : ty :=
  match t with TAlias _ a => rget a | _ => t end.

(** The repeated "alias -> rget, one-member struct -> its member" unwrapping performed at
    the start of copy_instance_from_type in PrimitiveType.hpp:140-153, ArrayType.hpp:140-153,
    StringType.hpp:77-90, SequenceType.hpp:93-106, MapType.hpp:97-110, PairType.hpp:110-123. *)
Fixpoint strip1 (t : ty) : ty :=
  match t with
  | TAlias _ a => strip1 a
  | TStruct _ _ [(_, _, m)] => strip1 m
  | _ => t
  end.

(** Member lookup by name (AggregationType.hpp:61-66). *)
Fixpoint find_member (nm : string) (ms : list (string * N * ty)) : option (string * N * ty) :=
  match ms with
  | [] => None
  | m :: r => if String.eqb nm (m_name m) then Some m else find_member nm r
  end.

(** labels_.find(l) for std::map<int64_t, std::string> (UnionType.hpp). *)
Fixpoint lookup_label (l : Z) (ls : list (Z * string)) : option string :=
  match ls with
  | [] => None
  | (k, s) :: r => if Z.eqb l k then Some s else lookup_label l r
  end.

(** std::to_string for unsigned values. *)
Fixpoint dec_digits (fuel : nat) (x : N) (acc : string) : string :=
  match fuel with
  | O => acc
  | S f =>
      let c := ascii_of_N (48 + x mod 10) in
      if x <? 10 then String c acc else dec_digits f (x / 10) (String c acc)
  end.
Definition to_string (x : N) : string := dec_digits (S (N.to_nat (N.log2 x))) x "".

(** DynamicType::name(): PrimitiveType.hpp:37-59 (stringised C++ type), StringType.hpp:41-49,
    SequenceType.hpp:36-63, MapType.hpp:46, PairType.hpp:38, others store their name. *)
Definition prim_name (p : prim) : string :=
  match p with
  | PBool => "bool" | PI8 => "int8_t" | PU8 => "uint8_t" | PI16 => "int16_t"
  | PU16 => "uint16_t" | PI32 => "int32_t" | PU32 => "uint32_t" | PI64 => "int64_t"
  | PU64 => "uint64_t" | PF32 => "float" | PF64 => "double" | PF128 => "long double"
  | PC8 => "char" | PC16 => "char16_t" | PWC => "wchar_t"
  end%string.

Definition skind_name (k : skind) : string :=
  match k with SK8 => "std::string" | SKW => "std::wstring" | SK16 => "std::u16string" end%string.

Fixpoint tname (t : ty) : string :=
  match t with
  | TPrim p => prim_name p
  | TEnum nm _ _ => nm
  | TStr k b => (skind_name k ++ (if (0 <? b)%N then "_" ++ to_string b else ""))%string
  | TArr nm _ _ => nm
  | TSeq c b => ("sequence_" ++ (if (0 <? b)%N then to_string b ++ "_" else "") ++ tname c)%string
  | TMap k v b => ("map_" ++ (if (0 <? b)%N then to_string b ++ "_" else "")
                     ++ "pair_" ++ tname k ++ "_" ++ tname v)%string
  | TPair a b => ("pair_" ++ tname a ++ "_" ++ tname b)%string
  | TStruct nm _ _ => nm
  | TUnion nm _ _ _ _ _ _ => nm
  | TAlias nm _ => nm
  end.

(** ArrayType(content, dimension) (ArrayType.hpp:40-49). *)
Definition mk_array (c : ty) (n : N) : ty :=
  TArr ("array_" ++ to_string n ++ "_" ++ tname c)%string c n.

(** ArrayType(content, dimensions) (ArrayType.hpp:75-93): note that the name is built from
    the innermost content's name and the first dimension only. *)
Fixpoint mk_array_dims (c : ty) (dims : list N) : res ty :=
  match dims with
  | [] => Fail Assert
  | [n] => Ok (TArr ("array_" ++ to_string n ++ "_" ++ tname c)%string c n)
  | n :: rest =>
      do inner <- mk_array_dims c rest;
      Ok (TArr ("array_" ++ to_string n ++ "_" ++ tname c)%string inner n)
  end.
