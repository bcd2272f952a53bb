(** Building types through the public API: StructType, UnionType, EnumerationType. *)
From Verif Require Import Base Types.

Definition has_member (nm : string) (ms : list (string * N * ty)) : bool :=
  match find_member nm ms with Some _ => true | None => false end.

(** StructType(name, parent) (StructType.hpp:38-44, AggregationType.hpp:86-96, 113-129):
    the parent's members are copied with their offsets, memory_size_ starts at the parent's. *)
Definition struct_new (nm : string) (parent : option ty) : res ty :=
  match parent with
  | None => Ok (TStruct nm 0 [])
  | Some (TStruct _ s ms) => Ok (TStruct nm s ms)
  | Some _ => Fail UB (* not typable in C++ *)
  end.

(** StructType::add_member (StructType.hpp:55-62) with insert_member
    (AggregationType.hpp:102-109): the name check comes first. *)
Definition add_member (t : ty) (nm : string) (mt : ty) : ty * res unit :=
  match t with
  | TStruct n s ms =>
      if has_member nm ms then (t, Fail Assert)
      else (TStruct n (s + msize mt) (ms ++ [(nm, s, mt)]), Ok tt)
  | _ => (t, Fail UB)
  end.

(** EnumerationType<T> under construction: values_ and next_value_
    (EnumerationType.hpp:64-74, EnumeratedType.hpp:153); T is an unsigned type of [sz] bytes. *)
Record enum_st := { es_name : string; es_size : N; es_vals : list (string * N); es_next : N }.

Definition enum_new (nm : string) (sz : N) : enum_st :=
  {| es_name := nm; es_size := sz; es_vals := []; es_next := 0 |}.

(** values_.emplace into a std::map<std::string, T>: kept sorted by name. *)
Fixpoint emplace_name {A} (nm : string) (v : A) (l : list (string * A)) : list (string * A) :=
  match l with
  | [] => [(nm, v)]
  | (k, w) :: r =>
      match String.compare nm k with
      | Lt => (nm, v) :: l
      | Eq => l
      | Gt => (k, w) :: emplace_name nm v r
      end
  end.

Definition has_enumerator (nm : string) (vals : list (string * N)) : bool :=
  match assoc nm vals with Some _ => true | None => false end.

(** add_enumerator(name, value) (EnumerationType.hpp:32-42, EnumeratedType.hpp:145-151);
    [value] is a value of T, [value + 1] is computed in int and converted back to T. *)
Definition add_enumerator (e : enum_st) (nm : string) (v : N) : enum_st * res unit :=
  if v <? es_next e then (e, Fail Assert)
  else if has_enumerator nm (es_vals e) then (e, Fail Assert)
  else ({| es_name := es_name e; es_size := es_size e;
           es_vals := emplace_name nm v (es_vals e);
           es_next := (v + 1) mod (2 ^ (8 * es_size e)) |}, Ok tt).

(** add_enumerator(name) (EnumerationType.hpp:44-48). *)
Definition add_enumerator_next (e : enum_st) (nm : string) : enum_st * res unit :=
  add_enumerator e nm (es_next e).

Definition enum_type (e : enum_st) : ty := TEnum (es_name e) (es_size e) (es_vals e).

(** value(name), enumerator(value), is_allowed_value(value) (EnumeratedType.hpp:48-80);
    iteration over the std::map is by increasing name. *)
Definition enum_value (vals : list (string * N)) (nm : string) : res N :=
  match assoc nm vals with Some v => Ok v | None => Fail Assert end.
Fixpoint enum_enumerator (vals : list (string * N)) (v : N) : string :=
  match vals with
  | [] => ""%string
  | (n, w) :: r => if w =? v then n else enum_enumerator r v
  end.
Fixpoint is_allowed_value (vals : list (string * N)) (v : N) : bool :=
  match vals with
  | [] => false
  | (_, w) :: r => if w =? v then true else is_allowed_value r v
  end.

(** static_cast<int64_t> of a mathematical value. *)
Definition to_i64 (x : Z) : Z :=
  (let m := x mod 18446744073709551616 in
   if m <? 9223372036854775808 then m else m - 18446744073709551616)%Z.

(** default_union_label (UnionType.hpp:42-46) = INT64_MAX >> ((8 - size) * 8). *)
Definition default_union_label (sz : N) : Z :=
  Z.shiftr 9223372036854775807 (8 * (8 - Z.of_N sz)).

(** shrink_label (UnionType.hpp:48-54): keep the low [sz] bytes. *)
Definition shrink_label (l : Z) (sz : N) : Z :=
  to_i64 (Z.land (l mod 18446744073709551616)
                 (Z.shiftr 18446744073709551615 (8 * (8 - Z.of_N sz)))).

(** check_discriminator (UnionType.hpp:485-501). *)
Definition check_discriminator (t : ty) : bool :=
  match rget t with
  | TPrim PF32 | TPrim PF64 | TPrim PF128 => false
  | TPrim _ => true
  | TEnum _ _ _ => true
  | _ => false
  end.

Definition UNION_DISCRIMINATOR : string := "discriminator".

(** UnionType(name, discriminator) (UnionType.hpp:64-79, 475-482). *)
Definition union_new (nm : string) (disc : ty) : res ty :=
  do _ <- assert_ (check_discriminator disc);
  let dv := default_union_label (msize disc) in
  Ok (TUnion nm (msize disc) [(UNION_DISCRIMINATOR, 0, disc)] [] dv (dv - 1) (dv - 1)).

(** check_label_value (UnionType.hpp:504-523).  The enumeration is cast to
    EnumerationType<uint32_t>: undefined for the 1- and 2-byte enumerations. *)
Definition check_label_value (disc : ty) (dv l : Z) : res unit :=
  do _ <- assert_ (negb (Z.eqb l dv));
  match rget disc with
  | TEnum _ sz vals =>
      if sz =? 4 then assert_ (is_allowed_value vals (Z.to_N (l mod 4294967296)))
      else Fail UB
  | _ => Ok tt
  end.

Fixpoint check_labels (disc : ty) (dv : Z) (labels : list (Z * string)) (ls : list Z) : res unit :=
  match ls with
  | [] => Ok tt
  | x :: r =>
      let l := shrink_label x (msize disc) in
      do _ <- check_label_value disc dv l;
      do _ <- assert_ (match lookup_label l labels with None => true | Some _ => false end);
      check_labels disc dv labels r
  end.

(** labels_[l] = name on a std::map<int64_t, std::string>. *)
Fixpoint set_label (l : Z) (nm : string) (ls : list (Z * string)) : list (Z * string) :=
  match ls with
  | [] => [(l, nm)]
  | (k, s) :: r =>
      if Z.ltb l k then (l, nm) :: ls
      else if Z.eqb l k then (l, nm) :: r
      else (k, s) :: set_label l nm r
  end.

(** add_case_member(labels, member, is_default) (UnionType.hpp:91-149).  Returns the new state
    of the type together with the outcome because the last assertion (line 140) fires after the
    member and its labels were stored.  [labels] are the values of type T converted to int64_t.
    maximum_case_member_memory_ is memory_size_ minus the discriminator size (lines 117-121). *)
Definition add_case_member (t : ty) (ls : list Z) (nm : string) (mt : ty) (is_default : bool)
  : ty * res unit :=
  match t with
  | TUnion n s (((dn, doff, disc) :: cases) as ms) labels dv iv d =>
      if negb (is_default || negb (match ls with [] => true | _ => false end)) then (t, Fail Assert)
      else if String.eqb UNION_DISCRIMINATOR nm then (t, Fail Assert)
      else
        match check_labels disc dv labels ls with
        | Fail e => (t, Fail e)
        | Ok _ =>
            if has_member nm ms then (t, Fail Assert)
            else
              let off := msize disc in
              let s' := if s - msize disc <? msize mt then msize disc + msize mt else s in
              let ms' := ms ++ [(nm, off, mt)] in
              let labels' :=
                fold_left (fun acc x =>
                  let l := shrink_label x (msize disc) in
                  if Z.eqb l dv then acc else set_label l nm acc) ls labels in
              let first :=
                match filter (fun l => negb (Z.eqb l dv))
                             (map (fun x => shrink_label x (msize disc)) ls) with
                | [] => dv
                | l :: _ => l
                end in
              if is_default then
                if Z.eqb d iv then
                  let labels'' := if Z.eqb first dv then set_label first nm labels' else labels' in
                  (TUnion n s' ms' labels'' dv iv first, Ok tt)
                else (TUnion n s' ms' labels' dv iv d, Fail Assert)
              else (TUnion n s' ms' labels' dv iv d, Ok tt)
        end
  | _ => (t, Fail UB)
  end.

(** get_labels, get_default, is_default (UnionType.hpp:201-235). *)
Definition get_labels (t : ty) (nm : string) : list Z :=
  match t with
  | TUnion _ _ _ labels dv _ _ =>
      map fst (filter (fun p => String.eqb (snd p) nm && negb (Z.eqb (fst p) dv)) labels)
  | _ => []
  end.
Definition get_default (t : ty) : res string :=
  match t with
  | TUnion _ _ _ labels _ iv d =>
      if Z.eqb d iv then Ok ""%string
      else match lookup_label d labels with Some s => Ok s | None => Fail Throw end
  | _ => Fail UB
  end.
