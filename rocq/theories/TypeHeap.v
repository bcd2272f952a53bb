(** The objects types are: DynamicType objects with addresses, DynamicType::Ptr, the copies the
    library makes of types, and the types its data hold.  [Types] treats a type as a value; this
    file models what the value is stored in. *)
From Verif Require Import Base Types TypeBuild.
From Coq Require Import Lia.

(** One object without the objects it points to: the fields of the class itself.
    EnumeratedType.hpp:153, ArrayType.hpp:329, MutableCollectionType.hpp:49 (strings, sequences,
    maps), AggregationType.hpp:131-133 with Member.hpp:127-132 (name_, offset_),
    StructType.hpp:290-292, UnionType.hpp:1131-1150, AliasType.hpp:187, DynamicType.hpp:224-225.
    Simplifications: those of [Types.ty]; a MapType's PairType object is not separate from the
    map (nothing else can reach it for writing). *)
Inductive lab :=
| LPrim (p : prim)
| LEnum (nm : string) (sz : N) (vals : list (string * N))
| LStr (k : skind) (bound : N)
| LArr (nm : string) (n : N)
| LSeq (bound : N)
| LMap (bound : N)
| LPair
| LStruct (nm : string) (msize : N) (ms : list (string * N))
| LUnion (nm : string) (msize : N) (ms : list (string * N)) (labels : list (Z * string)) (dv iv d : Z)
| LAlias (nm : string).

(** The fields of the outermost object of a type, the types it points to, and the type given by
    both (content_, the type_ of every Member, aliased_: CollectionType.hpp:60, Member.hpp:128,
    AliasType.hpp:187). *)
Definition label (t : ty) : lab :=
  match t with
  | TPrim p => LPrim p
  | TEnum nm sz vals => LEnum nm sz vals
  | TStr k b => LStr k b
  | TArr nm _ n => LArr nm n
  | TSeq _ b => LSeq b
  | TMap _ _ b => LMap b
  | TPair _ _ => LPair
  | TStruct nm s ms => LStruct nm s (map fst ms)
  | TUnion nm s ms labels dv iv d => LUnion nm s (map fst ms) labels dv iv d
  | TAlias nm _ => LAlias nm
  end.
Definition kids (t : ty) : list ty :=
  match t with
  | TPrim _ | TEnum _ _ _ | TStr _ _ => []
  | TArr _ c _ | TSeq c _ | TAlias _ c => [c]
  | TMap a b _ | TPair a b => [a; b]
  | TStruct _ _ ms | TUnion _ _ ms _ _ _ _ => map snd ms
  end.
Definition join (l : lab) (ts : list ty) : option ty :=
  match l, ts with
  | LPrim p, [] => Some (TPrim p)
  | LEnum nm sz vals, [] => Some (TEnum nm sz vals)
  | LStr k b, [] => Some (TStr k b)
  | LArr nm n, [c] => Some (TArr nm c n)
  | LSeq b, [c] => Some (TSeq c b)
  | LMap b, [x; y] => Some (TMap x y b)
  | LPair, [x; y] => Some (TPair x y)
  | LStruct nm s ms, ts =>
      if Nat.eqb (List.length ms) (List.length ts) then Some (TStruct nm s (combine ms ts)) else None
  | LUnion nm s ms labels dv iv d, ts =>
      if Nat.eqb (List.length ms) (List.length ts) then Some (TUnion nm s (combine ms ts) labels dv iv d) else None
  | LAlias nm, [c] => Some (TAlias nm c)
  | _, _ => None
  end.

(** An object: whether a std::shared_ptr owns it (only then shared_from_this does not throw,
    DynamicType.hpp:36-37), next_value_ if it is an EnumerationType<T> (EnumerationType.hpp:73),
    its fields, the objects its DynamicType::Ptr fields point to.
    [None] is a destroyed object.  Simplification: an object owned by shared pointers stays;
    it would be destroyed with the last pointer to it, when nobody can look at it. *)
Record cell := Cell { managed : bool; next_of : option N; lab_of : lab; kids_of : list nat }.
Definition heap := list (option cell).

Definition get (h : heap) (a : nat) : option cell :=
  match nth_error h a with Some (Some c) => Some c | _ => None end.
Fixpoint put (h : heap) (a : nat) (x : option cell) : heap :=
  match h, a with
  | [], _ => []
  | _ :: r, O => x :: r
  | y :: r, S a' => y :: put r a' x
  end.

Fixpoint all_some {A} (l : list (option A)) : option (list A) :=
  match l with
  | [] => Some []
  | Some x :: r => match all_some r with Some xs => Some (x :: xs) | None => None end
  | None :: _ => None
  end.

(** The type an object is, as anybody sees who reads it through its public members.  The number
    is the nesting followed; [look_type] follows as many as there are objects. *)
Fixpoint view (n : nat) (h : heap) (a : nat) : option ty :=
  match n with
  | O => None
  | S n' =>
      match get h a with
      | Some c =>
          match all_some (map (view n' h) (kids_of c)) with
          | Some ts => join (lab_of c) ts
          | None => None
          end
      | None => None
      end
  end.
Definition look_type (h : heap) (a : nat) : option ty := view (List.length h) h a.

(** dont_clone_type (DynamicType.hpp:332-338). *)
Definition is_prim (l : lab) : bool := match l with LPrim _ => true | _ => false end.

Fixpoint each {A} (f : heap -> A -> option (heap * nat)) (h : heap) (l : list A) : option (heap * list nat) :=
  match l with
  | [] => Some (h, [])
  | a :: r =>
      match f h a with
      | Some (h1, b) =>
          match each f h1 r with Some (h2, bs) => Some (h2, b :: bs) | None => None end
      | None => None
      end
  end.

(** The copy constructors, all defaulted, so that every DynamicType::Ptr field is copied by
    Ptr(const Ptr&) (DynamicType.hpp:262-268): Ptr(const DynamicType&) (DynamicType.hpp:242-256)
    keeps the object if it is primitive and owned by a shared_ptr, otherwise clones it.  clone()
    (StructType.hpp:285-288 and the like: make_shared of the copy constructor) gives an object
    owned by a shared_ptr ([m]).  EnumeratedType::clone (EnumeratedType.hpp:133-138), which
    EnumerationType does not override, makes an EnumeratedType: without next_value_. *)
Fixpoint clone (n : nat) (m : bool) (h : heap) (a : nat) : option (heap * nat) :=
  match n with
  | O => None
  | S n' =>
      match get h a with
      | Some c =>
          match each (fun h b =>
                  match get h b with
                  | Some d => if is_prim (lab_of d) && managed d then Some (h, b) else clone n' true h b
                  | None => None
                  end) h (kids_of c) with
          | Some (h', ks) => Some ((h' ++ [Some (Cell m (if m then None else next_of c) (lab_of c) ks)])%list, List.length h')
          | None => None
          end
      | None => None
      end
  end.

(** Ptr(const DynamicType&) (DynamicType.hpp:242-256). *)
Definition ptr (n : nat) (h : heap) (a : nat) : option (heap * nat) :=
  match get h a with
  | Some d => if is_prim (lab_of d) && managed d then Some (h, a) else clone n true h a
  | None => None
  end.

(** AliasType::rget (AliasType.hpp:152-159) on objects. *)
Fixpoint rget_at (n : nat) (h : heap) (a : nat) : option nat :=
  match n with
  | O => None
  | S n' =>
      match get h a with
      | Some (Cell _ _ (LAlias _) [b]) => rget_at n' h b
      | Some _ => Some a
      | None => None
      end
  end.

(** The constructors: primitive_type<T>() (PrimitiveType.hpp:45-59), EnumerationType, StringType, ArrayType, SequenceType, MapType, PairType, AliasType,
    StructType without and with a parent, UnionType. *)
Inductive maker :=
| MPrim (p : prim) | MEnum (nm : string) (sz : N) | MStr (k : skind) (b : N)
| MArr (n : N) | MSeq (b : N) | MMap (b : N) | MPair | MAlias (nm : string)
| MStruct (nm : string) | MChild (nm : string) | MUnion (nm : string).

(** The type made from types: [Types], [TypeBuild]. *)
Definition build (k : maker) (ts : list ty) : res ty :=
  match k, ts with
  | MPrim p, [] => Ok (TPrim p)
  | MEnum nm sz, [] => Ok (enum_type (enum_new nm sz))
  | MStr s b, [] => Ok (TStr s b)
  | MArr n, [c] => Ok (mk_array c n)
  | MSeq b, [c] => Ok (TSeq c b)
  | MMap b, [x; y] => Ok (TMap x y b)
  | MPair, [x; y] => Ok (TPair x y)
  | MAlias nm, [c] => Ok (TAlias nm c)
  | MStruct nm, [] => struct_new nm None
  | MChild nm, [p] => struct_new nm (Some p)
  | MUnion nm, [d] => union_new nm d
  | _, _ => Fail UB
  end.

(** Changes made in place: add_member (StructType.hpp:55-62), add_case_member
    (UnionType.hpp:91-149); DynamicType::name(name) (DynamicType.hpp:197-203; of the types whose
    name [Types] stores), add_enumerator(name) and add_enumerator(name, value)
    (EnumerationType.hpp:32-48), which reads and writes next_value_: past the end of an object
    that has none. *)
Inductive change := CMember (x : string) | CCase (ls : list Z) (x : string) (dflt : bool).
Definition changed (c : change) (t mt : ty) : ty * res unit :=
  match c with
  | CMember x => add_member t x mt
  | CCase ls x dflt => add_case_member t ls x mt dflt
  end.
Inductive alteration := AName (x : string) | AEnum (x : string) (v : option N).
Definition altered (c : alteration) (t : ty) (nx : option N) : ty * option N * res unit :=
  match c, t, nx with
  | AName x, TEnum _ sz vals, _ => (TEnum x sz vals, nx, Ok tt)
  | AName x, TArr _ c n, _ => (TArr x c n, nx, Ok tt)
  | AName x, TStruct _ s ms, _ => (TStruct x s ms, nx, Ok tt)
  | AName x, TUnion _ s ms labels dv iv d, _ => (TUnion x s ms labels dv iv d, nx, Ok tt)
  | AName x, TAlias _ c, _ => (TAlias x c, nx, Ok tt)
  | AEnum x v, TEnum nm sz vals, Some k =>
      let (e, r) := add_enumerator {| es_name := nm; es_size := sz; es_vals := vals; es_next := k |} x
                      (match v with Some v => v | None => k end) in
      (enum_type e, Some (es_next e), r)
  | _, _, _ => (t, nx, Fail UB)
  end.

(** An object of the program: a variable, then member or content types of it
    (Member::type(), content_type(), key(), value(), get()). *)
Definition obj := (nat * list nat)%type.

(** What a program does with types: declare a variable of a type class, copy a type into a new
    variable, make a DynamicType::Ptr of a type (what Module's maps hold as well), change a type
    in place through a variable (a variable of a type class, Ptr::operator->
    (DynamicType.hpp:314-319), Module::structure(name) (Module.hpp:205-217)), end a variable's
    life (destructor, Ptr::free), make a DynamicData of a type. *)
Inductive op :=
| New (k : maker) (args : list obj)
| Copy (o : obj)
| Point (o : obj)
| Change (i : nat) (c : change) (o : obj)
| Alter (i : nat) (c : alteration)
| Drop (i : nat)
| Data (o : obj).

Record st := St { the_heap : heap; vars : list (option nat); datas : list nat }.

Fixpoint follow (h : heap) (a : nat) (p : list nat) : option nat :=
  match p with
  | [] => Some a
  | i :: r =>
      match get h a with
      | Some c => match nth_error (kids_of c) i with Some b => follow h b r | None => None end
      | None => None
      end
  end.
Definition at_obj (s : st) (o : obj) : option nat :=
  match nth_error (vars s) (fst o) with
  | Some (Some a) => follow (the_heap s) a (snd o)
  | _ => None
  end.

Definition set_nth {A} (l : list A) (i : nat) (x : A) : list A :=
  firstn i l ++ match skipn i l with [] => [] | _ :: r => x :: r end.

(** One step.  [Fail UB] with an unchanged state is a program that C++ would not accept. *)
Definition step (s : st) (o : op) : st * res unit :=
  let h := the_heap s in
  let n := List.length h in
  match o with
  | New k args =>
      match all_some (map (at_obj s) args) with
      | Some addrs =>
          match all_some (map (look_type h) addrs) with
          | Some ts =>
              match build k ts with
              | Fail e => (s, Fail e)
              | Ok t =>
                  let from :=
                    match k, addrs with
                    | MChild _, [a] => match get h a with Some c => kids_of c | None => [] end
                    | _, _ => addrs
                    end in
                  match each (ptr n) h from with
                  | Some (h', ks) =>
                      (St (h' ++ [Some (Cell false (match k with MEnum _ _ => Some 0 | _ => None end) (label t) ks)]) (vars s ++ [Some (List.length h')]) (datas s), Ok tt)
                  | None => (s, Fail UB)
                  end
              end
          | None => (s, Fail UB)
          end
      | None => (s, Fail UB)
      end
  | Copy o =>
      match at_obj s o with
      | Some a =>
          match clone n false h a with
          | Some (h', b) => (St h' (vars s ++ [Some b]) (datas s), Ok tt)
          | None => (s, Fail UB)
          end
      | None => (s, Fail UB)
      end
  | Point o =>
      match at_obj s o with
      | Some a =>
          match ptr n h a with
          | Some (h', b) => (St h' (vars s ++ [Some b]) (datas s), Ok tt)
          | None => (s, Fail UB)
          end
      | None => (s, Fail UB)
      end
  | Change i c o =>
      match at_obj s (i, []), at_obj s o with
      | Some a, Some b =>
          match get h a, look_type h a, look_type h b with
          | Some x, Some t, Some mt =>
              let (t', r) := changed c t mt in
              if Nat.eqb (List.length (kids t')) (List.length (kids t)) then
                (St (put h a (Some (Cell (managed x) (next_of x) (label t') (kids_of x)))) (vars s) (datas s), r)
              else
                match ptr n h b with
                | Some (h', k) =>
                    (St (put h' a (Some (Cell (managed x) (next_of x) (label t') (kids_of x ++ [k])))) (vars s) (datas s), r)
                | None => (s, Fail UB)
                end
          | _, _, _ => (s, Fail UB)
          end
      | _, _ => (s, Fail UB)
      end
  | Alter i k =>
      match at_obj s (i, []) with
      | Some a =>
          match get h a, look_type h a with
          | Some c, Some t =>
              let '(t', nx, r) := altered k t (next_of c) in
              (St (put h a (Some (Cell (managed c) nx (label t') (kids_of c)))) (vars s) (datas s), r)
          | _, _ => (s, Fail UB)
          end
      | None => (s, Fail UB)
      end
  | Drop i =>
      match at_obj s (i, []) with
      | Some a =>
          match get h a with
          | Some c =>
              (St (if managed c then h else put h a None) (set_nth (vars s) i None) (datas s), Ok tt)
          | None => (s, Fail UB)
          end
      | None => (s, Fail UB)
      end
  | Data o =>
      (* ReadableDynamicDataRef(type, source) (DynamicData.hpp:628-652) *)
      match at_obj s o with
      | Some a =>
          match rget_at n h a with
          | Some b =>
              match get h b with
              | Some c =>
                  if managed c then (St h (vars s) (datas s ++ [b]), Ok tt)
                  else
                    match clone n true h b with
                    | Some (h', d) => (St h' (vars s) (datas s ++ [d]), Ok tt)
                    | None => (s, Fail UB)
                    end
              | None => (s, Fail UB)
              end
          | None => (s, Fail UB)
          end
      | None => (s, Fail UB)
      end
  end.

(** A program: its steps in order; [Assert] is a caught exception (XTYPES_EXCEPTIONS), the
    program goes on. *)
Fixpoint run (s : st) (p : list op) : st * list (res unit) :=
  match p with
  | [] => (s, [])
  | o :: r => let (s1, x) := step s o in let (s2, xs) := run s1 r in (s2, x :: xs)
  end.
Definition st0 : st := St [] [] [].

(** What the program sees of its variables and of its data: DynamicData::type(). *)
Definition var_type (s : st) (i : nat) : option ty :=
  match nth_error (vars s) i with
  | Some (Some a) => look_type (the_heap s) a
  | _ => None
  end.
Definition data_type (s : st) (d : nat) : option ty :=
  match nth_error (datas s) d with
  | Some a => look_type (the_heap s) a
  | None => None
  end.
