(** The IDL text of a type (idl/generator.hpp, idl/idl.hpp:83-92). *)
From Verif Require Import Base Types TypeBuild Compat Mem Hash MapOps Ops Module DepTree Peg0 IntOps IdlLit Peg Grammar IdlParse.
Local Open Scope string_scope.

(** What type_name needs of the DependencyNode: type_scope(node, type) (generator.hpp:110-132) and the scope of its
    module.  [no_node] is the null pointer (generate(StructType), idl.hpp:83-87): type_scope is empty. *)
Record gnode := GNode { g_scope : ty -> string; g_module : option string }.
Definition no_node : gnode := GNode (fun _ => "") None.

(** The map of type_name (generator.hpp:139-156). *)
Definition prim_idl (p : prim) : string :=
  match p with
  | PBool => "boolean" | PC8 => "char" | PC16 | PWC => "wchar" | PI8 => "int8" | PU8 => "uint8" | PI16 => "int16" | PU16 => "uint16"
  | PI32 => "int32" | PU32 => "uint32" | PI64 => "int64" | PU64 => "uint64" | PF32 => "float" | PF64 => "double" | PF128 => "long double"
  end.
(** ", bounds" if there is a bound (generator.hpp:55, 70). *)
Definition bound_idl (b : N) : string := if (b =? 0)%N then "" else ", " ++ to_string b.
(** type_name with sequence_type_name and map_type_name (generator.hpp:45-74, 134-216). *)
Fixpoint type_idl (g : gnode) (scoped : bool) (t : ty) : string :=
  match t with
  | TPrim p => prim_idl p
  | TArr _ c _ => type_idl g false c
  | TSeq c b => "sequence<" ++ type_idl g false c ++ bound_idl b ++ ">"
  | TMap k v b => "map<" ++ type_idl g false k ++ ", " ++ type_idl g false v ++ bound_idl b ++ ">"
  | TStr k b => match k with SK8 => "string" | _ => "wstring" end ++ (if (0 <? b)%N then "<" ++ to_string b ++ ">" else "")
  | TAlias nm _ => g_scope g t ++ nm
  | _ =>
      g_scope g t ++
      match split_last (tname t) with
      | Some (sc, x) => if match g_module g with Some m => String.eqb sc m | None => false end && negb scoped then x else tname t
      | None => tname t
      end
  end.
(** array_dimensions (generator.hpp:76-89). *)
Fixpoint array_dims (t : ty) : list N := match t with TArr _ c n => n :: array_dims c | _ => [] end.
Fixpoint dims_idl (l : list N) : string := match l with [] => "" | d :: r => "[" ++ to_string d ++ "]" ++ dims_idl r end.
(** std::string(tabs * 4, ' '). *)
Fixpoint indent (tabs : nat) : string := match tabs with O => "" | S k => "    " ++ indent k end.
(** A member of a struct or union: array_member or type_name with the name (generator.hpp:91-108, 303-320, 356-364);
    [scoped] is the argument given for members that are no arrays.
    Simplification: the map struct_idl of dependencies is left out (it is another output). *)
Definition member_idl (g : gnode) (scoped : bool) (x : string) (t : ty) : string :=
  match t with
  | TArr _ _ _ => type_idl g false t ++ " " ++ x ++ dims_idl (array_dims t) ++ ";"
  | _ => type_idl g scoped t ++ " " ++ x ++ ";"
  end ++ NL.
(** structure (generator.hpp:282-326) with inherit_members (272-280); [parent] is the parent type, if any. *)
Fixpoint members_idl (g : gnode) (tabs : nat) (ms : list (string * N * ty)) : string :=
  match ms with [] => "" | m :: r => indent (S tabs) ++ member_idl g true (m_name m) (m_type m) ++ members_idl g tabs r end.
Definition struct_idl (g : gnode) (tabs : nat) (name : string) (parent : option ty) (t : ty) : string :=
  indent tabs ++ "struct " ++ name
  ++ match parent with Some b => " : " ++ g_scope g b ++ tname b | None => "" end ++ NL
  ++ indent tabs ++ "{" ++ NL
  ++ members_idl g tabs (skipn (match parent with Some b => List.length (members_of b) | None => O end) (members_of t))
  ++ indent tabs ++ "};" ++ NL.
(** generate(StructType) (idl.hpp:83-87). *)
Definition generate_struct (parent : option ty) (t : ty) : string := struct_idl no_node O (tname t) parent t.

(** label_value (generator.hpp:218-270): the label as size_t.  A wide character is one byte of UTF-8 here.
    For an alias of an enumeration the alias itself is taken for an EnumerationType. *)
Definition label_idl (l : Z) (disc : ty) : res string :=
  let v := Z.to_N (l mod 2 ^ 64) in
  match rget disc with
  | TPrim p =>
      match p with
      | PBool => Ok (if (v =? 0)%N then "FALSE" else "TRUE")
      | PC8 => Ok ("'" ++ String (ascii_of_N (v mod 256)) "'")
      | PC16 | PWC => Ok ("L'" ++ String (ascii_of_N (v mod 256)) "'")
      | PF32 | PF64 | PF128 => Fail Assert
      | _ => Ok (to_string v)
      end
  | TEnum _ _ vals => match disc with TEnum _ _ _ => Ok (enum_enumerator vals (v mod 2 ^ 32)) | _ => Fail UB end
  | _ => Fail Assert
  end.
(** is_default (UnionType.hpp:225-235). *)
Definition is_default (t : ty) (nm : string) : res bool :=
  match t with
  | TUnion _ _ _ labels _ iv d =>
      if Z.eqb d iv then Ok false else match lookup_label d labels with Some s => Ok (String.eqb s nm) | None => Fail Throw end
  | _ => Fail UB
  end.
(** generate_union (generator.hpp:328-370). *)
Fixpoint labels_idl (tabs : nat) (disc : ty) (ls : list Z) : res string :=
  match ls with
  | [] => Ok ""
  | l :: r => do x <- label_idl l disc; do y <- labels_idl tabs disc r; Ok (indent (S tabs) ++ "case " ++ x ++ ":" ++ NL ++ y)
  end.
Fixpoint cases_idl (g : gnode) (tabs : nat) (u disc : ty) (ms : list (string * N * ty)) : res string :=
  match ms with
  | [] => Ok ""
  | m :: r =>
      do ls <- labels_idl tabs disc (get_labels u (m_name m));
      do d <- is_default u (m_name m);
      do y <- cases_idl g tabs u disc r;
      Ok (ls ++ (if d then indent (S tabs) ++ "default:" ++ NL else "") ++ indent (S (S tabs)) ++ member_idl g false (m_name m) (m_type m) ++ y)
  end.
Definition union_idl (g : gnode) (tabs : nat) (name : string) (u : ty) : res string :=
  match u with
  | TUnion _ _ ((_, _, disc) :: ms) _ _ _ _ =>
      do cs <- cases_idl g tabs u disc ms;
      Ok (indent tabs ++ "union " ++ name ++ " switch (" ++ type_idl g false disc ++ ")" ++ NL ++ indent tabs ++ "{" ++ NL ++ cs ++ indent tabs ++ "};" ++ NL)
  | _ => Fail UB
  end.
(** aliase (generator.hpp:372-391) behind the indentation of its sentence (generator_deptree.hpp:301). *)
Definition alias_idl (g : gnode) (tabs : nat) (name : string) (t : ty) : string :=
  indent tabs ++ "typedef " ++ type_idl g false t ++ " " ++ name ++ dims_idl (array_dims t) ++ ";" ++ NL.
(** enumeration32 (generator.hpp:393-425).  Simplification: enumerators of equal value, which std::sort may leave in any
    order, keep the order of their names. *)
Fixpoint insert_by_value (e : string * N) (l : list (string * N)) : list (string * N) :=
  match l with [] => [e] | f :: r => if (snd e <=? snd f)%N then e :: l else f :: insert_by_value e r end.
Definition sort_by_value (l : list (string * N)) : list (string * N) := fold_right insert_by_value [] l.
Fixpoint enumerators_idl (tabs : nat) (l : list (string * N)) : string :=
  match l with
  | [] => ""
  | [e] => indent (S tabs) ++ fst e ++ NL
  | e :: r => indent (S tabs) ++ fst e ++ "," ++ NL ++ enumerators_idl tabs r
  end.
Definition enum_idl (tabs : nat) (name : string) (vals : list (string * N)) : string :=
  indent tabs ++ "enum " ++ name ++ NL ++ indent tabs ++ "{" ++ NL ++ enumerators_idl tabs (sort_by_value vals) ++ indent tabs ++ "};" ++ NL.
(** get_const_value (generator.hpp:427-468). *)
Definition const_value_idl (d : data) : res string :=
  do s <- cast_string d;
  Ok match d_type d with
     | TStr SK8 _ => """" ++ s ++ """"
     | TStr _ _ => "L""" ++ s ++ """"
     | TPrim PC8 => "'" ++ s ++ "'"
     | TPrim PC16 | TPrim PWC => "L'" ++ s ++ "'"
     | _ => s
     end.
(** The sentence of a constant (generator_deptree.hpp:304-316). *)
Definition const_idl (g : gnode) (tabs : nat) (name : string) (d : data) : res string :=
  do s <- const_value_idl d; Ok (indent tabs ++ "const " ++ type_idl g false (d_type d) ++ " " ++ name ++ " = " ++ s ++ ";" ++ NL).
