(** Declarations that the parser reads and passes over: bitmasks, bitsets and annotation types (specification). *)
From Verif Require Import Base Types IntOps ModuleSpec PegRules IdlLit IdlExpr IdlSpec GenSpec ExprSpec NoteSpec FreeSpec.
Local Open Scope string_scope.

(** The flags of a bitmask, separated by commas: [flag0, @position(5) flag5]. *)
Inductive flags_text : string -> Prop :=
| flags_one : forall a e, notes a -> is_ident e = true -> flags_text (a ++ e)
| flags_more : forall a e w w' s, notes a -> is_ident e = true -> all_chars is_ws w = true -> all_chars is_ws w' = true -> flags_text s -> flags_text (a ++ e ++ w ++ "," ++ w' ++ s).
(** The fields of a bitset: [bitfield<3> a; bitfield<10, long> b; bitfield<4>;]. *)
Definition of_bits (p : prim) : bool := match p with PF32 | PF64 | PF128 | PC8 | PC16 | PWC => false | _ => true end.
Inductive destination_text : string -> Prop :=
| no_destination : destination_text ""
| a_destination : forall s p, In (s, p) base_names -> of_bits p = true -> destination_text (", " ++ s).
Inductive field_name_text : string -> Prop :=
| no_field_name : field_name_text ""
| a_field_name : forall x, is_ident x = true -> field_name_text (" " ++ x).
Inductive fields_text : string -> Prop :=
| fields_none : fields_text ""
| fields_more : forall a n d x w r, notes a -> destination_text d -> field_name_text x -> all_chars is_ws w = true -> fields_text r ->
    fields_text (a ++ "bitfield<" ++ to_string n ++ d ++ ">" ++ x ++ ";" ++ w ++ r).
(** The members of an annotation type: [long value; boolean on default TRUE; any thing;].  (Nothing is asked of a type name.) *)
Inductive default_text : string -> Prop :=
| no_default : default_text ""
| a_default : forall v w, value_text v -> all_chars is_ws w = true -> default_text (" default " ++ v ++ w).
Inductive value_type : string -> Prop :=
| vt_base : forall s p, In (s, p) base_names -> value_type s
| vt_text : value_type "string"
| vt_any : value_type "any"
| vt_named : forall s, plain_scoped s -> value_type s.
Inductive values_text : string -> Prop :=
| values_none : values_text ""
| values_more : forall s x d w r, value_type s -> plain x = true -> default_text d -> all_chars is_ws w = true -> values_text r ->
    values_text (s ++ " " ++ x ++ d ++ ";" ++ w ++ r).

(** The declarations that are passed over.  Nothing is asked of the name of a bitmask or a bitset but that it is no
    keyword and does not begin with an underscore; the one of an annotation is no keyword. *)
Inductive passed_over : string -> Prop :=
| a_bitmask : forall x w0 w s w', free_name x = true -> all_chars is_ws w0 = true -> all_chars is_ws w = true -> all_chars is_ws w' = true -> flags_text s ->
    passed_over ("bitmask " ++ x ++ w0 ++ "{" ++ w ++ s ++ w' ++ "}")
| a_bitset : forall x w0 w s, free_name x = true -> all_chars is_ws w0 = true -> all_chars is_ws w = true -> fields_text s -> s <> "" -> passed_over ("bitset " ++ x ++ w0 ++ "{" ++ w ++ s ++ "}")
| a_bitset_of : forall x abs qs y w0 w s, free_name x = true -> ident_path qs y -> all_chars is_ws w0 = true -> all_chars is_ws w = true -> fields_text s ->
    passed_over ("bitset " ++ x ++ " : " ++ render abs qs y ++ w0 ++ "{" ++ w ++ s ++ "}")
| an_annotation : forall x w0 w s, plain x = true -> all_chars is_ws w0 = true -> all_chars is_ws w = true -> values_text s -> passed_over ("@annotation " ++ x ++ w0 ++ "{" ++ w ++ s ++ "}").
(** The declarations of the name [x] that have nothing else: [native x], and [bitset x {}]. *)
Inductive bare_text (x : string) : string -> Prop :=
| bare_native : bare_text x ("native " ++ x)
| bare_bitset : forall w0 w, all_chars is_ws w0 = true -> all_chars is_ws w = true -> bare_text x ("bitset " ++ x ++ w0 ++ "{" ++ w ++ "}").
