(** Constants that are texts or booleans, and the types of constants (specification). *)
From Verif Require Import Base Types Mem MemSpec Hash MapOps Ops ValueSpec OpsSpec DataSpec IntOps IntSpec NumSpec ModuleSpec PegRules IdlLit IdlExpr IdlSpec GenIdl GenSpec ExprSpec NoteSpec FreeSpec.
Local Open Scope string_scope.

(** A text in quotes, or several with blanks between them, and the characters it stands for. *)
Inductive strings_text : string -> string -> Prop :=
| st_one : forall s, all_chars in_quotes s = true -> strings_text ("""" ++ s ++ """") s
| st_more : forall s w r v, all_chars in_quotes s = true -> all_chars is_ws w = true -> w <> "" -> strings_text r v -> strings_text ("""" ++ s ++ """" ++ w ++ r) (s ++ v).
Definition char_codes (s : string) : list N := map N_of_ascii (list_ascii_of_string s).
(** A string, and a boolean, of the API. *)
Definition is_text (d : data) (s : string) : Prop := d_type d = TStr SK8 0 /\ holds d (VStr (char_codes s)).
Definition is_boolean (d : data) (b : bool) : Prop := d_type d = TPrim PBool /\ holds d (VBytes [if b then 1%N else 0%N]).
Definition boolean_text (b : bool) : string := if b then "TRUE" else "FALSE".
(** How the type of an integer constant [x] is written: [long] and [int32], [unsigned short] and [uint16] ... (octet is
    taken for the name of a type.) *)
Definition const_type_text (q : prim) (x s : string) : Prop := s = prim_idl q \/ (In (s, q) base_names /\ s <> "octet" /\ plain x = true).
(** How the type [T] of a constant [x] is written; a name (of a typedef, say) stands for the type behind it ([names] says
    which type a name is). *)
Inductive const_type_says (names : string -> ty -> Prop) (x : string) : string -> ty -> Prop :=
| cs_int : forall q s, int_kind q = true -> const_type_text q x s -> const_type_says names x s (TPrim q)
| cs_text : const_type_says names x "string" (TStr SK8 0)
| cs_boolean : const_type_says names x "boolean" (TPrim PBool)
| cs_name : forall s t T, plain_scoped s -> names s t -> rget t = T -> const_type_says names x s T.
(** An enumerator, or a constant of an enumeration type, of value [v]. *)
Definition is_enum (T : ty) (d : data) (v : Z) : Prop := d_type d = T /\ exists bs, holds d (VBytes bs) /\ number PU32 bs v.
Inductive enumerator_type : ty -> Prop := et_plain : enumerator_type (TPrim PU32) | et_enum : forall e vals, enumerator_type (TEnum e 4 vals).
