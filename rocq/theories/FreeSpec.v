(** Declarations as a user writes them: every spelling of the basic types, several declarators in a member, bounds and
    dimensions given by numbers or by constants (specification). *)
From Verif Require Import Base Types TypeBuild Mem Hash MapOps Ops IntOps ModuleSpec Module IntSpec Peg0 Grammar Peg PegRules IdlLit IdlParse GenSpec NoteSpec GapSpec.
Local Open Scope string_scope.

(** The reserved words; every other identifier is a free name (one that begins with an underscore stands for the rest). *)
Definition reserved : list string :=
  ["const"; "module"; "sequence"; "string"; "wstring"; "fixed"; "union"; "struct"; "enum"; "switch"; "case"; "default"; "native"; "typedef"; "any"; "map";
   "bitset"; "bitfield"; "bitmask"; "short"; "int16"; "long"; "int32"; "int64"; "uint16"; "uint32"; "uint64"; "int8"; "uint8"; "char"; "wchar"; "boolean"; "octet"; "float"; "double"].
Definition free_name (x : string) : bool := is_ident x && negb (existsb (String.eqb x) reserved) && negb (first_is (Ascii.eqb "_") x).
(** The names of the basic types in IDL. *)
Definition base_names : list (string * prim) :=
  [("boolean", PBool); ("octet", PU8); ("int8", PI8); ("uint8", PU8); ("short", PI16); ("int16", PI16); ("unsigned short", PU16); ("uint16", PU16);
   ("long", PI32); ("int32", PI32); ("unsigned long", PU32); ("uint32", PU32); ("long long", PI64); ("int64", PI64); ("unsigned long long", PU64); ("uint64", PU64);
   ("float", PF32); ("double", PF64); ("long double", PF128); ("char", PC8); ("wchar", PWC)].
Section Names.
  (** What the names in the text mean: types, and integer constants. *)
  Variable types : string -> ty -> Prop.
  Variable constants : string -> N -> Prop.
  (** A bound or a dimension below [top]. *)
  Inductive size_says (top : N) : string -> N -> Prop :=
  | size_number : forall b, (b < top)%N -> size_says top (to_string b) b
  | size_constant : forall abs qs x b, (b < top)%N -> ident_path qs x -> constants (render abs qs x) b -> size_says top (render abs qs x) b.
  Inductive type_says : string -> ty -> Prop :=
  | ts_base : forall s p, In (s, p) base_names -> type_says s (TPrim p)
  | ts_string : type_says "string" (TStr SK8 0)
  | ts_string_of : forall s b, size_says (2 ^ 31) s b -> type_says ("string<" ++ s ++ ">") (TStr SK8 b)
  | ts_wstring : type_says "wstring" (TStr SKW 0)
  | ts_wstring_of : forall b, (b < 2 ^ 31)%N -> type_says ("wstring<" ++ to_string b ++ ">") (TStr SKW b)
  | ts_sequence : forall s t, type_says s t -> type_says ("sequence<" ++ s ++ ">") (TSeq t 0)
  | ts_sequence_of : forall s t d b, type_says s t -> size_says (2 ^ 32) d b -> type_says ("sequence<" ++ s ++ ", " ++ d ++ ">") (TSeq t b)
  | ts_map : forall k kt v vt, type_says k kt -> type_says v vt -> type_says ("map<" ++ k ++ ", " ++ v ++ ">") (TMap kt vt 0)
  | ts_map_of : forall k kt v vt d b, type_says k kt -> type_says v vt -> size_says (2 ^ 32) d b -> type_says ("map<" ++ k ++ ", " ++ v ++ ", " ++ d ++ ">") (TMap kt vt b)
  | ts_name : forall s t, plain_scoped s -> types s t -> type_says s t.
  Inductive dims_say (top : N) : string -> list N -> Prop :=
  | dims_none : dims_say top "" []
  | dims_more : forall s d r ds, size_says top s d -> dims_say top r ds -> dims_say top ("[" ++ s ++ "]" ++ r) (d :: ds).
  (** ArrayType(... ArrayType(t, last) ..., first). *)
  Definition array_of (t : ty) (ds : list N) : ty := fold_right (fun d c => mk_array c d) t ds.
  (** Names with dimensions, separated by commas, behind which blanks and comments may stand. *)
  Inductive names_say : string -> list (string * list N) -> Prop :=
  | names_one : forall x d ds, dims_say (2 ^ 32) d ds -> names_say (x ++ d) [(x, ds)]
  | names_more : forall x d ds w s l, dims_say (2 ^ 32) d ds -> gap w -> names_say s l -> names_say (x ++ d ++ "," ++ w ++ s) ((x, ds) :: l).
  (** Members: a type and the names declared with it, ended by a semicolon, blanks and comments. *)
  Inductive members_say : string -> list (string * ty) -> Prop :=
  | members_none : members_say "" []
  | members_more : forall s t d l w r ms, type_says s t -> names_say d l -> gap w -> members_say r ms ->
      members_say (s ++ " " ++ d ++ ";" ++ w ++ r) (map (fun x => (fst x, array_of t (snd x))) l ++ ms)
  (** Annotations in front of a member say nothing. *)
  | members_noted : forall a s t d l w r ms, notes a -> type_says s t -> names_say d l -> gap w -> members_say r ms ->
      members_say (a ++ s ++ " " ++ d ++ ";" ++ w ++ r) (map (fun x => (fst x, array_of t (snd x))) l ++ ms).
  (** Between the braces: blanks and comments, and the members. *)
  Inductive body_says : string -> list (string * ty) -> Prop :=
  | body_led : forall w r ms, gap w -> members_say r ms -> body_says (w ++ r) ms.
End Names.

(** Module::constant(x) of the module at [p] is an integer with the value [b]. *)
Definition names_size (root : modl) (p : place) (x : string) (b : N) : Prop := exists n d q, find_in n root p consts x = Ok (Some d) /\ int_kind q = true /\ is_int d q (Z.of_N b).
(** The names in the declaration of [x] in the module at [p] mean what they mean in that module; [x] hides none of them. *)
Definition types_for (root : modl) (p : place) (x : string) (s : string) (t : ty) : Prop := names_type root p s t /\ not_hidden p x s.
Definition sizes_for (root : modl) (p : place) (x : string) (s : string) (b : N) : Prop := names_size root p s b /\ not_hidden p x s.
(** A new name for a member of [x]: no keyword and not known in the module. *)
Definition fresh_member (root : modl) (p : place) (x y : string) : Prop := plain_name y = true /\ y <> x /\ has_symbol root p y = false.
(** The text of a struct. *)
Definition struct_text (x : string) (parent : option string) (body : string) : string :=
  "struct " ++ x ++ (match parent with Some b => " : " ++ b | None => "" end) ++ " { " ++ body ++ "}".
Definition typedef_text (s x d : string) : string := "typedef " ++ s ++ " " ++ x ++ d.
