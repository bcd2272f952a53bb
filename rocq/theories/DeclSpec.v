(** Documents as a user writes them: what their declarations do to a module (specification). *)
From Verif Require Import Base Types TypeBuild Mem Hash MapOps Ops IntOps ModuleSpec Module NumSpec IntSpec Peg0 Grammar Peg PegRules IdlLit IdlExpr IdlSpec IdlParse GenIdl GenSpec ExprSpec EnumFacts EnumText ConstText ModuleText DocSpec UnionSpec NoteSpec FreeSpec CaseSpec BitSpec TextSpec GapSpec EnumSpec.
Local Open Scope string_scope.

(** The values: the first enumerator is 0, the next 1 and so on; [vals] is the std::map with them. *)
Definition counted (l : list string) (vals : list (string * N)) : Prop := sorted_names vals /\ forall e v, In (e, v) vals <-> nth_error l (N.to_nat v) = Some e.
Fixpoint numbers (k : N) (l : list string) : list (string * N) := match l with [] => [] | e :: r => (e, k) :: numbers (k + 1) r end.
(** Sentences in a row, each followed by a semicolon, blanks and comments. *)
Fixpoint row_text (l : list (string * string)) : string := match l with [] => "" | (s, w) :: r => s ++ ";" ++ w ++ row_text r end.

(** The parent, by its name in the module at [p]. *)
Definition parent_named (root : modl) (p : place) (parent : option string) (bt : option ty) : Prop :=
  match parent with
  | Some b => exists abs qs y bt', b = render abs qs y /\ ident_path qs y /\ bt = Some bt' /\ names_struct root p b bt'
  | None => bt = None
  end.

Section Values.
  Variable fc : prim -> prim -> list N -> list N.
  (** [says p s root root']: in the module at [p] the sentence [s] makes the calls of the API that turn [root] into [root']. *)
  Inductive says (p : place) : string -> modl -> modl -> Prop :=
  | say_struct : forall x pn bt body ms t root root', free_name x = true -> declares root x p = false ->
      body_says (types_for root p x) (sizes_for root p x) body ms -> Forall (fun m => fresh_member root p x (fst m)) ms -> NoDup (map fst ms) ->
      base_named root p x pn bt -> struct_of x bt ms = Ok t -> call_register Structs t false root p = Ok (true, root') -> says p (struct_text x pn body) root root'
  (** [struct x] and [union x]: an empty struct of that name. *)
  | say_forward : forall k x root root', k = "struct" \/ k = "union" -> free_name x = true -> has_symbol root p x = false ->
      call_register Structs (TStruct x 0 []) false root p = Ok (true, root') -> says p (k ++ " " ++ x) root root'
  (** The definition of a struct, declared before or not ([declared] is what its declaration makes of [root]), whose members
      may mention the struct itself: that is the empty struct. *)
  | say_defined : forall x pn bt body ms t root declared from root', free_name x = true -> declares root x p = false ->
      call_register Structs (TStruct x 0 []) false root p = Ok (true, declared) -> from = root \/ from = declared ->
      body_says (names_type declared p) (names_size declared p) body ms -> Forall (fun m => fresh_member root p x (fst m)) ms -> NoDup (map fst ms) ->
      parent_named declared p pn bt -> struct_of x bt ms = Ok t -> call_register Structs t false root p = Ok (true, root') -> says p (struct_text x pn body) from root'
  | say_typedef : forall x s t ds root root', plain_name x = true -> has_symbol root p x = false ->
      type_says (names_type root p) (names_size root p) s t -> Forall (fun d => d < 2 ^ 31)%N ds ->
      call_create_alias None (array_of t ds) x root p = Ok (true, root') -> says p (typedef_text s x (dims_idl ds)) root root'
  (** An enumeration, in any layout. *)
  | say_enum : forall x l w1 w2 body vals root root1 root', is_ident x = true -> gap w1 -> gap w2 -> enumerators_say l body -> NoDup l -> (N.of_nat (List.length l) <= 2 ^ 32)%N ->
      counted l vals -> declare_enumerators fc p (numbers 0 l) root = Ok root1 -> call_register Enums (TEnum x 4 vals) false root1 p = Ok (true, root') -> says p (free_enum_text x w1 w2 body) root root'
  | say_const : forall q n x e ts s env z d root root', int_kind q = true -> const_type_says (names_type root p) x n (TPrim q) -> is_ident x = true -> idl_expr e ts -> text_of ts s -> sees root p env ->
      evaluates q env e z -> right_safe q env e -> unary_safe q e -> is_int d q z ->
      call_create_constant fc x d false false root p = Ok (true, root') -> says p ("const " ++ n ++ " " ++ x ++ " = " ++ s) root root'
  | say_text : forall n x s v d root root', const_type_says (names_type root p) x n (TStr SK8 0) -> is_ident x = true -> strings_text s v -> is_text d v -> call_create_constant fc x d false false root p = Ok (true, root') ->
      says p ("const " ++ n ++ " " ++ x ++ " = " ++ s) root root'
  | say_boolean : forall n x t d root root', const_type_says (names_type root p) x n (TPrim PBool) -> is_ident x = true -> is_boolean d t -> call_create_constant fc x d false false root p = Ok (true, root') ->
      says p ("const " ++ n ++ " " ++ x ++ " = " ++ boolean_text t) root root'
  (** A constant of an enumeration type: the name of an enumerator (or of another such constant) is its value. *)
  | say_chosen : forall n x e vals y s env T d0 v d root root', const_type_says (names_type root p) x n (TEnum e 4 vals) -> Forall (fun k => snd k < 2 ^ 32)%N vals -> is_ident x = true ->
      token_text (KName y) s -> sees root p env -> env y = Some d0 -> enumerator_type T -> is_enum T d0 v -> is_enum (TEnum e 4 vals) d v ->
      call_create_constant fc x d false false root p = Ok (true, root') -> says p ("const " ++ n ++ " " ++ x ++ " = " ++ s) root root'
  | say_module : forall x w l root root1 root', plain_name x = true -> l <> [] -> gap w -> enters x p root root1 ->
      say (x :: p) l root1 root' -> says p ("module " ++ x ++ " {" ++ w ++ row_text l ++ "}") root root'
  (** The text of a union is the one of the generator (GenIdl). *)
  | say_union : forall g x disc cs text root root', declared_by fc p (DUnion g x disc cs) root root' -> written 0 (DUnion g x disc cs) (text ++ ";" ++ NL) -> says p text root root'
  (** A union of CaseSpec, in any layout of its cases (one of a single case is lost by the code: C39_union_one_case_refuted). *)
  | say_free_union : forall x s disc body cs u root root', free_name x = true -> declares root x p = false ->
      switch_says (names_type root p) s disc -> switch_body_says root p x disc (types_for root p x) (sizes_for root p x) body cs -> Forall (fun k => fresh_member root p x (fst (snd k))) cs ->
      (2 <= List.length cs)%nat -> union_of x disc cs = Ok u -> call_register Unions u false root p = Ok (true, root') -> says p (union_text x s body) root root'
  (** Bitmasks, bitsets and annotation types declare nothing (BitSpec) ... *)
  | say_passed : forall s root, passed_over s -> says p s root root
  (** ... but [native x] and an empty bitset declare an empty struct of that name. *)
  | say_bare : forall x s root root', free_name x = true -> declares root x p = false -> call_register Structs (TStruct x 0 []) false root p = Ok (true, root') ->
      bare_text x s -> says p s root root'
  (** Annotations in front of a declaration do nothing. *)
  | say_noted : forall a s root root', notes a -> annotatable s -> says p s root root' -> says p (a ++ s) root root'
  with say (p : place) : list (string * string) -> modl -> modl -> Prop :=
  | say_nothing : forall root, say p [] root root
  | say_more : forall s w l root root1 root', says p s root root1 -> gap w -> say p l root1 root' -> say p ((s, w) :: l) root root'.
End Values.
