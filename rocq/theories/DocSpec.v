(** Documents: the declarations a text is made of, what they do to a module, and the text the generator gives them
    (specification). *)
From Verif Require Import Base Types TypeBuild Mem Hash MapOps Ops IntOps ModuleSpec Module NumSpec IntSpec Peg0 Grammar Peg PegRules IdlLit IdlParse GenIdl GenSpec EnumText GenText ModuleText UnionSpec UnionText EnumFacts.
Local Open Scope string_scope.

(** The node of the dependency tree says how names are written; the rest is what the API is told. *)
Inductive decl :=
| DStruct (g : gnode) (x : string) (parent : option ty) (ms : list (string * ty))
| DUnion (g : gnode) (x : string) (disc : ty) (cs : list ucase)
| DAlias (g : gnode) (x : string) (t : ty)
| DEnum (x : string) (vals : list (string * N))
| DConst (g : gnode) (x : string) (d : data)
| DModule (x : string) (ds : list decl).

(** The text of generator.hpp for the declaration, and for declarations in a row with anything blank between them. *)
Inductive written : nat -> decl -> string -> Prop :=
| wr_struct : forall tabs g x parent ms t, struct_of x parent ms = Ok t -> written tabs (DStruct g x parent ms) (struct_idl g tabs x parent t)
| wr_union : forall tabs g x disc cs u text, union_of x disc cs = Ok u -> union_idl g tabs x u = Ok text -> written tabs (DUnion g x disc cs) text
| wr_alias : forall tabs g x t, written tabs (DAlias g x t) (alias_idl g tabs x t)
| wr_enum : forall tabs x vals, written tabs (DEnum x vals) (enum_idl tabs x vals)
| wr_const : forall tabs g x d text, const_idl g tabs x d = Ok text -> written tabs (DConst g x d) text
| wr_module : forall tabs x ds body, written_all (S tabs) ds body ->
    written tabs (DModule x ds) (indent tabs ++ "module " ++ x ++ NL ++ indent tabs ++ "{" ++ NL ++ body ++ indent tabs ++ "};" ++ NL)
with written_all : nat -> list decl -> string -> Prop :=
| wa_nil : forall tabs w, all_chars is_ws w = true -> written_all tabs [] w
| wa_cons : forall tabs d ds w text rest, all_chars is_ws w = true -> written tabs d text -> written_all tabs ds rest -> written_all tabs (d :: ds) (w ++ text ++ rest).

Section Values.
  Variable fc : prim -> prim -> list N -> list N.
  (** The calls of the API that make the declaration in the module at [p]; its names are new there, and it mentions only
      what is known there and has a text. *)
  Inductive declared_by (p : place) : decl -> modl -> modl -> Prop :=
  | db_struct : forall g x parent ms t root root', plain_name x = true -> declares root x p = false ->
      (forall y mt, In (y, mt) ms -> member_fits (type_idl g (is_leaf mt)) root p x y mt) -> NoDup (map fst ms) ->
      base_named root p x (option_map (fun b => g_scope g b ++ tname b) parent) parent ->
      struct_of x parent ms = Ok t -> call_register Structs t false root p = Ok (true, root') -> declared_by p (DStruct g x parent ms) root root'
  | db_union : forall g x disc cs u root root', plain_name x = true -> declares root x p = false ->
      switchable (type_idl g false) disc -> named_in (type_idl g false) root p disc ->
      (forall k, In k cs -> case_fits (fun _ => type_idl g false) root p x disc k /\ case_sorted disc k) -> (2 <= List.length cs)%nat ->
      union_of x disc cs = Ok u -> call_register Unions u false root p = Ok (true, root') -> declared_by p (DUnion g x disc cs) root root'
  | db_alias : forall g x t root root', plain_name x = true -> has_symbol root p x = false -> canonical t -> Forall (fun d => d < 2 ^ 31)%N (array_dims t) ->
      readable (type_idl g false) (array_base t) -> named_in (type_idl g false) root p (array_base t) ->
      call_create_alias None t x root p = Ok (true, root') -> declared_by p (DAlias g x t) root root'
  | db_enum : forall x vals root root1 root', is_ident x = true -> vals <> [] -> Forall (fun e => is_ident (fst e) = true) vals -> sorted_names vals ->
      numbered 0 (sort_by_value vals) -> (N.of_nat (List.length vals) <= 2 ^ 32)%N ->
      declare_enumerators fc p (sort_by_value vals) root = Ok root1 -> call_register Enums (TEnum x 4 vals) false root1 p = Ok (true, root') -> declared_by p (DEnum x vals) root root'
  | db_const : forall g x d q z root root', is_ident x = true -> int_kind q = true -> is_int d q z -> (prim_signed q = true -> z <> least q) ->
      call_create_constant fc x d false false root p = Ok (true, root') -> declared_by p (DConst g x d) root root'
  | db_module : forall x ds root root1 root', plain_name x = true -> ds <> [] -> enters x p root root1 -> all_declared (x :: p) ds root1 root' -> declared_by p (DModule x ds) root root'
  with all_declared (p : place) : list decl -> modl -> modl -> Prop :=
  | ad_nil : forall root, all_declared p [] root root
  | ad_cons : forall d ds root root1 root', declared_by p d root root1 -> all_declared p ds root1 root' -> all_declared p (d :: ds) root root'.
End Values.
(** The names of the module are identifiers. *)
Definition ident_symbols (root : modl) : Prop := forall q y, declares root y q = true -> is_ident y = true.
