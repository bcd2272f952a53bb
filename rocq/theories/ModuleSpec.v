(** What scoped lookup means: names are lists of identifiers. *)
From Verif Require Import Base Types TypeBuild Mem Ops Module.

Fixpoint no_colon (s : string) : bool := match s with EmptyString => true | String a r => negb (Ascii.eqb a ":") && no_colon r end.
Definition ident (s : string) : Prop := s <> ""%string /\ no_colon s = true.

(** [::]q1::...::qn::x *)
Fixpoint qualified (qs : list string) (x : string) : string :=
  match qs with [] => x | q :: r => (q ++ "::" ++ qualified r x)%string end.
Definition render (abs : bool) (qs : list string) (x : string) : string := if abs then ("::" ++ qualified qs x)%string else qualified qs x.

(** The first of [p] and the modules around it that satisfies [P]. *)
Fixpoint enclosing (P : place -> bool) (p : place) : option place :=
  if P p then Some p else match p with [] => None | _ :: o => enclosing P o end.
Definition declares (root : modl) (x : string) (p : place) : bool := match mod_at root p with Some m => has_symbol_here m x | None => false end.
Definition has_inner (root : modl) (c : string) (p : place) : bool := match mod_at root p with Some m => mem c (m_inner m) | None => false end.
Definition exists_module (root : modl) (p : place) : bool := match mod_at root p with Some _ => true | None => false end.

(** The module the qualifiers name, seen from [p]: an absolute name starts at the root, a relative one at the innermost
    enclosing module with a submodule of that name. *)
Definition named_module (root : modl) (p : place) (abs : bool) (qs : list string) : option place :=
  let start := if abs then Some [] else match qs with [] => Some p | q :: _ => enclosing (has_inner root q) p end in
  match start with
  | Some h => if exists_module root (rev qs ++ h) then Some (rev qs ++ h) else None
  | None => None
  end.
(** The code then looks for [x] in that module and the modules around it. *)
Definition lookup_name (root : modl) (p : place) (abs : bool) (qs : list string) (x : string) : option (place * string) :=
  match named_module root p abs qs with
  | Some q => option_map (fun r => (r, x)) (enclosing (declares root x) q)
  | None => None
  end.

(** [q] is [p] or a module around it. *)
Definition around (q p : place) : Prop := exists r, p = r ++ q.
(** No entry of inner_ of name [c] is a null pointer. *)
Definition no_null_named (root : modl) (c : string) : Prop := forall p m, mod_at root p = Some m -> assoc c (m_inner m) <> Some None.
(** No entry of inner_ is a null pointer: true of every tree built without submodule()/operator[] on absent names. *)
Definition no_nulls (root : modl) : Prop := forall c, no_null_named root c.
(** The names of the modules are their keys. *)
Definition keyed (root : modl) : Prop := forall c p m, mod_at root (c :: p) = Some m -> m_name_ m = c.

(** Both trees give the same answer for every IDL name with last component [y], from every module. *)
Definition unaffected (root root' : modl) (y : string) : Prop :=
  forall p abs qs r, exists_module root p = true -> Forall ident qs ->
    (resolves root p (render abs qs y) r <-> resolves root' p (render abs qs y) r).
(** The entry of [y] in a table of types of the module at [q]; the constant [y] of that module. *)
Definition entry (root : modl) (q : place) (k : table) (y : string) : option ty := assoc y (get_table k (tab_at root q)).
Definition const_entry (root : modl) (q : place) (y : string) : option data := assoc y (consts (tab_at root q)).
(** Every constant has an entry in both tables of constants. *)
Definition consts_paired (root : modl) : Prop := forall q y, mem y (const_types (tab_at root q)) = mem y (consts (tab_at root q)).
