(** IDL modules: the tree of modules, symbol tables, scoped lookup (idl/Module.hpp). *)
From Verif Require Import Base Types TypeBuild Compat Mem Hash MapOps Ops.
From Coq Require Import Ascii.

(** The tables of a module (Module.hpp:656-667); std::map iterates by increasing name. *)
Record tables := mkTables {
  structs : list (string * ty); unions : list (string * ty); aliases : list (string * ty); enums : list (string * ty);
  const_types : list (string * ty); consts : list (string * data); from_enum : list string }.
Definition no_tables : tables := mkTables [] [] [] [] [] [] [].
(** name_, the tables, inner_.  An entry of inner_ may hold a null pointer (see [submodule]). *)
Inductive modl := Mod (name : string) (tab : tables) (inner : list (string * option modl)).
Definition m_name_ (m : modl) : string := match m with Mod n _ _ => n end.
Definition m_tab (m : modl) : tables := match m with Mod _ t _ => t end.
Definition m_inner (m : modl) : list (string * option modl) := match m with Mod _ _ i => i end.
(** Module() (Module.hpp:50-54). *)
Definition root_module : modl := Mod "" no_tables [].

(** A module of the tree [root] is given by the names that lead to it, innermost first; outer_ is the tail. *)
Definition place : Type := list string.
Fixpoint mod_at (root : modl) (p : place) : option modl :=
  match p with
  | [] => Some root
  | c :: o => match mod_at root o with
              | Some m => match assoc c (m_inner m) with Some (Some x) => Some x | _ => None end
              | None => None
              end
  end.

Definition mem {A} (x : string) (l : list (string * A)) : bool := match assoc x l with Some _ => true | None => false end.
(** std::map::emplace: an existing entry is kept. *)
Definition emplace {A} (x : string) (v : A) (l : list (string * A)) : list (string * A) := if mem x l then l else emplace_name x v l.
(** has_symbol(ident, false) (Module.hpp:142-162). *)
Definition has_symbol_here (m : modl) (x : string) : bool :=
  mem x (structs (m_tab m)) || mem x (unions (m_tab m)) || mem x (aliases (m_tab m)) || mem x (consts (m_tab m)) ||
  mem x (enums (m_tab m)) || mem x (m_inner m).
(** has_symbol(ident, true): this module, then outer_ (Module.hpp:154-161). *)
Fixpoint has_symbol (root : modl) (p : place) (x : string) : bool :=
  match mod_at root p with
  | Some m => has_symbol_here m x || match p with [] => false | _ :: o => has_symbol root o x end
  | None => false
  end.
(** symbol_count (Module.hpp:164-178); uint32_t. *)
Fixpoint symbol_count (root : modl) (p : place) (x : string) : N :=
  ((match mod_at root p with Some m => if has_symbol_here m x then 1 else 0 | None => 0 end) +
   match p with [] => 0 | _ :: o => symbol_count root o x end)%N.
(** scope() (Module.hpp:133-140); [name_] of a submodule is its key in inner_. *)
Fixpoint scope (p : place) : string :=
  match p with
  | [] => ""
  | c :: o => if String.eqb (scope o) "" then c else scope o ++ "::" ++ c
  end%string.

(** symbol_name.find("::"): the text before and after the first "::". *)
Fixpoint split_scope (s : string) : option (string * string) :=
  match s with
  | String a ((String b r) as t) =>
      if (Ascii.eqb a ":" && Ascii.eqb b ":")%bool then Some (""%string, r)
      else match split_scope t with Some (x, y) => Some (String a x, y) | None => None end
  | _ => None
  end.

(** resolve_scope (Module.hpp:684-772), by cases on the two "::" tests.  The result nullptr is [None].  Calling a
    member function through a null entry of inner_ is undefined.  [fuel] bounds the recursion of the code. *)
Fixpoint resolve_scope (fuel : nat) (root : modl) (p : place) (sym orig : string) (first : bool) {struct fuel}
  : res (option (place * string)) :=
  match fuel with
  | O => Fail Loop
  | S n =>
      match mod_at root p with
      | None => Fail UB
      | Some m =>
          if negb first && String.eqb sym orig then Ok None
          else
            match split_scope sym with
            | Some (sc, rest) =>
                if String.eqb sc "" then
                  match p with
                  | [] => resolve_scope n root [] rest orig false
                  | _ :: o => resolve_scope n root o orig orig true
                  end
                else
                  (* lines 723-737: the current module has the name [sc]; inner_scope contains no "::", so
                     innest_scope = inner_scope *)
                  do r <- (if String.eqb sc (m_name_ m) && mem sc (m_inner m) then resolve_scope n root (sc :: p) rest orig false else Ok None);
                  match r with
                  | Some _ => Ok r
                  | None =>
                      if mem sc (m_inner m) then resolve_scope n root (sc :: p) rest orig false
                      else match p with
                           | _ :: o => if first then resolve_scope n root o orig orig true else Ok None
                           | [] => Ok None
                           end
                  end
            | None =>
                if has_symbol_here m sym then Ok (Some (p, sym))
                else match p with
                     | _ :: o => resolve_scope n root o sym orig true
                     | [] => Ok None
                     end
            end
      end
  end.
(** resolve_scope(symbol_name) returns [r] (Module.hpp:678-682). *)
Definition resolves (root : modl) (p : place) (name : string) (r : option (place * string)) : Prop :=
  exists fuel, resolve_scope fuel root p name name true = Ok r.

(** ** Queries by name: the module found by resolve_scope, then one table. *)
Definition tab_at (root : modl) (p : place) : tables := match mod_at root p with Some m => m_tab m | None => no_tables end.
(** has_structure, has_union, has_alias, has_constant (Module.hpp:181-192, 263-274, 545-559, 413-430);
    structure(name), union_switch(name), alias(name), enum_32(name) (194-217, 276-301, 523-543, 472-500): the result of
    the table.  has_enum_32 (485-489) does not resolve. *)
Definition found {A} (root : modl) (tab : tables -> list (string * A)) (r : option (place * string)) : option A :=
  match r with Some (q, x) => assoc x (tab (tab_at root q)) | None => None end.

(** ** Modifications *)

(** Apply [f] to the module at [p] (given outermost first). *)
Fixpoint at_module (p : list string) (f : modl -> res modl) (m : modl) : res modl :=
  match p with
  | [] => f m
  | c :: r =>
      match assoc c (m_inner m) with
      | Some (Some x) =>
          do y <- at_module r f x;
          Ok (Mod (m_name_ m) (m_tab m) (map (fun e => if String.eqb c (fst e) then (fst e, Some y) else e) (m_inner m)))
      | _ => Fail UB
      end
  end.
(** create_submodule(name) (Module.hpp:60-66): emplace keeps an existing entry; the entry is dereferenced. *)
Definition create_submodule (x : string) (m : modl) : res modl :=
  match assoc x (m_inner m) with
  | None => Ok (Mod (m_name_ m) (m_tab m) (emplace x (Some (Mod x no_tables [])) (m_inner m)))
  | Some (Some _) => Ok m
  | Some None => Fail UB
  end.
(** submodule(name) (Module.hpp:68-72): operator[] of std::map inserts a null pointer. *)
Definition submodule (x : string) (m : modl) : modl * bool :=
  match assoc x (m_inner m) with
  | None => (Mod (m_name_ m) (m_tab m) (emplace x None (m_inner m)), false)
  | Some None => (m, false)
  | Some (Some _) => (m, true)
  end.

(** name(new_name) of a type (DynamicType.hpp:199-203). *)
Definition rename (t : ty) (x : string) : ty :=
  match t with
  | TStruct _ s ms => TStruct x s ms
  | TUnion _ s ms labels dv iv d => TUnion x s ms labels dv iv d
  | TEnum _ s vals => TEnum x s vals
  | TAlias _ a => TAlias x a
  | _ => t
  end.
Definition scoped (sc x : string) : string := (sc ++ (if String.eqb sc "" then "" else "::") ++ x)%string.
Definition remove_name {A} (x : string) (l : list (string * A)) : list (string * A) := filter (fun e => negb (String.eqb x (fst e))) l.

Definition set_structs (v : list (string * ty)) (t : tables) : tables := mkTables v (unions t) (aliases t) (enums t) (const_types t) (consts t) (from_enum t).
Definition set_unions (v : list (string * ty)) (t : tables) : tables := mkTables (structs t) v (aliases t) (enums t) (const_types t) (consts t) (from_enum t).
Definition set_aliases (v : list (string * ty)) (t : tables) : tables := mkTables (structs t) (unions t) v (enums t) (const_types t) (consts t) (from_enum t).
Definition set_enums (v : list (string * ty)) (t : tables) : tables := mkTables (structs t) (unions t) (aliases t) v (const_types t) (consts t) (from_enum t).

(** A table a type can be registered in. *)
Inductive table := Structs | Unions | Enums | Aliases.
Definition get_table (k : table) (t : tables) : list (string * ty) :=
  match k with Structs => structs t | Unions => unions t | Enums => enums t | Aliases => aliases t end.
Definition set_table (k : table) (v : list (string * ty)) (t : tables) : tables :=
  match k with Structs => set_structs v t | Unions => set_unions v t | Enums => set_enums v t | Aliases => set_aliases v t end.

(** structure(type, replace) (Module.hpp:219-261), union_switch (303-345), enum_32 (502-521): [sc] is scope().  The
    answer is the returned bool; the type stored has the scoped name. *)
Definition register (k : table) (sc : string) (t : ty) (replace : bool) (tab : tables) : bool * tables :=
  let x := tname t in
  match split_scope x with
  | Some _ => (false, tab)
  | None =>
      let l := if replace then remove_name x (get_table k tab) else get_table k tab in
      (negb (mem x l), set_table k (emplace x (rename t (scoped sc x)) l) tab)
  end.
(** add_alias (Module.hpp:578-594): no test for "::". *)
Definition add_alias (sc : string) (t : ty) (tab : tables) : bool * tables :=
  let x := tname t in (negb (mem x (aliases tab)), set_aliases (emplace x (rename t (scoped sc x)) (aliases tab)) tab).
(** create_alias(type, name) (Module.hpp:563-576); [known] is has_alias(name). *)
Definition create_alias (known : bool) (sc : string) (t : ty) (x : string) (tab : tables) : bool * tables :=
  match split_scope x with
  | Some _ => (false, tab)
  | None => if known then (false, tab)
            else (negb (mem x (aliases tab)), set_aliases (emplace x (TAlias (scoped sc x) t) (aliases tab)) tab)
  end.
(** create_constant(name, value, replace, from_enumeration) (Module.hpp:436-470): a DynamicData of the type of the value
    is constructed, assigned and copied into the table. *)
Definition create_constant (fc : prim -> prim -> list N -> list N) (x : string) (v : data) (replace fromenum : bool) (tab : tables)
  : res (bool * tables) :=
  match split_scope x with
  | Some _ => Ok (false, tab)
  | None =>
      do tab1 <- (if replace && mem x (consts tab)
                  then (if mem x (const_types tab)
                        then Ok (mkTables (structs tab) (unions tab) (aliases tab) (enums tab) (remove_name x (const_types tab)) (remove_name x (consts tab)) (from_enum tab))
                        else Fail UB)
                  else Ok tab);
      if mem x (const_types tab1) then Ok (false, tab1)
      else
        do temp <- new_data (d_type v);
        do temp1 <- assign_data fc temp v;
        let types := emplace x (d_type v) (const_types tab1) in
        if mem x (consts tab1) then Ok (false, mkTables (structs tab1) (unions tab1) (aliases tab1) (enums tab1) types (consts tab1) (from_enum tab1))
        else
          do c <- copy_data fc temp1;
          Ok (true, mkTables (structs tab1) (unions tab1) (aliases tab1) (enums tab1) types (emplace x c (consts tab1))
                      (if fromenum then from_enum tab1 ++ [x] else from_enum tab1))
  end.
(** type(name, recursive = false) (Module.hpp:596-654): enumerations, then structures, unions, aliases override.  The
    has_structure, has_union and has_alias of the module found resolve the symbol again, from that module; they find
    that module itself (ModuleFacts.resolve_again).  The last step renames the result, dereferencing it. *)
Definition type_of (root : modl) (name : string) (r : option (place * string)) : res (option ty) :=
  match r with
  | None => Ok None
  | Some (q, x) =>
      let t := tab_at root q in
      let ret := match assoc x (aliases t) with
                 | Some a => Some a
                 | None => match assoc x (unions t) with
                           | Some a => Some a
                           | None => match assoc x (structs t) with Some a => Some a | None => assoc x (enums t) end
                           end
                 end in
      match split_scope name with
      | Some (sc, _) => if String.eqb sc "" then match ret with Some a => Ok (Some (rename a name)) | None => Fail UB end else Ok ret
      | None => Ok ret
      end
  end.

(** type(name, recursive = true) (Module.hpp:600-610) on a tree without null entries: the result of each submodule
    overwrites the one before, then the result of the module itself if it has one.  [rs p] is resolve_scope(name) from
    the module at [p]. *)
Fixpoint type_rec (fuel : nat) (root : modl) (name : string) (rs : place -> option (place * string)) (p : place) : res (option ty) :=
  match fuel, mod_at root p with
  | S n, Some m =>
      do sub <- (fix go (l : list (string * option modl)) (acc : option ty) : res (option ty) :=
                   match l with
                   | [] => Ok acc
                   | (c, _) :: r => do a <- type_rec n root name rs (c :: p); go r a
                   end) (m_inner m) None;
      match rs p with
      | None => Ok sub
      | Some (q, x) =>
          let t := tab_at root q in
          let ret := match assoc x (aliases t) with
                     | Some a => Some a
                     | None => match assoc x (unions t) with
                               | Some a => Some a
                               | None => match assoc x (structs t) with
                                         | Some a => Some a
                                         | None => match assoc x (enums t) with Some a => Some a | None => sub end
                                         end
                               end
                     end in
          match split_scope name with
          | Some (sc, _) => if String.eqb sc "" then match ret with Some a => Ok (Some (rename a name)) | None => Fail UB end else Ok ret
          | None => Ok ret
          end
      end
  | O, _ => Fail Loop
  | _, None => Fail UB
  end.

(** ** The calls on the module at place [p] of a tree *)
(** A call that changes only the tables of its module. *)
Definition on_tables {A} (root : modl) (p : place) (f : tables -> res (A * tables)) : res (A * modl) :=
  match mod_at root p with
  | None => Fail UB
  | Some m =>
      do r <- f (m_tab m);
      do root' <- at_module (rev p) (fun m => Ok (Mod (m_name_ m) (snd r) (m_inner m))) root;
      Ok (fst r, root')
  end.
(** structure(t), union_switch(t), enum_32(t) called on that module (Module.hpp:219-261, 303-345, 502-521). *)
Definition call_register (k : table) (t : ty) (replace : bool) (root : modl) (p : place) : res (bool * modl) :=
  on_tables root p (fun tab => Ok (register k (scope p) t replace tab)).
(** add_alias(t) (Module.hpp:578-594). *)
Definition call_add_alias (t : ty) (root : modl) (p : place) : res (bool * modl) := on_tables root p (fun tab => Ok (add_alias (scope p) t tab)).
(** create_alias(t, x) (Module.hpp:563-576); [r] is resolve_scope(x) from that module. *)
Definition call_create_alias (r : option (place * string)) (t : ty) (x : string) (root : modl) (p : place) : res (bool * modl) :=
  on_tables root p (fun tab => Ok (create_alias (match found root aliases r with Some _ => true | None => false end) (scope p) t x tab)).
(** create_constant(x, v, replace, from_enumeration) (Module.hpp:436-470). *)
Definition call_create_constant (fc : prim -> prim -> list N -> list N) (x : string) (v : data) (replace fromenum : bool) (root : modl) (p : place)
  : res (bool * modl) := on_tables root p (create_constant fc x v replace fromenum).
(** create_submodule(x) and submodule(x) (Module.hpp:60-72). *)
Definition call_create_submodule (x : string) (root : modl) (p : place) : res modl := at_module (rev p) (create_submodule x) root.
Definition call_submodule (x : string) (root : modl) (p : place) : res (bool * modl) :=
  match mod_at root p with
  | None => Fail UB
  | Some m => do root' <- at_module (rev p) (fun m => Ok (fst (submodule x m))) root; Ok (snd (submodule x m), root')
  end.
(** has_submodule(x) (Module.hpp:108-112). *)
Definition has_submodule (root : modl) (p : place) (x : string) : bool := match mod_at root p with Some m => mem x (m_inner m) | None => false end.
