(** Modules whose IDL text can be read back (specification).  Everything here is about the module tree [root] whose text is
    generated, not about the module the text is read into. *)
From Verif Require Import Base Types TypeBuild Mem Hash MapOps Ops IntOps ModuleSpec Module NumSpec IntSpec DepTree Peg0 Grammar Peg PegRules IdlLit IdlParse GenIdl GenSpec EnumText GenText ExprSpec UnionSpec UnionText EnumFacts GenModule.
From Verif Require DepSpec.
Local Open Scope string_scope.

(** [y] is an enumerator, of value [v], of the enumeration [x] declared in the module at [q]. *)
Definition enumerator (root : modl) (q : place) (x y : string) (v : N) : Prop :=
  exists nm sz vals, In (Node q xENUM x (TEnum nm sz vals)) (nodes_of root q) /\ assoc y vals = Some v.
(** The module at [q] knows [y]: it declares it, or it will be a constant there once its enumeration has been parsed. *)
Definition known (root : modl) (q : place) (y : string) : Prop := declares root y q = true \/ exists x v, enumerator root q x y v.
(** [y] is known at [p] or in a module around it. *)
Definition visible (root : modl) (p : place) (y : string) : Prop := exists q, around q p /\ known root q y.

(** The declaration [u] is what the text [s] means in the module at [p]: [s] is its name and no closer module knows that
    name, or [s] is its name behind the names of the modules that lead to it from a module around [p], and no closer module
    has a submodule called like the first of them. *)
Definition points (root : modl) (p : place) (s : string) (u : node) : Prop :=
  exists qs, s = qualified qs (n_name u) /\ ident_path qs (n_name u) /\
    match qs with
    | [] => around (n_in u) p /\ forall q, around q p -> known root q (n_name u) -> around q (n_in u)
    | q1 :: _ => exists h, around h p /\ (rev qs ++ h)%list = n_in u /\ forall q, around q p -> exists_module root (q1 :: q) = true -> around q h
    end.
(** [s] is the name of [u] from the root. *)
Definition absolute (s : string) (u : node) : Prop := s = render true (rev (n_in u)) (n_name u) /\ ident_path (rev (n_in u)) (n_name u).
(** The text [s] means the type [t].  (Module::type renames the type it finds by a name from the root, so that is left out.) *)
Definition means (root : modl) (p : place) (s : string) (t : ty) : Prop :=
  exists u, In u (all_nodes root) /\ n_kind u <> xCONST /\ n_type u = t /\ points root p s u.
(** The named types in [t], written by [name], mean themselves. *)
Fixpoint all_meant (name : ty -> string) (root : modl) (p : place) (t : ty) : Prop :=
  match t with
  | TPrim _ | TStr _ _ => True
  | TArr _ c _ | TSeq c _ => all_meant name root p c
  | TMap k v _ | TPair k v => all_meant name root p k /\ all_meant name root p v
  | _ => means root p (name t) t
  end.
(** A type that can be written in the declaration of [x] in the module at [p]. *)
Record type_ok (root : modl) (p : place) (name : ty -> string) (x : string) (t : ty) : Prop := {
  to_canon : canonical t; to_readable : readable name (array_base t); to_meant : all_meant name root p (array_base t); to_hidden : unshadowed name p x (array_base t) }.
Record member_ok (root : modl) (p : place) (name : ty -> string) (x y : string) (t : ty) : Prop := {
  mo_name : plain_name y = true; mo_other : y <> x; mo_new : ~ visible root p y; mo_type : type_ok root p name x t }.
(** A label with a text that means the same value.  An enumerator is not known at [p], or is the one of the discriminator. *)
Definition label_ok (root : modl) (p : place) (x : string) (disc : ty) (l : Z) : Prop :=
  match disc with
  | TPrim PBool => (l = 0 \/ l = 1)%Z /\ ~ visible root p "TRUE" /\ ~ visible root p "FALSE" /\ x <> "TRUE" /\ x <> "FALSE"
  | TPrim PC8 | TPrim PWC => (0 <= l < 128)%Z /\ quotable (ascii_of_N (Z.to_N l)) = true
  | TPrim q => int_kind q = true /\ (0 <= l < 2 ^ 63)%Z /\ fits q l
  | TEnum _ sz vals => sz = 4%N /\ (0 <= l < 2 ^ 32)%Z /\
      let e := enum_enumerator vals (Z.to_N l) in
      is_ident e = true /\ begins "TRUE" e = false /\ begins "FALSE" e = false /\ e <> "default" /\ e <> x /\ assoc e vals = Some (Z.to_N l) /\
      (~ visible root p e \/ exists u, In u (all_nodes root) /\ n_kind u = xENUM /\ n_type u = disc /\ around (n_in u) p /\ forall q, around q p -> known root q e -> around q (n_in u))
  | _ => False
  end.
Definition case_ok (root : modl) (p : place) (name : ty -> string) (x : string) (disc : ty) (k : ucase) : Prop :=
  let '(ls, isd, (y, mt)) := k in
  member_ok root p name x y mt /\ (ls <> [] \/ isd = true) /\ (forall l, In l ls -> label_ok root p x disc l) /\ (isd = true -> ~ visible root p "default") /\ case_sorted disc k.

(** Each kind of declaration. *)
Definition struct_ok (root : modl) (par : node -> option ty) (n : node) : Prop :=
  let p := n_in n in let x := n_name n in let g := node_at root p in
  exists ms t, struct_of x (par n) ms = Ok t /\ n_type n = rename t (scoped (scope p) x) /\ plain_name x = true /\ NoDup (map fst ms) /\
    (forall y mt, In (y, mt) ms -> member_ok root p (type_idl g (is_leaf mt)) x y mt) /\
    forall b, par n = Some b -> exists u, In u (all_nodes root) /\ n_kind u = xSTRUCT /\ n_type u = b /\ (points root p (g_scope g b ++ tname b) u \/ absolute (g_scope g b ++ tname b) u) /\ not_hidden p x (g_scope g b ++ tname b).
Definition union_ok (root : modl) (n : node) : Prop :=
  let p := n_in n in let x := n_name n in let name := type_idl (node_at root p) false in
  exists disc cs t, union_of x disc cs = Ok t /\ n_type n = rename t (scoped (scope p) x) /\ plain_name x = true /\
    switchable name disc /\ all_meant name root p disc /\ (2 <= List.length cs)%nat /\ forall k, In k cs -> case_ok root p name x disc k.
Definition alias_ok (root : modl) (n : node) : Prop :=
  let p := n_in n in let x := n_name n in let name := type_idl (node_at root p) false in
  exists t, n_type n = TAlias (scoped (scope p) x) t /\ plain_name x = true /\ (forall q c, around (c :: q) p -> ~ visible root q x) /\
    canonical t /\ Forall (fun d => d < 2 ^ 31)%N (array_dims t) /\ readable name (array_base t) /\ all_meant name root p (array_base t).
Definition enum_ok (n : node) : Prop :=
  let x := n_name n in
  exists vals, n_type n = TEnum (scoped (scope (n_in n)) x) 4 vals /\ is_ident x = true /\ vals <> [] /\ Forall (fun e => is_ident (fst e) = true) vals /\
    sorted_names vals /\ numbered 0 (sort_by_value vals) /\ (N.of_nat (List.length vals) <= 2 ^ 32)%N.
Definition const_ok (root : modl) (n : node) : Prop :=
  exists d q z, const_entry root (n_in n) (n_name n) = Some d /\ is_int d q z /\ int_kind q = true /\ (prim_signed q = true -> z <> least q) /\ is_ident (n_name n) = true.
Definition node_ok (root : modl) (par : node -> option ty) (n : node) : Prop :=
  match n_kind n with
  | xSTRUCT => struct_ok root par n | xUNION => union_ok root n | xALIAS => alias_ok root n | xENUM => enum_ok n
  | xCONST => const_ok root n
  end.
(** Within a module every name is used once: types, constants, enumerators and submodules. *)
Record names_once (root : modl) : Prop := {
  no_nodes : forall q m n, In m (nodes_of root q) -> In n (nodes_of root q) -> n_name m = n_name n -> m = n;
  no_modules : forall q m, In m (nodes_of root q) -> exists_module root (n_name m :: q) = false;
  no_enum_modules : forall q x y v, enumerator root q x y v -> exists_module root (y :: q) = false;
  no_enum_nodes : forall q x y v m, enumerator root q x y v -> In m (nodes_of root q) -> n_name m = y -> n_kind m = xCONST /\ printed root m = false;
  no_enum_enums : forall q x x' y v v', enumerator root q x y v -> enumerator root q x' y v' -> x = x' }.
(** The whole tree can be written and read back: its names are plain identifiers, each used once in its module, and each
    declaration that is printed can be written. *)
Record round_ok (root : modl) (par : node -> option ty) : Prop := {
  ro_once : names_once root;
  ro_modules : forall q x, exists_module root (x :: q) = true -> plain_name x = true;
  ro_filled : forall q, exists_module root q = true -> exists n, DepSpec.wanted root n /\ around q (n_in n);
  ro_nodes : forall n, DepSpec.wanted root n -> node_ok root par n }.
(** The module [r] has what [root] has: the same modules, the same types, the same constants with the same values; the
    enumerators, which the parser makes constants, may be added. *)
Record same_module (root r : modl) : Prop := {
  sm_modules : forall q, exists_module r q = exists_module root q;
  sm_types : forall q k y, entry r q k y = entry root q k y;
  sm_consts : forall q y d, const_entry root q y = Some d -> printed root (Node q xCONST y (d_type d)) = true ->
    exists d' k z, const_entry r q y = Some d' /\ is_int d k z /\ is_int d' k z;
  sm_enumerators : forall q x y v, enumerator root q x y v -> exists d, const_entry r q y = Some d /\ is_int d PU32 (Z.of_N v);
  sm_no_more : forall q y d, const_entry r q y = Some d -> const_entry root q y <> None \/ exists x v, enumerator root q x y v }.
