(** What it means that the emitted IDL declares types before use. *)
From Verif Require Import Base Types TypeBuild Mem Ops Module ModuleSpec DepTree.

(** The named types written in a type specifier: arrays, sequences and maps are written inline. *)
Fixpoint named_in (t : ty) : list ty :=
  match t with
  | TArr _ c _ | TSeq c _ => named_in c
  | TMap k v _ | TPair k v => named_in k ++ named_in v
  | TAlias _ _ | TEnum _ _ _ | TStruct _ _ _ | TUnion _ _ _ _ _ _ _ => [t]
  | _ => []
  end.
(** The named types written in a declaration. *)
Definition written (par : node -> option ty) (n : node) : list ty :=
  match n_kind n, n_type n with
  | xALIAS, TAlias _ a => named_in a
  | xCONST, t => named_in t
  | xSTRUCT, TStruct _ _ ms => match par n with Some s => [s] | None => [] end ++ flat_map (fun m => named_in (snd m)) ms
  | xUNION, TUnion _ _ ms _ _ _ _ => flat_map (fun m => named_in (snd m)) ms
  | _, _ => []
  end.
(** [u] is the declaration, somewhere in the tree, of a type written in the declaration [n]. *)
Definition uses (root : modl) (par : node -> option ty) (n u : node) : Prop :=
  In n (all_nodes root) /\ In u (all_nodes root) /\ n_kind u <> xCONST /\ In (n_type u) (written par n).

(** [a] is emitted before [b]. *)
Definition before (o : list event) (a b : event) : Prop := exists o1 o2 o3, o = o1 ++ a :: o2 ++ b :: o3.
(** The number of times a declaration is emitted. *)
Definition times (n : node) (o : list event) : nat := List.length (filter (fun e => match e with EDecl m => node_eqb n m | _ => false end) o).
(** The declarations the program is expected to print: all but the constants that stand for enumerators. *)
Definition wanted (root : modl) (n : node) : Prop := In n (all_nodes root) /\ printed root n = true.

(** Reading the events with the stack of open modules: a module is opened in its outer module, closed when it is the
    innermost, and a declaration is printed when its module is the innermost open one. *)
Fixpoint stack_after (stk : list place) (o : list event) : option (list place) :=
  match o with
  | [] => Some stk
  | EOpen p :: r =>
      match p, stk with
      | [], [] => stack_after [p] r
      | _ :: o', q :: _ => if place_eqb o' q then stack_after (p :: stk) r else None
      | _, _ => None
      end
  | EClose p :: r => match stk with q :: stk' => if place_eqb p q then stack_after stk' r else None | [] => None end
  | EDecl n :: r => match stk with q :: _ => if place_eqb (n_in n) q then stack_after stk r else None | [] => None end
  end.
Definition well_nested (o : list event) : Prop := stack_after [] o = Some [].

Definition shape (k : table) (t : ty) : Prop :=
  match k, t with
  | Structs, TStruct _ _ _ | Unions, TUnion _ _ _ _ _ _ _ | Enums, TEnum _ _ _ | Aliases, TAlias _ _ => True
  | _, _ => False
  end.
(** Trees as Module builds them: keys are IDL identifiers, types carry their scoped names, every constant has its type. *)
Definition well_named (root : modl) : Prop :=
  no_nulls root /\ consts_paired root /\
  (forall p m, mod_at root p = Some m -> NoDup (map fst (m_inner m)) /\ Forall (fun e => ident (fst e)) (m_inner m)) /\
  (forall p k, NoDup (map fst (get_table k (tab_at root p)))) /\
  (forall p, NoDup (map fst (const_types (tab_at root p)))) /\
  (forall p k x t, exists_module root p = true -> In (x, t) (get_table k (tab_at root p)) ->
     ident x /\ shape k t /\ tname t = scoped (scope p) x) /\
  (forall p x t, exists_module root p = true -> In (x, t) (const_types (tab_at root p)) -> ident x).

(** No confusion about the name of [u]: a name declared at the root is declared nowhere else, and within its module the
    name belongs to one table only. *)
Definition unambiguous (root : modl) (u : node) : Prop :=
  (n_in u = [] -> forall q, declares root (n_name u) q = true -> q = []) /\
  (forall m, In m (nodes_of root (n_in u)) -> n_name m = n_name u -> m = u).

(** The types a declaration mentions, at any depth. *)
Fixpoint parts (t : ty) : list ty :=
  t :: match t with
       | TPrim _ | TEnum _ _ _ | TStr _ _ => []
       | TArr _ c _ | TSeq c _ => parts c
       | TMap a b _ | TPair a b => parts a ++ parts b
       | TStruct _ _ ms | TUnion _ _ ms _ _ _ _ => flat_map (fun m => parts (snd m)) ms
       | TAlias _ a => parts a
       end.
Definition mentions (par : node -> option ty) (n u : node) : Prop :=
  exists w t, In w (written par n) /\ In t (parts w) /\ unscoped (tname t) = n_name u.
(** An alias or constant names its type itself, not inside a sequence, map or array. *)
Definition direct (n u : node) : Prop :=
  (n_kind n = xALIAS -> exists nm, n_type n = TAlias nm (n_type u)) /\ (n_kind n = xCONST -> n_type n = n_type u).
(** The declarations of the module [p] can be emitted as the code does: what a declaration mentions is either earlier in the
    order alias, constant, enumeration, structure, union (each by name), or of the same kind and then itself uses nothing
    but earlier declarations. *)
Definition shallow (root : modl) (par : node -> option ty) (p : place) : Prop :=
  forall l1 n l2 u, nodes_of root p = l1 ++ n :: l2 -> In u (nodes_of root p) -> mentions par n u ->
    In u l1 \/ (n_kind u = n_kind n /\ direct n u /\ forall v, In v (nodes_of root p) -> uses root par u v -> In v l1).
(** [n] is needed by a module inside its own module. *)
Definition needed_inside (root : modl) (par : node -> option ty) (n : node) : Prop :=
  exists m, In m (all_nodes root) /\ inside (n_in m) (n_in n) = true /\ mentions par m n.
(** Every named type a declaration mentions is declared somewhere in the tree. *)
Definition self_contained (root : modl) (par : node -> option ty) : Prop :=
  forall n w t, In n (all_nodes root) -> In w (written par n) -> In t (parts w) -> opts t = true ->
    exists u, In u (all_nodes root) /\ n_kind u <> xCONST /\ n_type u = t.
(** Sibling modules do not use each other in a circle: there is a number for each module that decreases from a module to the
    siblings whose declarations it mentions. *)
Definition no_circle (root : modl) (par : node -> option ty) : Prop :=
  exists rank : place -> nat, forall n u c c' o, In n (all_nodes root) -> In u (all_nodes root) -> mentions par n u ->
    around (c :: o) (n_in n) -> around (c' :: o) (n_in u) -> c <> c' -> (rank (c' :: o) < rank (c :: o))%nat.
(** A circle: each of the modules in [C] has a declaration that uses one of a sibling in [C]. *)
Definition circle (root : modl) (par : node -> option ty) (C : place -> Prop) : Prop :=
  (exists a, C a) /\
  forall a, C a -> exists_module root a = true /\
    exists c c' o n u, a = c :: o /\ C (c' :: o) /\ c <> c' /\ around a (n_in n) /\ around (c' :: o) (n_in u) /\
      uses root par n u /\ direct n u /\ unambiguous root u.
