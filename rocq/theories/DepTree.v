(** The dependency tree of a module and the order in which its IDL is emitted (idl/generator_deptree.hpp).
    The text of each sentence is not part of this file: an emitted sentence is an event. *)
From Verif Require Import Base Types TypeBuild Mem Ops Module.

(** ModuleElementKind (generator_deptree.hpp:80-92). *)
Inductive ekind := xALIAS | xCONST | xENUM | xSTRUCT | xUNION.
Definition ekind_eqb (a b : ekind) : bool :=
  match a, b with xALIAS, xALIAS | xCONST, xCONST | xENUM, xENUM | xSTRUCT, xSTRUCT | xUNION, xUNION => true | _, _ => false end.
(** DependencyNode: from_, kind_, node_ (generator_deptree.hpp:96-118, 366-373). *)
Record node := Node { n_in : place; n_kind : ekind; n_name : string; n_type : ty }.

Fixpoint place_eqb (p q : place) : bool :=
  match p, q with
  | [], [] => true
  | a :: p', b :: q' => String.eqb a b && place_eqb p' q'
  | _, _ => false
  end.
(** The identity of a node.  operator== (generator_deptree.hpp:344-353) compares the kinds and the pointers to the types;
    here the module, the kind and the name, which determine the pointer for every kind but xCONST. *)
Definition node_eqb (a b : node) : bool := place_eqb (n_in a) (n_in b) && ekind_eqb (n_kind a) (n_kind b) && String.eqb (n_name a) (n_name b).

(** create_dependency_set (generator_deptree.hpp:641-658): the tables in this order, each by increasing name. *)
Definition as_nodes (p : place) (k : ekind) (l : list (string * ty)) : list node := map (fun e => Node p k (fst e) (snd e)) l.
Definition nodes_in (p : place) (t : tables) : list node :=
  as_nodes p xALIAS (aliases t) ++ as_nodes p xCONST (const_types t) ++ as_nodes p xENUM (enums t) ++
  as_nodes p xSTRUCT (structs t) ++ as_nodes p xUNION (unions t).
Definition nodes_of (root : modl) (p : place) : list node := nodes_in p (tab_at root p).

(** create_module_dep_tree (generator_deptree.hpp:1096-1110): the modules of the tree, outer before inner, siblings by
    name.  Simplifications: the tree has no null entries (for_each_submodule would dereference one); the tree starts at
    a module without outer module. *)
Fixpoint places_from (p : place) (m : modl) : list place :=
  match m with Mod _ _ inner =>
    p :: flat_map (fun e => match snd e with Some x => places_from (fst e :: p) x | None => [] end) inner
  end.
Definition places (root : modl) : list place := places_from [] root.
(** d_inner_ (generator_deptree.hpp:1070-1079). *)
Definition inner_of (root : modl) (p : place) : list place :=
  match mod_at root p with Some m => map (fun e => fst e :: p) (m_inner m) | None => [] end.

(** has_inner(module) (generator_deptree.hpp:547-586): the immediate inner module of [d] that is or contains [f]. *)
Fixpoint toward (d f : place) : option place :=
  match f with
  | [] => None
  | _ :: o => if place_eqb o d then Some f else toward d o
  end.
(** has_outer(outer) (generator_deptree.hpp:488-506): [p] is strictly inside [q]. *)
Definition inside (p q : place) : bool := match toward q p with Some _ => true | None => false end.
(** find_outer_siblings (generator_deptree.hpp:518-540). *)
Fixpoint outer_siblings (p dep : place) : res (place * place) :=
  match p with
  | [] => Fail Assert
  | _ :: o => match toward o dep with Some i => Ok (p, i) | None => outer_siblings o dep end
  end.

(** name.rfind("::"): the text before and after the last "::". *)
Fixpoint split_last (s : string) : option (string * string) :=
  match split_scope s with
  | None => None
  | Some _ =>
      match s with
      | String a r =>
          match split_last r with
          | Some (x, y) => Some (String a x, y)
          | None => match r with String _ r' => Some (EmptyString, r') | EmptyString => None end
          end
      | EmptyString => None
      end
  end.
Definition unscoped (nm : string) : string := match split_last nm with Some (_, x) => x | None => nm end.
(** scope_match and scoped_this (generator_deptree.hpp:721-740, 796-815). *)
Definition scope_match (p : place) (nm : string) : bool :=
  match split_last nm with
  | Some (sc, _) => String.eqb sc (if prefix "::" sc then "::" ++ scope p else scope p)%string
  | None => true
  end.

(** What solve_dependency_tree records: ancestors_, child_modules_ and parent_modules_ of the nodes (lines 371-373),
    ancestors_ of the modules (1077), each in order of insertion and without repetition. *)
Record deps := Deps { d_anc : list (node * node); d_child : list (node * place); d_par : list (node * place); d_mod : list (place * place) }.
Definition no_deps : deps := Deps [] [] [] [].
Definition add_once {A} (eqb : A -> A -> bool) (x : A) (l : list A) : list A := if existsb (eqb x) l then l else l ++ [x].
Definition pair_eqb {A B} (ea : A -> A -> bool) (eb : B -> B -> bool) (x y : A * B) : bool := ea (fst x) (fst y) && eb (snd x) (snd y).

(** search_module_with_node (generator_deptree.hpp:700-779): the first module, in the order of [places], with a node of
    that name. *)
Definition node_named (root : modl) (p : place) (nm : string) : option node :=
  find (fun u => String.eqb (n_name u) (unscoped nm) && scope_match p nm) (nodes_of root p).
Fixpoint search_in (root : modl) (nm : string) (l : list place) : option node :=
  match l with
  | [] => None
  | p :: r => match node_named root p nm with Some u => Some u | None => search_in root nm r end
  end.

(** set_dependency(dependent, master, kind) (generator_deptree.hpp:781-846, 631-639). *)
Definition set_dependency (root : modl) (n : node) (master : string) (k : ekind) (D : deps) : res deps :=
  if String.eqb (n_name n) master then Ok D
  else
    let p := n_in n in
    if (match mod_at root p with Some m => has_symbol_here m (unscoped master) | None => false end) && scope_match p master then
      match find (fun u => ekind_eqb (n_kind u) k && String.eqb (n_name u) (unscoped master)) (nodes_of root p) with
      | Some u => Ok (Deps (add_once (pair_eqb node_eqb node_eqb) (n, u) (d_anc D)) (d_child D) (d_par D) (d_mod D))
      | None => Ok D
      end
    else
      match search_in root master (places root) with
      | None => Fail Assert
      | Some u =>
          let q := n_in u in
          let c := match toward q p with Some i => i | None => p end in
          let D1 := Deps (d_anc D) (add_once (pair_eqb node_eqb place_eqb) (u, c) (d_child D)) (d_par D) (d_mod D) in
          match toward p q with
          | Some i => Ok (Deps (d_anc D1) (d_child D1) (add_once (pair_eqb node_eqb place_eqb) (n, i) (d_par D1)) (d_mod D1))
          | None =>
              if inside p q then Ok D1
              else do s <- outer_siblings p q;
                   Ok (Deps (d_anc D1) (d_child D1) (d_par D1) (add_once (pair_eqb place_eqb place_eqb) s (d_mod D1)))
          end
      end.

(** opts_for_dependency_setting (generator_deptree.hpp:850-864). *)
Definition opts (t : ty) : bool := match t with TAlias _ _ | TEnum _ _ _ | TStruct _ _ _ | TUnion _ _ _ _ _ _ _ => true | _ => false end.
(** The types for_each visits (DynamicType.hpp:185-197 and for_each_type of StructType.hpp:254, UnionType.hpp:437,
    AliasType.hpp:130, MapType.hpp:211, PairType.hpp:176, SequenceType.hpp:198, ArrayType.hpp:275): an alias is visited in
    the place of its type.  [seen] is the type of the node. *)
Fixpoint visited (seen t : ty) : list ty :=
  match t with
  | TPrim _ | TEnum _ _ _ | TStr _ _ => [seen]
  | TArr _ c _ | TSeq c _ => seen :: visited c c
  | TMap k v _ => seen :: TPair k v :: visited k k ++ visited v v
  | TPair a b => seen :: visited a a ++ visited b b
  | TStruct _ _ ms | TUnion _ _ ms _ _ _ _ => seen :: flat_map (fun m => visited (snd m) (snd m)) ms
  | TAlias _ a => visited seen a
  end.
(** set_node_dependencies (generator_deptree.hpp:886-951): the types passed to set_dynamic_type_dependency.  [par n] is the
    parent of a structure, which [ty] does not keep. *)
Definition masters (par : node -> option ty) (n : node) : list ty :=
  match n_kind n with
  | xALIAS => match n_type n with TAlias _ a => [a] | _ => [] end
  | xCONST | xENUM => [n_type n]
  | xSTRUCT => match par n with Some s => [s] | None => [] end ++
               filter (fun t => negb (String.eqb (tname t) (tname (n_type n)))) (visited (n_type n) (n_type n))
  | xUNION => filter (fun t => negb (String.eqb (tname t) (tname (n_type n)))) (visited (n_type n) (n_type n))
  end.
Fixpoint set_all (root : modl) (n : node) (l : list ty) (D : deps) : res deps :=
  match l with
  | [] => Ok D
  | t :: r => do D1 <- (if opts t then set_dependency root n (tname t) (n_kind n) D else Ok D); set_all root n r D1
  end.
Fixpoint solve_nodes (root : modl) (par : node -> option ty) (l : list node) (D : deps) : res deps :=
  match l with
  | [] => Ok D
  | n :: r => do D1 <- set_all root n (masters par n) D; solve_nodes root par r D1
  end.
(** All the nodes of the tree, in the order of solve_dependency_tree (generator_deptree.hpp:954-963, 1112-1124). *)
Definition all_nodes (root : modl) : list node := flat_map (nodes_of root) (places root).
Definition solve (root : modl) (par : node -> option ty) : res deps := solve_nodes root par (all_nodes root) no_deps.

(** ** Emission *)
(** "module X {", "};" and a declaration.  For the root nothing is printed; its events mark the start and the end. *)
Inductive event := EOpen (p : place) | EClose (p : place) | EDecl (n : node).
(** iterated_ of the nodes and of the modules, and what was emitted. *)
Record gst := Gst { g_nodes : list node; g_mods : list place; g_out : list event }.
Definition gst0 : gst := Gst [] [] [].
Definition out (e : event) (s : gst) : gst := Gst (g_nodes s) (g_mods s) (g_out s ++ [e]).
Definition it_node (n : node) (s : gst) : bool := existsb (node_eqb n) (g_nodes s).
Definition it_mod (p : place) (s : gst) : bool := existsb (place_eqb p) (g_mods s).

(** The constants of enumerators are not printed (generator_deptree.hpp:303-316). *)
Definition printed (root : modl) (n : node) : bool :=
  match n_kind n with
  | xCONST => mem (n_name n) (consts (tab_at root (n_in n))) && negb (existsb (String.eqb (n_name n)) (from_enum (tab_at root (n_in n))))
  | _ => true
  end.
(** DependencyNode::generate_idl_sentence (generator_deptree.hpp:283-341). *)
Definition sentence (root : modl) (n : node) (s : gst) : gst :=
  if it_node n s then s
  else Gst (g_nodes s ++ [n]) (g_mods s) (if printed root n then g_out s ++ [EDecl n] else g_out s).
Definition sentences (root : modl) (l : list node) (s : gst) : gst := fold_left (fun s n => sentence root n s) l s.

Definition ancestors (D : deps) (n : node) : list node := map snd (filter (fun e => node_eqb n (fst e)) (d_anc D)).
Definition parents (D : deps) (n : node) : list place := map snd (filter (fun e => node_eqb n (fst e)) (d_par D)).
Definition mod_ancestors (D : deps) (p : place) : list place := map snd (filter (fun e => place_eqb p (fst e)) (d_mod D)).
Definition has_child (D : deps) (p : place) (n : node) : bool := existsb (fun e => node_eqb n (fst e) && place_eqb p (snd e)) (d_child D).

(** generate_idl_module (generator_deptree.hpp:1028-1068). *)
Definition gen_module (root : modl) (D : deps) (p : place) (s : gst) : gst :=
  fold_left (fun s n => sentence root n (sentences root (ancestors D n) s)) (nodes_of root p) s.

(** generate_idl(dep_mod) without module_idl (generator_deptree.hpp:1130-1276).  [fuel] bounds the recursion of the code,
    which need not end.  The nodes of the outer module are tested before any is printed: child_modules_ is fixed. *)
Fixpoint gen_all (gen : place -> gst -> res gst) (l : list place) (s : gst) : res gst :=
  match l with
  | [] => Ok s
  | q :: r => do s1 <- (if it_mod q s then Ok s else gen q s); gen_all gen r s1
  end.
Fixpoint gen_idl (fuel : nat) (root : modl) (D : deps) (p : place) (s : gst) {struct fuel} : res gst :=
  match fuel with
  | O => Fail Loop
  | S f =>
      if it_mod p s then Ok s
      else
        do s1 <- gen_all (gen_idl f root D) (mod_ancestors D p) s;
        let s2 := match p with
                  | [] => s1
                  | _ :: o => sentences root (filter (has_child D p) (nodes_of root o)) s1
                  end in
        let s3 := out (EOpen p) s2 in
        do s4 <- gen_all (gen_idl f root D) (flat_map (parents D) (nodes_of root p)) s3;
        let s5 := gen_module root D p s4 in
        do s6 <- gen_all (gen_idl f root D) (inner_of root p) s5;
        let s7 := out (EClose p) s6 in
        Ok (Gst (g_nodes s7) (p :: g_mods s7) (g_out s7))
  end.
(** generator::module(module) (generator_deptree.hpp:1088-1094, 1278-1312) prints [o]. *)
Definition generates (root : modl) (par : node -> option ty) (o : list event) : Prop :=
  exists D fuel s, solve root par = Ok D /\ gen_idl fuel root D [] gst0 = Ok s /\ g_out s = o.
