(** The IDL text of a module (idl/idl.hpp:92-96, idl/generator_deptree.hpp:965-1276): the emission of DepTree.v with its
    characters. *)
From Verif Require Import Base Types TypeBuild Compat Mem Hash MapOps Ops Module ModuleSpec DepTree Peg0 IntOps IdlLit Peg Grammar IdlParse GenIdl.
Local Open Scope string_scope.

(** The names of the modules that lead from [p] to [q], inside it. *)
Fixpoint down_to (p q : place) : list string :=
  match q with
  | [] => []
  | c :: o => if place_eqb q p then [] else (down_to p o ++ [c])%list
  end.
Fixpoint scopes (l : list string) : string := match l with [] => "" | c :: r => c ++ "::" ++ scopes r end.
(** relative_scope (generator_deptree.hpp:965-1000). *)
Definition relative_scope (p q : place) : string :=
  if place_eqb p q then ""
  else if inside p q then match q with [] => "" | c :: _ => c end ++ "::"
  else match toward p q with Some _ => scopes (down_to p q) | None => "::" ++ scope q ++ "::" end.
(** type_scope (generator.hpp:110-132) of a type written in the module at [p].
    Simplification: when no module of the tree has a node of that name the code dereferences a null pointer; here the
    scope is empty then. *)
Definition type_scope (root : modl) (p : place) (t : ty) : string :=
  match split_scope (tname t) with
  | Some _ => ""
  | None =>
      if opts t && negb (declares root (tname t) p) && negb (symbol_count root p (tname t) =? 1)%N
      then match search_in root (tname t) (places root) with Some u => relative_scope p (n_in u) | None => "" end
      else ""
  end.
(** What type_name asks of a DependencyNode of the module at [p]. *)
Definition node_at (root : modl) (p : place) : gnode := GNode (type_scope root p) (Some (scope p)).
(** The text of DependencyNode::generate_idl_sentence (generator_deptree.hpp:283-341) of a node not yet printed.  The value
    of a constant is the one of the module's table. *)
Definition node_text (root : modl) (par : node -> option ty) (tabs : nat) (n : node) : res string :=
  let g := node_at root (n_in n) in
  match n_kind n with
  | xALIAS => match n_type n with TAlias _ a => Ok (alias_idl g tabs (n_name n) a) | _ => Fail UB end
  | xCONST => if printed root n then match const_entry root (n_in n) (n_name n) with Some d => const_idl g tabs (n_name n) d | None => Ok "" end else Ok ""
  | xENUM => match n_type n with TEnum _ _ vals => Ok (enum_idl tabs (n_name n) vals) | _ => Fail UB end
  | xSTRUCT => Ok (struct_idl g tabs (n_name n) (par n) (n_type n))
  | xUNION => union_idl g tabs (n_name n) (n_type n)
  end.
(** all_nodes_iterated, all_inner_iterated (generator_deptree.hpp:439-465). *)
Definition all_nodes_iterated (root : modl) (p : place) (s : gst) : bool := forallb (fun n => it_node n s) (nodes_of root p).
Definition all_inner_iterated (root : modl) (p : place) (s : gst) : bool := forallb (fun q => it_mod q s) (inner_of root p).
Definition empty (x : string) : bool := String.eqb x "".

Section Text.
  Variable root : modl.
  Variable par : node -> option ty.
  Variable D : deps.
  (** generate_idl_sentence: the text is empty if the node has been printed. *)
  Definition t_sentence (tabs : nat) (n : node) (s : gst) : res (gst * string) :=
    if it_node n s then Ok (s, "") else do x <- node_text root par tabs n; Ok (sentence root n s, x).
  (** The ancestors in generate_idl_module (generator_deptree.hpp:1036-1048): a line break behind a text. *)
  Fixpoint t_ancestors (tabs : nat) (l : list node) (s : gst) : res (gst * string) :=
    match l with
    | [] => Ok (s, "")
    | n :: r => do a <- t_sentence tabs n s; do b <- t_ancestors tabs r (fst a); Ok (fst b, (snd a ++ (if empty (snd a) then "" else NL)) ++ snd b)
    end.
  (** generate_idl_module (generator_deptree.hpp:1028-1068) for the nodes [l] of the module at [p]. *)
  Fixpoint t_module (tabs : nat) (p : place) (l : list node) (s : gst) : res (gst * string) :=
    match l with
    | [] => Ok (s, "")
    | n :: r =>
        do a <- t_ancestors tabs (ancestors D n) s;
        do b <- t_sentence tabs n (fst a);
        let more := negb (empty (snd b)) && (negb (all_nodes_iterated root p (fst b)) || (negb (Nat.eqb (List.length (inner_of root p)) 0) && negb (all_inner_iterated root p (fst b)))) in
        do c <- t_module tabs p r (fst b);
        Ok (fst c, snd a ++ (snd b ++ if more then NL else "") ++ snd c)
    end.
  (** The nodes of the outer module [o] that a module needs (generator_deptree.hpp:1155-1171). *)
  Fixpoint t_outer (tabs : nat) (o : place) (l : list node) (s : gst) : res (gst * string) :=
    match l with
    | [] => Ok (s, "")
    | n :: r =>
        do a <- t_sentence tabs n s;
        do b <- t_outer tabs o r (fst a);
        Ok (fst b, (snd a ++ if all_nodes_iterated root o (fst a) then "" else NL) ++ snd b)
    end.
  (** The ancestors of a module and the parent modules of its nodes (lines 1141-1152, 1197-1209). *)
  Fixpoint t_each (gen : place -> gst -> res (gst * string)) (l : list place) (s : gst) : res (gst * string) :=
    match l with
    | [] => Ok (s, "")
    | q :: r => do a <- (if it_mod q s then Ok (s, "") else do a <- gen q s; Ok (fst a, snd a ++ NL)); do b <- t_each gen r (fst a); Ok (fst b, snd a ++ snd b)
    end.
  (** The inner modules of [p] (lines 1213-1222). *)
  Fixpoint t_inner (gen : place -> gst -> res (gst * string)) (p : place) (l : list place) (s : gst) : res (gst * string) :=
    match l with
    | [] => Ok (s, "")
    | q :: r => do a <- (if it_mod q s then Ok (s, "") else gen q s); do b <- t_inner gen p r (fst a); Ok (fst b, (snd a ++ if all_inner_iterated root p (fst a) then "" else NL) ++ snd b)
    end.
  (** generate_idl(dep_mod, tabs) without module_idl (generator_deptree.hpp:1130-1276).  Simplification: a module is taken
      for the root when it has no outer module, in the code when its name is empty. *)
  Fixpoint gen_text (fuel : nat) (tabs : nat) (p : place) (s : gst) {struct fuel} : res (gst * string) :=
    match fuel with
    | O => Fail Loop
    | S f =>
        if it_mod p s then Ok (s, "")
        else
          let tabs' := match p with [] => O | _ => S tabs end in
          do a1 <- t_each (gen_text f (match p with [] => O | _ => tabs end)) (mod_ancestors D p) s;
          do a2 <- match p with [] => Ok (fst a1, "") | _ :: o => t_outer tabs o (filter (has_child D p) (nodes_of root o)) (fst a1) end;
          let head := match p with [] => "" | x :: _ => indent tabs ++ "module " ++ x ++ NL ++ indent tabs ++ "{" ++ NL end in
          do a3 <- t_each (gen_text f tabs') (flat_map (parents D) (nodes_of root p)) (DepTree.out (EOpen p) (fst a2));
          do a4 <- t_module tabs' p (nodes_of root p) (fst a3);
          do a5 <- t_inner (gen_text f tabs') p (inner_of root p) (fst a4);
          let foot := match p with [] => "" | _ => indent tabs ++ "};" ++ NL end in
          let s7 := DepTree.out (EClose p) (fst a5) in
          Ok (Gst (g_nodes s7) (p :: g_mods s7) (g_out s7), snd a1 ++ snd a2 ++ head ++ snd a3 ++ snd a4 ++ snd a5 ++ foot)
    end.
End Text.
(** generate(module) (idl/idl.hpp:92-96; generator_deptree.hpp:1088-1094, 1278-1312) returns [text]. *)
Definition generates_text (root : modl) (par : node -> option ty) (text : string) : Prop :=
  exists D fuel s, solve root par = Ok D /\ gen_text root par D fuel O [] gst0 = Ok (s, text).
