(** Parser::parse with the module it leaves behind, also when an exception leaves it (idl/parser.hpp).  The same functions
    as in IdlParse.v, with the changes made before an exception kept; KeepFacts.v proves that the answers agree. *)
From Verif Require Import Base Types TypeBuild Compat Mem Hash MapOps Ops Module NumSpec IntSpec IntOps IdlLit IdlExpr IdlSpec Peg0 Grammar Peg IdlParse.
Local Open Scope string_scope.

(** The module after a call and what the call returned or threw. *)
Definition run (A : Type) : Type := modl * res A.
Definition andthen {A B} (x : run A) (f : A -> modl -> run B) : run B :=
  match x with (root, Ok a) => f a root | (root, Fail e) => (root, Fail e) end.
(** A query: the module is not changed. *)
Definition query {A B} (root : modl) (r : res A) (f : A -> run B) : run B := match r with Ok a => f a | Fail e => (root, Fail e) end.
(** A call that changes the module only if it returns.  Simplification for create_constant: if the assignment inside it
    (Module.hpp:459-460) threw, constants_types_ would have the new name already. *)
Definition update {A} (root : modl) (r : res (A * modl)) : run A := match r with Ok (a, root') => (root', Ok a) | Fail e => (root, Fail e) end.
Definition update_ (root : modl) (r : res modl) : run unit := match r with Ok root' => (root', Ok tt) | Fail e => (root, Fail e) end.

(** The loop over member_list of struct_def (parser.hpp:1527-1535): the members before the one refused stay. *)
Fixpoint add_members_run (t : ty) (ms : list (string * ty)) : ty * res unit :=
  match ms with
  | [] => (t, Ok tt)
  | (x, mt) :: r => match add_member t x mt with (t', Ok _) => add_members_run t' r | (t', Fail e) => (t', Fail e) end
  end.
(** The type found by lookup is changed in place, completely or until an exception. *)
Definition store_run (k : table) (y : string) (t : ty * res unit) (root : modl) (q : place) : run unit :=
  andthen (update_ root (store_at k y (fst t) root q)) (fun _ root => (root, snd t)).

(** struct_def (parser.hpp:1455-1536). *)
Definition declare_struct_run (n : nat) (c : ctx) (p : place) (x : string) (root : modl) : run string :=
  query root (resolve_identifier n c root p x true) (fun nm =>
  andthen (update root (call_register Structs (TStruct nm 0 []) false root p)) (fun _ root => (root, Ok nm))).
Fixpoint struct_parts_run (n : nat) (c : ctx) (p : place) (l : list ast) (name parent : string) (ms : list (string * ty)) (root : modl)
  : run (string * string * list (string * ty)) :=
  match l with
  | [] => (root, Ok (name, parent, ms))
  | a :: r =>
      match a_orig a with
      | R_IDENTIFIER => andthen (declare_struct_run n c p (a_tok a) root) (fun nm root => struct_parts_run n c p r nm parent ms root)
      | R_INHERITANCE =>
          query root (find_in n root p structs (a_tok a)) (fun t =>
          match t with Some _ => struct_parts_run n c p r name (a_tok a) ms root | None => (root, Fail Throw) end)
      | R_MEMBER => query root (member_def n c root p (a_sub a) None ms) (fun ms => struct_parts_run n c p r name parent ms root)
      | _ => struct_parts_run n c p r name parent ms root
      end
  end.
Definition struct_run (n : nat) (c : ctx) (p : place) (a : ast) (root : modl) : run unit :=
  andthen (struct_parts_run n c p (a_sub a) "" "" [] root) (fun s root =>
  let '(name, parent, ms) := s in
  andthen (if String.eqb name "" && rule_eqb (a_tag a) R_IDENTIFIER then declare_struct_run n c p (a_tok a) root else (root, Ok name)) (fun name root =>
  query root (lookup n Structs root p name) (fun e =>
  let '(q, y, t) := e in
  match members_of t with
  | _ :: _ => if ignore_redefinition c then (root, Ok tt) else (root, Fail Throw)
  | [] =>
      if String.eqb parent "" then store_run Structs y (add_members_run t ms) root q
      else
        query root (lookup n Structs root p parent) (fun b =>
        query root (struct_new name (Some (snd b))) (fun t' =>
        andthen (update root (call_register Structs t' true root p)) (fun _ root =>
        query root (lookup n Structs root p name) (fun e =>
        store_run Structs (snd (fst e)) (add_members_run (snd e) ms) root (fst (fst e))))))
  end))).

Section Values.
  Variable fc : prim -> prim -> list N -> list N.
  Variable flt : arith -> prim -> list N -> list N -> list N.
  Variable flit : prim -> string -> res (list N).

  (** enum_dcl (parser.hpp:1380-1408): the constants of the enumerators before the one refused stay. *)
  Fixpoint enumerators_run (l : list ast) (p : place) (e : enum_st) (root : modl) : run enum_st :=
    match l with
    | [] => (root, Ok e)
    | a :: r =>
        match add_enumerator_next e (a_tok a) with
        | (e', Ok _) =>
            query root (enum_value (es_vals e') (a_tok a)) (fun v =>
            query root (result fc PU32 (int_bytes PU32 (Z.of_N v))) (fun d =>
            andthen (update root (call_create_constant fc (es_name e ++ "::" ++ a_tok a) d false true root p)) (fun _ root =>
            andthen (update root (call_create_constant fc (a_tok a) d false true root p)) (fun _ root =>
            enumerators_run r p e' root))))
        | (_, Fail er) => (root, Fail er)
        end
    end.
  Definition enum_run (p : place) (a : ast) (root : modl) : run unit :=
    match a_sub a with
    | i :: r =>
        andthen (enumerators_run r p (enum_new (a_tok i) 4) root) (fun e root =>
        andthen (update root (call_register Enums (enum_type e) false root p)) (fun _ root => (root, Ok tt)))
    | [] => (root, Fail UB)
    end.

  (** union_def (parser.hpp:1538-1596). *)
  Definition add_case_run (t : ty) (labels : list string) (x : string) (mt : ty) : ty * res unit :=
    match t with
    | TUnion _ _ ((_, _, disc) :: _) _ _ _ _ =>
        match parse_labels disc labels false [] with
        | Ok r => add_case_member t (snd r) x mt (fst r)
        | Fail e => (t, Fail e)
        end
    | _ => (t, Fail UB)
    end.
  Fixpoint add_cases_run (t : ty) (cs : cases) : ty * res unit :=
    match cs with
    | [] => (t, Ok tt)
    | (ls, (x, mt)) :: r => match add_case_run t ls x mt with (t', Ok _) => add_cases_run t' r | (t', Fail e) => (t', Fail e) end
    end.
  Fixpoint union_parts_run (n : nat) (c : ctx) (p : place) (l : list ast) (name : string) (cs : cases) (root : modl) : run (string * cases) :=
    match l with
    | [] => (root, Ok (name, cs))
    | a :: r =>
        match a_orig a with
        | R_IDENTIFIER => query root (resolve_identifier n c root p (a_tok a) true) (fun x => union_parts_run n c p r x cs root)
        | R_SWITCH_TYPE_SPEC | R_SCOPED_NAME =>
            query root (type_spec n c root p a) (fun t =>
            query root (union_new name t) (fun u =>
            andthen (update root (call_register Unions u false root p)) (fun _ root => union_parts_run n c p r name cs root)))
        | R_SWITCH_BODY => query root (switch_body n c root p (a_sub a) cs) (fun cs => union_parts_run n c p r name cs root)
        | _ => union_parts_run n c p r name cs root
        end
    end.
  Definition union_run (n : nat) (c : ctx) (p : place) (a : ast) (root : modl) : run unit :=
    andthen (union_parts_run n c p (a_sub a) "" [] root) (fun s root =>
    query root (lookup n Unions root p (fst s)) (fun e =>
    let '(q, y, t) := e in
    match members_of t with
    | _ :: _ :: _ => if ignore_redefinition c then (root, Ok tt) else (root, Fail Throw)
    | _ => store_run Unions y (add_cases_run t (snd s)) root q
    end)).

  (** build_on_ast (parser.hpp:785-842) with module_dcl (920-965).  alias_dcl, const_dcl, struct_fw_dcl and union_fw_dcl
      change the module only in their last call. *)
  Fixpoint build_run (n : nat) (c : ctx) (p : place) (a : ast) (root : modl) {struct a} : run unit :=
    match a with
    | Ast _ tag tok l =>
        match tag with
        | R_ANNOTATION_APPL => (root, Ok tt)
        | R_MODULE_DCL =>
            (fix go (l : list ast) (sc : option place) (root : modl) {struct l} : run unit :=
               match l with
               | [] => (root, Ok tt)
               | a :: r =>
                   match a_tag a with
                   | R_IDENTIFIER =>
                       if rule_eqb (a_orig a) R_IDENTIFIER then
                         query root (resolve_identifier n c root p (a_tok a) true) (fun x =>
                         andthen (if has_submodule root p x then (root, Ok tt) else update_ root (call_create_submodule x root p)) (fun _ root =>
                         andthen (update root (call_submodule x root p)) (fun b root =>
                         if b : bool then go r (Some (x :: p)) root else (root, Fail UB))))
                       else match sc with
                            | Some q => andthen (struct_run n c q a root) (fun _ root => go r sc root)
                            | None => (root, Fail UB)
                            end
                   | _ => andthen (build_run n c (match sc with Some q => q | None => [] end) a root) (fun _ root => go r sc root)
                   end
               end) l None root
        | R_CONST_DCL => update_ root (const_dcl fc flt flit n c p a root)
        | R_STRUCT_DEF | R_IDENTIFIER => struct_run n c p a root
        | R_STRUCT_FORWARD_DCL | R_UNION_FORWARD_DCL => update_ root (forward_dcl n c p a root)
        | R_UNION_DEF => union_run n c p a root
        | R_ENUM_DCL => enum_run p a root
        | R_ANNOTATION_DCL | R_BITSET_DCL | R_BITMASK_DCL => update_ root (check_names n c p l root)
        | R_TYPE_DECLARATOR => update_ root (alias_dcl n c p a root)
        | _ =>
            (fix go (l : list ast) (root : modl) {struct l} : run unit :=
               match l with [] => (root, Ok tt) | a :: r => andthen (build_run n c p a root) (fun _ root => go r root) end) l root
        end
    end.
  (** Parser::parse(text, context) (parser.hpp:536-560): the module of the context afterwards, and the answer. *)
  Definition parse_run (n : nat) (c : ctx) (text : string) (root : modl) : run bool :=
    match parse_document n text with
    | None => (root, Fail Loop)
    | Some None => (root, Ok false)
    | Some (Some a) => andthen (build_run n c [] a root) (fun _ root => (root, Ok true))
    end.
End Values.
