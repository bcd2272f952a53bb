(** Trees of modules as programs make them. *)
From Verif Require Import Base Types TypeBuild Compat Mem Hash MapOps Ops Module ModuleSpec ModListSpec NumSpec IntSpec IntOps IdlLit IdlExpr IdlSpec Peg0 Grammar Peg IdlParse KeepRun KeepInv.
Local Open Scope string_scope.

(** The trees made from an empty module by any sequence of calls that return and of parses that return or throw.  [p] is the
    module the call is made on. *)
Inductive made fc flt flit : modl -> Prop :=
| made_empty : made fc flt flit root_module
| made_type : forall root p k t replace b root', made fc flt flit root -> kind_of k t = true -> call_register k t replace root p = Ok (b, root') -> made fc flt flit root'
| made_alias : forall root p t b root', made fc flt flit root -> kind_of Aliases t = true -> call_add_alias t root p = Ok (b, root') -> made fc flt flit root'
| made_new_alias : forall root p f t x b root', made fc flt flit root -> call_create_alias f t x root p = Ok (b, root') -> made fc flt flit root'
| made_constant : forall root p x v replace fromenum b root', made fc flt flit root -> call_create_constant fc x v replace fromenum root p = Ok (b, root') -> made fc flt flit root'
| made_module : forall root p x root', made fc flt flit root -> call_create_submodule x root p = Ok root' -> made fc flt flit root'
| made_asked : forall root p x b root', made fc flt flit root -> has_submodule root p x = true -> call_submodule x root p = Ok (b, root') -> made fc flt flit root'
| made_parse : forall root n c text, made fc flt flit root -> made fc flt flit (fst (parse_run fc flt flit n c text root)).

(** Every type has the qualified name of its place and is in the table of its kind. *)
Definition titled (root : modl) : Prop :=
  forall q k x t, entry root q k x = Some t -> kind_of k t = true /\ (Forall (fun c => c <> "") q -> tname t = qualified (rev q) x).
