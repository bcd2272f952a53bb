(** Walking a tree of modules: for_each, for_each_submodule, get_all_types (idl/Module.hpp). *)
From Verif Require Import Base Types TypeBuild Mem Ops Module.

(** An entry of inner_ may be a null pointer: dereferencing it is undefined. *)
Section Walk.
  Context {S : Type}.
  (** The user's function and its state; it gets the module (with its place in the tree). *)
  Variable visitor : S -> place -> modl -> S.
  (** for_each_submodule(visitor, module, recursive) (Module.hpp:81-96); the recursive call has recursive = true. *)
  Fixpoint for_each_submodule (p : place) (m : modl) (recursive : bool) (s : S) {struct m} : res S :=
    match m with
    | Mod _ _ inner =>
        (fix go (l : list (string * option modl)) (s : S) : res S :=
           match l with
           | [] => Ok s
           | (_, None) :: _ => Fail UB
           | (c, Some x) :: r =>
               let s1 := visitor s (c :: p) x in
               do s2 <- (if recursive then for_each_submodule (c :: p) x true s1 else Ok s1);
               go r s2
           end) inner s
    end.
  (** for_each(visitor) (Module.hpp:104-109). *)
  Definition for_each_module (p : place) (m : modl) (s : S) : res S := for_each_submodule p m true (visitor s p m).
End Walk.

(** fill_all_types (Module.hpp:358-390). *)
Definition put_all (pre : string) (l : list (string * ty)) (acc : list (string * ty)) : list (string * ty) :=
  fold_left (fun acc e => emplace (pre ++ fst e)%string (snd e) acc) l acc.
Fixpoint fill_all_types (add_scope : bool) (p : place) (m : modl) (acc : list (string * ty)) {struct m} : res (list (string * ty)) :=
  match m with
  | Mod _ tab inner =>
      let module_name := if add_scope then scope p else ""%string in
      let pre := if String.eqb module_name "" then module_name else (module_name ++ "::")%string in
      let acc := put_all pre (structs tab) acc in
      let acc := put_all pre (unions tab) acc in
      let acc := put_all pre (aliases tab) acc in
      let acc := put_all pre (enums tab) acc in
      (fix go (l : list (string * option modl)) (acc : list (string * ty)) : res (list (string * ty)) :=
         match l with
         | [] => Ok acc
         | (_, None) :: _ => Fail UB
         | (c, Some x) :: r => do acc <- fill_all_types add_scope (c :: p) x acc; go r acc
         end) inner acc
  end.
(** get_all_types(add_scope) (Module.hpp:350-356) of the module at [p]. *)
Definition get_all_types (add_scope : bool) (root : modl) (p : place) : res (list (string * ty)) :=
  match mod_at root p with Some m => fill_all_types add_scope p m [] | None => Fail UB end.
