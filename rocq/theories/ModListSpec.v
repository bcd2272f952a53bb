(** What a listing of a module contains. *)
From Verif Require Import Base Types TypeBuild Mem Ops Module ModuleSpec.

(** std::map: every name leads to one submodule. *)
Definition inner_once (root : modl) : Prop := forall p m, mod_at root p = Some m -> NoDup (map fst (m_inner m)).
(** [q] is the module at [p] or a module inside it. *)
Definition inside (p q : place) : Prop := exists r, q = r ++ p.
(** The key of the type [x] of the module at [q]: M1::...::Mn::x or x. *)
Definition key_of (scoped : bool) (q : place) (x : string) : string := if scoped then qualified (rev q) x else x.
(** Names of modules and types are not empty and have no colon. *)
Definition plain_names (root : modl) : Prop :=
  (forall c p, exists_module root (c :: p) = true -> ident c) /\ (forall q k x t, entry root q k x = Some t -> ident x).
(** Within a module a name is used by one table of types only. *)
Definition one_kind (root : modl) : Prop := forall q k k' x t t', entry root q k x = Some t -> entry root q k' x = Some t' -> k = k'.
