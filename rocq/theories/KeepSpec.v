(** What it means that nothing a module declares is lost. *)
From Verif Require Import Base Types TypeBuild Mem Ops Module ModuleSpec IdlParse.

(** A type that is defined, not only announced: a struct with members, a union with a case beside its discriminator, every
    enumeration and every typedef. *)
Definition settled (k : table) (t : ty) : Prop :=
  match k with Structs => members_of t <> [] | Unions => (2 <= List.length (members_of t))%nat | Enums | Aliases => True end.
(** Every module, type and constant of [root] is in [root'] under the same name; the types defined in [root] and the
    constants are the same. *)
Definition keeps (root root' : modl) : Prop :=
  (forall q, exists_module root q = true -> exists_module root' q = true) /\
  (forall q k y t, entry root q k y = Some t -> exists t', entry root' q k y = Some t' /\ (settled k t -> t' = t)) /\
  (forall q y d, const_entry root q y = Some d -> const_entry root' q y = Some d).
