(** Integers of a primitive type and the bytes that stand for them. *)
From Verif Require Import Base Types Mem.
Local Open Scope Z_scope.

Definition width (p : prim) : Z := 8 * Z.of_N (prim_size p).
Definition least (p : prim) : Z := if prim_signed p then - 2 ^ (width p - 1) else 0.
Definition greatest (p : prim) : Z := if prim_signed p then 2 ^ (width p - 1) - 1 else 2 ^ width p - 1.
(** [z] is a value of the type. *)
Definition fits (p : prim) (z : Z) : Prop := least p <= z <= greatest p.
(** [r] is [z] reduced to the type: the value of the type that differs from [z] by a multiple of 2^width. *)
Definition reduced (p : prim) (z r : Z) : Prop := fits p r /\ exists k, z - r = k * 2 ^ width p.

(** The number an element of type [p] with bytes [bs] (least significant first) stands for, in two's complement. *)
Definition number (p : prim) (bs : list N) (z : Z) : Prop :=
  fits p z /\ exists k, Z.of_N (le_decode bs) - z = k * 2 ^ width p.
