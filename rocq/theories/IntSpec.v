(** Integer arithmetic: what the operators mean. *)
From Verif Require Import Base Types Mem MemSpec Ops DataSpec IntOps NumSpec.
Local Open Scope Z_scope.

(** The mathematical operations: division towards zero, shifts as multiplication and floor division by a power of 2. *)
Definition math (o : arith) (a b : Z) : Z :=
  match o with
  | Add => a + b | Sub => a - b | Mul => a * b | Div => Z.quot a b | Rem => Z.rem a b
  | Shl => a * 2 ^ b | Shr => a / 2 ^ b | BAnd => Z.land a b | BOr => Z.lor a b | BXor => Z.lxor a b
  end.
(** The type in which C++ computes: int for the types smaller than int. *)
Definition computed_in (p : prim) : prim := if (prim_size p <? 4)%N then PI32 else p.
(** C++17 leaves the operation undefined. *)
Definition undefined (o : arith) (p : prim) (a b : Z) : Prop :=
  let c := computed_in p in
  match o with
  | Add | Sub | Mul => prim_signed c = true /\ ~ fits c (math o a b)
  | Div | Rem => b = 0 \/ (prim_signed c = true /\ ~ fits c (Z.quot a b))
  | Shl => b < 0 \/ width c <= b \/ (prim_signed c = true /\ (a < 0 \/ 2 ^ width c <= a * 2 ^ b))
  | Shr => b < 0 \/ width c <= b
  | BAnd | BOr | BXor => False
  end.
(** Types that hold integers. *)
Definition integral (p : prim) : Prop := is_float p = false /\ p <> PBool.
(** [x] is a live DynamicData of the primitive type [p] and holds the number [z]. *)
Definition is_int (x : data) (p : prim) (z : Z) : Prop :=
  d_type x = TPrim p /\ exists bs, holds x (VBytes bs) /\ number p bs z.
(** The comparisons, with C's reading of a number as a truth value. *)
Definition cmp_holds (o : cmp) (a b : Z) : Prop :=
  match o with
  | Lt_ => a < b | Gt_ => a > b | Le_ => a <= b | Ge_ => a >= b
  | And_ => a <> 0 /\ b <> 0 | Or_ => a <> 0 \/ b <> 0
  end.
