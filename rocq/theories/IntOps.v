(** Operators of DynamicData on numbers (DynamicDataImpl.hpp). *)
From Verif Require Import Base Types TypeBuild Compat Mem Hash MapOps Ops.

Inductive arith := Mul | Div | Rem | Add | Sub | Shl | Shr | BAnd | BXor | BOr.
(** The kinds of DYNAMIC_DATA_NUMERIC_INT_SWITCH (DynamicDataImpl.hpp:47-62) and of the signed switch (28-45). *)
Definition int_kind (p : prim) : bool := match p with PI8 | PU8 | PI16 | PU16 | PI32 | PU32 | PI64 | PU64 => true | _ => false end.
Definition signed_int_kind (p : prim) : bool := match p with PI8 | PI16 | PI32 | PI64 => true | _ => false end.

(** ** C++ arithmetic on integers of width [w] (x86-64: int has 32 bits) *)
(** The integral promotions and usual conversions of two operands of the same type: (width, signed). *)
Definition promoted (p : prim) : Z * bool :=
  if (prim_size p <? 4) then (32, true)%Z else ((8 * Z.of_N (prim_size p))%Z, prim_signed p).
(** The result of an operation of type (w, signed): signed overflow is undefined, unsigned is modulo 2^w. *)
Definition fit_int (c : Z * bool) (z : Z) : res Z :=
  let (w, s) := c in
  if s then if ((- 2 ^ (w - 1) <=? z) && (z <? 2 ^ (w - 1)))%Z then Ok z else Fail UB else Ok (z mod 2 ^ w)%Z.
Definition cpp_arith (o : arith) (c : Z * bool) (a b : Z) : res Z :=
  let (w, s) := c in
  match o with
  | Add => fit_int c (a + b)
  | Sub => fit_int c (a - b)
  | Mul => fit_int c (a * b)
  | Div => if Z.eqb b 0 then Fail UB else fit_int c (Z.quot a b)
  | Rem => if Z.eqb b 0 then Fail UB else do _ <- fit_int c (Z.quot a b); Ok (Z.rem a b)
  | BAnd => Ok (Z.land a b)
  | BOr => Ok (Z.lor a b)
  | BXor => Ok (Z.lxor a b)
  | Shl =>
      if ((b <? 0) || (w <=? b))%Z then Fail UB
      else if s then
        (* C++17 [expr.shift]: the value must be non-negative and representable in the unsigned type *)
        if ((a <? 0) || (2 ^ w <=? a * 2 ^ b))%Z then Fail UB
        else Ok (if (a * 2 ^ b <? 2 ^ (w - 1)) then a * 2 ^ b else a * 2 ^ b - 2 ^ w)%Z
      else Ok ((a * 2 ^ b) mod 2 ^ w)%Z
  | Shr => if ((b <? 0) || (w <=? b))%Z then Fail UB else Ok (Z.shiftr a b)
  end.

Section Operators.
  Variable fc : prim -> prim -> list N -> list N.
  (** Floating point operators; a parameter, nothing is proved about them. *)
  Variable flt : arith -> prim -> list N -> list N -> list N.

  (** TYPE lho = *this: operator T() is value<T>() (DynamicData.hpp:103-107). *)
  Definition operand (p : prim) (x : data) : res (list N) :=
    do r <- get_value (StPrim p) (d_type x) (d_mem x) 0; match r with ScPrim _ bs => Ok bs | ScStr _ _ => Fail UB end.
  (** DynamicData result(primitive_type<TYPE>()); result = res (DynamicDataImpl.hpp:404-412). *)
  Definition result (p : prim) (bs : list N) : res data :=
    do d <- new_data (TPrim p); do m <- set_value fc (ScPrim p bs) (TPrim p) (d_mem d) 0; Ok (mkData (TPrim p) m).
  (** The operators of lines 404-476.  Multiplication, division, subtraction and addition exist for floating point
      kinds; addition throws runtime_error for characters and booleans; all other kinds fail an assertion. *)
  Definition float_arith (o : arith) : bool := match o with Mul | Div | Add | Sub => true | _ => false end.
  Definition binary (o : arith) (x y : data) : res data :=
    match d_type x with
    | TPrim p =>
        if int_kind p then
          do a <- operand p x; do b <- operand p y;
          do r <- cpp_arith o (promoted p) (prim_int p a) (prim_int p b);
          result p (int_bytes p r)
        else if is_float p && float_arith o then do a <- operand p x; do b <- operand p y; result p (flt o p a b)
        else match o with Add => if is_float p then Fail Assert else Fail Throw | _ => Fail Assert end
    | _ => Fail Assert
    end.
  (** operator -() and operator ~() (lines 295-306), integer kinds; for floating point see [flt]. *)
  Definition negate (x : data) : res data :=
    match d_type x with
    | TPrim p =>
        if signed_int_kind p then do a <- operand p x; do r <- fit_int (promoted p) (- prim_int p a)%Z; result p (int_bytes p r)
        else if is_float p then do a <- operand p x; result p (flt Sub p (repeat 0 (N.to_nat (prim_size p))) a) else Fail Assert
    | _ => Fail Assert
    end.
  Definition complement (x : data) : res data :=
    match d_type x with
    | TPrim p => if signed_int_kind p then do a <- operand p x; result p (int_bytes p (Z.lnot (prim_int p a))) else Fail Assert
    | _ => Fail Assert
    end.
  (** operator ++(int), operator --(int) (lines 313-341): the value returned is a copy of *this after the change. *)
  Definition post_step (d : Z) (x : data) : res (data * data) :=
    match d_type x with
    | TPrim p =>
        if int_kind p then
          do a <- operand p x; do r <- fit_int (promoted p) (prim_int p a + d)%Z;
          do m <- set_value fc (ScPrim p (int_bytes p r)) (TPrim p) (d_mem x) 0;
          do c <- copy_data fc (mkData (TPrim p) m);
          Ok (c, mkData (TPrim p) m)
        else Fail Assert
    | _ => Fail Assert
    end.
  (** operator ++(), operator --() (lines 329-334, 341-346): *this is assigned the result of the postfix operator. *)
  Definition pre_step (d : Z) (x : data) : res data :=
    do r <- post_step d x;
    do m <- assign_from fc (d_mem (fst r)) 0 (d_type (snd r)) (d_mem (snd r)) 0; Ok (mkData (d_type (snd r)) m).
  (** operator += etc. with a reference (lines 478-482): *this is assigned the result, without a check of types. *)
  Definition compound (o : arith) (x y : data) : res data :=
    do r <- binary o x y; do m <- assign_from fc (d_mem r) 0 (d_type x) (d_mem x) 0; Ok (mkData (d_type x) m).
  (** operator += etc. with a C++ value of type [q] (lines 485-491): asserts that [q] is an arithmetic type other than bool and
      the character types; the operand is read with value<T>, the result written with value(t).  Integers only. *)
  Definition compound_value (o : arith) (x : data) (q : prim) (b : list N) : res data :=
    if int_kind q then
      do a <- operand q x; do r <- cpp_arith o (promoted q) (prim_int q a) (prim_int q b);
      do m <- set_value fc (ScPrim q (int_bytes q r)) (d_type x) (d_mem x) 0; Ok (mkData (d_type x) m)
    else Fail Assert.
  (** operator ! (lines 348-361): strings are tested for emptiness. *)
  Definition not_op (x : data) : res bool :=
    match d_type x with
    | TPrim p => if is_float p then Fail Assert else do a <- operand p x; Ok (Z.eqb (prim_int p a) 0)
    | TStr k _ => do r <- get_value (StStr k) (d_type x) (d_mem x) 0; match r with ScStr _ s => Ok (N.of_nat (List.length s) =? 0) | ScPrim _ _ => Fail UB end
    | _ => Fail Assert
    end.
  (** < > <= >= && || (lines 363-378), for integers, characters and booleans; the operands are promoted, which keeps
      their values. *)
  Inductive cmp := Lt_ | Gt_ | Le_ | Ge_ | And_ | Or_.
  Definition cpp_cmp (o : cmp) (a b : Z) : bool :=
    match o with
    | Lt_ => (a <? b)%Z | Gt_ => (b <? a)%Z | Le_ => (a <=? b)%Z | Ge_ => (b <=? a)%Z
    | And_ => negb (Z.eqb a 0) && negb (Z.eqb b 0) | Or_ => negb (Z.eqb a 0) || negb (Z.eqb b 0)
    end.
  Variable fltcmp : cmp -> prim -> list N -> list N -> bool.
  Definition compare_op (o : cmp) (x y : data) : res bool :=
    match d_type x with
    | TPrim p => do a <- operand p x; do b <- operand p y; Ok (if is_float p then fltcmp o p a b else cpp_cmp o (prim_int p a) (prim_int p b))
    | _ => Fail Assert
    end.
  (** cast<T>() for a primitive T (DynamicData.hpp:695-790): the value by its own type, then static_cast; an enumeration
      is read as the unsigned type of its size.  Floating point casts as in [convert]. *)
  Definition cast_op (q : prim) (x : data) : res (list N) :=
    match d_type x with
    | TPrim p => do a <- operand p x; Ok (convert fc p q a)
    | TEnum _ sz _ => do a <- operand (enum_prim sz) x; Ok (convert fc (enum_prim sz) q a)
    | _ => Fail Assert
    end.
End Operators.
