(** Base definitions of the model: outcomes of C++ code and counted loops.

    Modelled convention.  A C++ operation ends in one of
    - [Ok a]        normal completion with result [a];
    - [Fail Assert] an [xtypes_assert] fired (include/xtypes/Assert.hpp:137-162: it
                    aborts in a debug build, throws std::runtime_error with
                    XTYPES_EXCEPTIONS; with NDEBUG alone asserts vanish — see DESIGN.md);
    - [Fail Throw]  a standard-library exception (std::out_of_range ...) escapes;
    - [Fail UB]     undefined behaviour: access outside an allocation, read of an
                    indeterminate byte, use of an object that is not alive, bad cast;
    - [Fail Loop]   the fuel of a non-structural loop ran out (always excluded by theorems). *)
From Coq Require Export List Arith NArith ZArith Lia String Ascii Bool.
Export ListNotations.
Open Scope N_scope.

Inductive err := Assert | Throw | UB | Loop.

Inductive res (A : Type) := Ok (a : A) | Fail (e : err).
Arguments Ok {A} a.
Arguments Fail {A} e.

Definition bind {A B} (r : res A) (f : A -> res B) : res B :=
  match r with Ok a => f a | Fail e => Fail e end.
Notation "'do' x <- r ; k" := (bind r (fun x => k)) (at level 200, x pattern, r at level 100, k at level 200).

(** [xtypes_assert(cond, msg)] (Assert.hpp:137-162). *)
Definition assert_ (c : bool) : res unit := if c then Ok tt else Fail Assert.

(** [for (i = 0; i < n; ++i) body(i)] *)
Fixpoint for_from {A} (n : nat) (i : N) (body : N -> A -> res A) (a : A) : res A :=
  match n with
  | O => Ok a
  | S n' => do a' <- body i a; for_from n' (i + 1) body a'
  end.
Definition for_up {A} (n : N) (body : N -> A -> res A) (a : A) : res A :=
  for_from (N.to_nat n) 0 body a.

(** [for (i = n - 1; i >= 0; --i) body(i)] *)
Fixpoint for_down_nat {A} (n : nat) (body : N -> A -> res A) (a : A) : res A :=
  match n with
  | O => Ok a
  | S n' => do a' <- body (N.of_nat n') a; for_down_nat n' body a'
  end.
Definition for_down {A} (n : N) (body : N -> A -> res A) (a : A) : res A :=
  for_down_nat (N.to_nat n) body a.

(** [for (i = 0; i < n; ++i) if (!test(i)) return false; return true;] *)
Fixpoint forall_from (n : nat) (i : N) (test : N -> res bool) : res bool :=
  match n with
  | O => Ok true
  | S n' => do b <- test i; if b then forall_from n' (i + 1) test else Ok false
  end.

(** [comp = true; for (i = 0; i < n; ++i) comp &= test(i); return comp;] *)
Fixpoint alland_from (n : nat) (i : N) (test : N -> res bool) (acc : bool) : res bool :=
  match n with
  | O => Ok acc
  | S n' => do b <- test i; alland_from n' (i + 1) test (acc && b)
  end.
Definition alland (n : N) (test : N -> res bool) : res bool :=
  alland_from (N.to_nat n) 0 test true.

(** Left fold of an accumulator over indices [1 .. n-1], used by the hash functions. *)
Definition for_from1 {A} (n : N) (body : N -> A -> res A) (a : A) : res A :=
  for_from (N.to_nat (n - 1)) 1 body a.

(** Unsigned 32-bit wrap-around. *)
Definition wrap32 (x : N) : N := x mod 4294967296.
Definition u64 (x : N) : N := x mod 18446744073709551616.

(** Little-endian decoding/encoding of byte lists (x86-64 representation). *)
Fixpoint le_decode (bs : list N) : N :=
  match bs with [] => 0 | b :: r => b + 256 * le_decode r end.
Fixpoint le_encode (n : nat) (x : N) : list N :=
  match n with O => [] | S n' => (x mod 256) :: le_encode n' (x / 256) end.

(** Association list lookup (std::map<std::string,...>::find). *)
Fixpoint assoc {A} (k : string) (l : list (string * A)) : option A :=
  match l with
  | [] => None
  | (k', v) :: r => if String.eqb k k' then Some v else assoc k r
  end.
