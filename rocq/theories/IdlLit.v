(** Numbers in IDL text: literals of constants, union labels, array dimensions and bounds (idl/parser.hpp). *)
From Verif Require Import Base Types TypeBuild Compat Mem Hash MapOps Ops Module IntOps.
From Coq Require Import Ascii.
Local Open Scope Z_scope.

(** The value of a character as a digit (C: strtol); 36 for no digit. *)
Definition digit_val (c : ascii) : Z :=
  let n := Z.of_nat (nat_of_ascii c) in
  if (48 <=? n) && (n <=? 57) then n - 48
  else if (97 <=? n) && (n <=? 122) then n - 87
  else if (65 <=? n) && (n <=? 90) then n - 55
  else 36.
Definition is_digit (base : Z) (c : ascii) : bool := digit_val c <? base.
Definition is_space (c : ascii) : bool := let n := Z.of_nat (nat_of_ascii c) in (n =? 32) || ((9 <=? n) && (n <=? 13)).
Fixpoint skip_space (s : string) : string := match s with String c r => if is_space c then skip_space r else s | EmptyString => s end.
Fixpoint digits (base : Z) (s : string) (acc : Z) : Z :=
  match s with String c r => if is_digit base c then digits base r (acc * base + digit_val c) else acc | EmptyString => acc end.
Definition starts_digit (base : Z) (s : string) : bool := match s with String c _ => is_digit base c | EmptyString => false end.
(** The sign and the magnitude that strtoll, strtoull, strtoul read from [s] (C11 7.22.1.4); [None]: no conversion. *)
Definition strto (base : Z) (s : string) : option (bool * Z) :=
  let s := skip_space s in
  let (neg, s) := match s with
                  | String "-" r => (true, r)
                  | String "+" r => (false, r)
                  | _ => (false, s)
                  end in
  let s := match s with
           | String "0" (String x r) =>
               if (base =? 16) && (Ascii.eqb x "x" || Ascii.eqb x "X") && starts_digit 16 r then r else s
           | _ => s
           end in
  if starts_digit base s then Some (neg, digits base s 0) else None.
(** strtoll: saturates at the limits of int64_t; strtoull: at ULLONG_MAX, a sign negates modulo 2^64.  0 if there is no number. *)
Definition strtoll (base : Z) (s : string) : Z :=
  match strto base s with
  | Some (neg, m) => let z := if (neg : bool) then - m else m in Z.max (- 2 ^ 63) (Z.min z (2 ^ 63 - 1))
  | None => 0
  end.
Definition strtoull (base : Z) (s : string) : Z :=
  match strto base s with
  | Some (neg, m) => if 2 ^ 64 - 1 <? m then 2 ^ 64 - 1 else if (neg : bool) then (- m) mod 2 ^ 64 else m
  | None => 0
  end.
(** std::stoul(s): base 10; throws if there is no number or it is out of range. *)
Definition stoul (s : string) : res Z :=
  match strto 10 s with
  | Some (neg, m) => if 2 ^ 64 - 1 <? m then Fail Throw else Ok (if (neg : bool) then (- m) mod 2 ^ 64 else m)
  | None => Fail Throw
  end.
(** std::atoi(s): undefined if int cannot hold the number. *)
Definition atoi (s : string) : res Z :=
  match strto 10 s with
  | Some (neg, m) => let z := if (neg : bool) then - m else m in if (- 2 ^ 31 <=? z) && (z <? 2 ^ 31) then Ok z else Fail UB
  | None => Ok 0
  end.

(** The base from the first characters (parser.hpp:1020-1028, UnionType.hpp:978-986). *)
Definition base_of (s : string) : Z :=
  match s with
  | String "0" (String x _) => if Ascii.eqb x "x" || Ascii.eqb x "X" then 16 else 8
  | String "0" _ => 8
  | _ => 10
  end.
(** strtoll for the signed kinds, strtoull for the unsigned ones. *)
Definition read_number (p : prim) (base : Z) (s : string) : Z := if prim_signed p then strtoll base s else strtoull base s.

Section Literals.
  Variable fc : prim -> prim -> list N -> list N.
  (** get_literal_value on a DynamicData of an integer type [p] (parser.hpp:1013-1122): [lit] is the token; the numbers
      are read from token.data(), which goes on with the text [rest] behind the token.
      Simplification: only the integer kinds; the warning for a literal of another kind is not modelled. *)
  Definition get_literal_value (p : prim) (lit rest : string) : res data :=
    result fc p (int_bytes p (read_number p (base_of lit) (lit ++ rest))).
End Literals.

(** parse_labels (UnionType.hpp:953-1120) on one label that is not "default", the discriminator has the integer type
    [p]; UINT_16 is read into a uint32_t. *)
Definition parse_label (p : prim) (label : string) : Z :=
  let v := match p with PU16 => PU32 | _ => p end in
  prim_int PI64 (int_bytes PI64 (prim_int v (int_bytes v (read_number p (base_of label) label)))).
(** The label of a discriminator of an enumeration type of 4 bytes: a number, or the name of an enumerator if the number
    read is 0 and the text contains a letter or underscore (UnionType.hpp:1105-1122); EnumerationType::value fails for
    an unknown name (EnumeratedType.hpp:48-54). *)
Fixpoint has_letter (s : string) : bool :=
  match s with
  | String c r => let n := Z.of_nat (nat_of_ascii c) in
                  (n =? 95) || ((65 <=? n) && (n <=? 90)) || ((97 <=? n) && (n <=? 122)) || has_letter r
  | EmptyString => false
  end.
Definition parse_enum_label (vals : list (string * N)) (label : string) : res Z :=
  let v := prim_int PU32 (int_bytes PU32 (strtoull (base_of label) label)) in
  if (v =? 0) && has_letter label then match assoc label vals with Some x => Ok (Z.of_N x) | None => Fail Assert end else Ok v.

(** The dimension given by an INTEGER_LITERAL in an array declarator (parser.hpp:2212-2216), again read up to the end of
    the text; ArrayType takes a uint32_t (ArrayType.hpp:60-73). *)
Definition array_dimension (lit rest : string) : res Z := do z <- stoul (lit ++ rest); Ok (z mod 2 ^ 32).
(** The bound of a sequence or map (parser.hpp:2069-2089); SequenceType and MapType take a uint32_t. *)
Definition collection_bound (lit : string) : res Z := if String.eqb lit "" then Ok 0 else do z <- stoul lit; Ok (z mod 2 ^ 32).
(** The bound of a string or wstring (parser.hpp:1963-1968, 1990-1998), an int (StringType.hpp:42-50) stored as uint32_t. *)
Definition string_bound (lit : string) : res Z := do z <- atoi lit; Ok (z mod 2 ^ 32).
