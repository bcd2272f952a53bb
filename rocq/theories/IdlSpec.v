(** What numbers and expressions in IDL text mean (IDL 4.2, 7.2.6.1 and 7.4.1.4.3). *)
From Verif Require Import Base Types Mem MemSpec Ops DataSpec IntOps NumSpec IntSpec IdlLit IdlExpr.
From Coq Require Import Ascii.
Local Open Scope Z_scope.

(** ** Integer literals *)
Definition nth_char (k : nat) : ascii := ascii_of_nat k.
(** [c] is the digit [d]: 0-9, a-f, A-F. *)
Inductive is_digit_of (c : ascii) : Z -> Prop :=
| dg_dec k : (k <= 9)%nat -> c = ascii_of_nat (48 + k) -> is_digit_of c (Z.of_nat k)
| dg_lower k : (k <= 5)%nat -> c = ascii_of_nat (97 + k) -> is_digit_of c (10 + Z.of_nat k)
| dg_upper k : (k <= 5)%nat -> c = ascii_of_nat (65 + k) -> is_digit_of c (10 + Z.of_nat k).
Inductive numeral (base : Z) : string -> Z -> Prop :=
| nu_one c d : is_digit_of c d -> d < base -> numeral base (String c "") d
| nu_more s z c d : numeral base s z -> is_digit_of c d -> d < base -> numeral base (s ++ String c "") (z * base + d).
(** [literal s base z]: [s] is an integer literal of that base with value [z]. *)
Inductive literal : string -> Z -> Z -> Prop :=
| li_zero : literal "0" 8 0
| li_dec c s z : numeral 10 (String c s) z -> c <> "0"%char -> literal (String c s) 10 z
| li_oct s z : numeral 8 s z -> literal (String "0" s) 8 z
| li_hex x s z : numeral 16 s z -> x = "x"%char \/ x = "X"%char -> literal (String "0" (String x s)) 16 z.
(** The literal is not followed by another digit. *)
Definition ends (base : Z) (rest : string) : Prop := match rest with EmptyString => True | String c _ => forall d, is_digit_of c d -> base <= d end.

(** ** The grammar of expressions: the binary operators associate to the left. *)
Definition unary_token (u : unary) : token := match u with UMinus => KOp Sub | UPlus => KOp Add | UTilde => KTilde end.
Inductive derives : nat -> expr -> list token -> Prop :=
| de_up l e ts : (l < 7)%nat -> derives (S l) e ts -> derives l e ts
| de_bin o a b ts ts' : derives (level o) a ts -> derives (S (level o)) b ts' -> derives (level o) (EBin o a b) (ts ++ KOp o :: ts')
| de_un u e ts : derives 7 e ts -> derives 6 (EUn u e) (unary_token u :: ts)
| de_par e ts : derives 0 e ts -> derives 7 (EPar e) (KOpen :: ts ++ [KClose])
| de_lit l s : derives 7 (ELit l s) [KLit l s]
| de_name x : derives 7 (EName x) [KName x].
(** [ts] is the IDL expression [e]. *)
Definition idl_expr (e : expr) (ts : list token) : Prop := derives 0 e ts.

(** ** Values.  [evaluates p env e z]: the value of [e] is [z]; every value on the way is one of the type [p], no divisor
    is 0, shift counts are less than the width and negative numbers are not shifted to the left. *)
Definition un_math (u : unary) (p : prim) (a : Z) : Z :=
  match u with UMinus => - a | UPlus => a | UTilde => if prim_signed p then - a - 1 else 2 ^ width p - 1 - a end.
Definition defined (o : arith) (p : prim) (a b : Z) : Prop :=
  match o with Div => b <> 0 | Rem => b <> 0 /\ fits p (Z.quot a b) | Shl => 0 <= b < width p /\ 0 <= a | Shr => 0 <= b < width p | _ => True end.
Inductive evaluates (p : prim) (env : string -> option data) : expr -> Z -> Prop :=
| ev_lit l base rest z : literal l base z -> ends base rest -> fits p z -> evaluates p env (ELit l rest) z
| ev_name x d z : env x = Some d -> is_int d p z -> evaluates p env (EName x) z
| ev_par e z : evaluates p env e z -> evaluates p env (EPar e) z
| ev_un u e a : evaluates p env e a -> fits p (un_math u p a) -> evaluates p env (EUn u e) (un_math u p a)
| ev_bin o x y a b : evaluates p env x a -> evaluates p env y b -> defined o p a b -> fits p (math o a b) -> evaluates p env (EBin o x y) (math o a b).

(** ** Where grouping to the right does no harm *)
(** [a] is an unparenthesised operation of the level [l]. *)
Definition same_level (l : nat) (a : expr) : Prop := match a with EBin o _ _ => level o = l | _ => False end.
(** Every operand of the chain [e] of operators [o] has a value of at least [m]. *)
Fixpoint at_least (m : Z) p env (o : arith) (e : expr) : Prop :=
  match e with
  | EBin o' a b => (o' = o /\ at_least m p env o a /\ forall z, evaluates p env b z -> m <= z) \/
      (level o' <> level o /\ forall z, evaluates p env e z -> m <= z)
  | _ => forall z, evaluates p env e z -> m <= z
  end.
Fixpoint only (o : arith) (e : expr) : Prop := match e with EBin o' a _ => level o' = level o -> o' = o /\ only o a | _ => True end.
(** Each operator either has no unparenthesised left operand of its own level, or stands in a chain of one bitwise
    operator, of additions of non-negative numbers or of multiplications of positive numbers. *)
Fixpoint right_safe p env (e : expr) : Prop :=
  match e with
  | EBin o a b => right_safe p env a /\ right_safe p env b /\
      (~ same_level (level o) a \/
       (only o a /\ (o = BAnd \/ o = BXor \/ o = BOr)) \/
       (o = Add /\ at_least 0 p env Add e) \/ (o = Mul /\ at_least 1 p env Mul e))
  | EUn _ a | EPar a => right_safe p env a
  | _ => True
  end.
(** Unary minus of signed integers and plus only: ~ has no effect, - is refused for unsigned integers. *)
Fixpoint unary_safe (p : prim) (e : expr) : Prop :=
  match e with
  | EBin _ a b => unary_safe p a /\ unary_safe p b
  | EUn u a => unary_safe p a /\ match u with UMinus => prim_signed p = true | UPlus => True | UTilde => False end
  | EPar a => unary_safe p a
  | _ => True
  end.
