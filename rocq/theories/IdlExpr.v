(** Constant expressions: the grammar (idl/grammar.hpp:66-80) and solve_expr (idl/parser.hpp:1259-1378). *)
From Verif Require Import Base Types TypeBuild Compat Mem Hash MapOps Ops Module IntOps IdlLit.

(** The text as tokens: a literal with the text behind it, a scoped name, an operator, parentheses.
    Simplification: the grammar allows white space and comments around operators and parentheses; they are left out. *)
Inductive token := KLit (lit rest : string) | KName (x : string) | KOp (o : arith) | KTilde | KOpen | KClose.

(** The syntax tree after optimize_ast (parser.hpp:552), which replaces a node with a single child by that child.  The
    parentheses are kept here ([EPar]); solve_expr does not see them. *)
Inductive unary := UMinus | UPlus | UTilde.
Inductive expr :=
| ELit (lit rest : string) | EName (x : string) | EPar (e : expr) | EUn (u : unary) (e : expr) | EBin (o : arith) (a b : expr).
(** The grammar rule of an operator: 0 CONST_EXPR, 1 XOR_EXPR, 2 AND_EXPR, 3 SHIFT_EXPR, 4 ADD_EXPR, 5 MULT_EXPR
    (grammar.hpp:69-74). *)
Definition level (o : arith) : nat :=
  match o with BOr => 0 | BXor => 1 | BAnd => 2 | Shl | Shr => 3 | Add | Sub => 4 | Mul | Div | Rem => 5 end.

(** The PEG rules.  A rule  X <- Y OP X / Y  parses Y, and if an OP and another X follow, takes them; otherwise it
    parses Y again from the start, with the same result.  Level 6 is UNARY_EXPR, level 7 PRIMARY_EXPR (75-77).  [fuel]
    bounds the depth of the recursion. *)
Fixpoint parse (fuel lvl : nat) (ts : list token) : option (expr * list token) :=
  match fuel with
  | O => None
  | S n =>
      if Nat.ltb lvl 6 then
        match parse n (S lvl) ts with
        | Some (a, KOp o :: r) =>
            if Nat.eqb (level o) lvl then
              match parse n lvl r with
              | Some (b, r') => Some (EBin o a b, r')
              | None => Some (a, KOp o :: r)
              end
            else Some (a, KOp o :: r)
        | x => x
        end
      else if Nat.eqb lvl 6 then
        match ts with
        | KOp Sub :: r => match parse n 7 r with Some (e, r') => Some (EUn UMinus e, r') | None => parse n 7 ts end
        | KOp Add :: r => match parse n 7 r with Some (e, r') => Some (EUn UPlus e, r') | None => parse n 7 ts end
        | KTilde :: r => match parse n 7 r with Some (e, r') => Some (EUn UTilde e, r') | None => parse n 7 ts end
        | _ => parse n 7 ts
        end
      else
        match ts with
        | KOpen :: r => match parse n 0 r with Some (e, KClose :: r') => Some (EPar e, r') | _ => None end
        | KLit l s :: r => Some (ELit l s, r)
        | KName x :: r => Some (EName x, r)
        | _ => None
        end
  end.
Definition enough (ts : list token) : nat := 8 * S (List.length ts).
(** The whole expression: CONST_DCL goes on with a SEMICOLON (grammar.hpp:35, 50). *)
Definition parse_expr (ts : list token) : option expr := match parse (enough ts) 0 ts with Some (e, []) => Some e | _ => None end.

Section Solve.
  Variable fc : prim -> prim -> list N -> list N.
  Variable flt : arith -> prim -> list N -> list N -> list N.
  (** outer->constant(x): the DynamicData found, a bool otherwise (Module.hpp:392-409). *)
  Variable env : string -> option data.
  Definition constant (x : string) : res data := match env x with Some d => Ok d | None => new_data (TPrim PBool) end.

  (** solve_expr (parser.hpp:1259-1378) for a type that is the integer type [p]: [result] of that type is assigned.
      Simplification: the copies made on the way are modelled by the assignment only. *)
  Definition assign_result (p : prim) (v : data) : res data := do r <- new_data (TPrim p); assign_data fc r v.
  Fixpoint solve (p : prim) (e : expr) : res data :=
    match e with
    | ELit l s => get_literal_value fc p l s
    | EName x => do v <- constant x; assign_result p v
    | EPar e => solve p e
    | EUn u e => do v <- solve p e; do v <- assign_result p v; match u with UMinus => do t <- negate fc flt v; assign_result p t | UPlus | UTilde => Ok v end
    | EBin o a b => do x <- solve p a; do y <- solve p b; do t <- binary fc flt o x y; assign_result p t
    end.
  (** The value const_dcl (parser.hpp:995-1011) computes; a text that is not an expression is a syntax error. *)
  Definition const_value (p : prim) (ts : list token) : res data :=
    match parse_expr ts with Some e => do v <- solve p e; assign_result p v | None => Fail Throw end.
End Solve.
(** The constants seen from the module at [q] (Module.hpp:392-409); [rs] is resolve_scope. *)
Definition constants_of (root : modl) (rs : string -> option (place * string)) (x : string) : option data := found root consts (rs x).
(** const_dcl: evaluates, then outer->create_constant(identifier, expr) (parser.hpp:995-1011). *)
Definition const_dcl fc flt (rs : string -> option (place * string)) (p : prim) (x : string) (ts : list token) (root : modl) (q : place) : res (bool * modl) :=
  do v <- const_value fc flt (constants_of root rs) p ts; call_create_constant fc x v false false root q.
