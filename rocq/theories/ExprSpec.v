(** How a constant expression is written in an IDL text: its tokens, with spaces between them. *)
From Verif Require Import Base Types IntOps IdlLit IdlExpr IdlSpec ModuleSpec PegRules GenSpec.
Local Open Scope string_scope.

Definition op_text (o : arith) : string :=
  match o with Mul => "*" | Div => "/" | Rem => "%" | Add => "+" | Sub => "-" | Shl => "<<" | Shr => ">>" | BAnd => "&" | BXor => "^" | BOr => "|" end.
(** Names that begin with TRUE or FALSE are not read as names (C45_boolean_prefix_refuted). *)
Definition begins (k x : string) : bool := String.prefix k x.
Inductive token_text : token -> string -> Prop :=
| tt_lit l base z : literal l base z -> token_text (KLit l "") l
| tt_name qs x : Forall (fun y => is_ident y = true) (qs ++ [x]) -> begins "TRUE" (qualified qs x) = false -> begins "FALSE" (qualified qs x) = false ->
    token_text (KName (qualified qs x)) (qualified qs x)
| tt_op o : token_text (KOp o) (op_text o)
| tt_tilde : token_text KTilde "~"
| tt_open : token_text KOpen "("
| tt_close : token_text KClose ")".
Inductive text_of : list token -> string -> Prop :=
| to_one t x : token_text t x -> text_of [t] x
| to_more t x w ts s : token_text t x -> all_chars is_ws w = true -> text_of ts s -> text_of (t :: ts) (x ++ w ++ s).
