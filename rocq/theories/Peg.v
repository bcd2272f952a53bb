(** cpp-peglib as used by the parser: matching, the syntax tree, its optimisation.
    peglib.h is an external header (CMakeLists.txt:43, 60-63 downloads it); its behaviour is modelled here from its
    documentation: ordered choice, greedy repetition without backtracking, a node for every rule that is not ignored, a
    rule is a token if it has a token boundary or refers to no rule. *)
From Verif Require Import Base Peg0 Grammar.

(** peg::Ast: original_tag, tag, token, nodes. *)
Inductive ast := Ast (orig tag : rule) (tok : string) (sub : list ast).
Definition a_orig (a : ast) : rule := match a with Ast o _ _ _ => o end.
Definition a_tag (a : ast) : rule := match a with Ast _ t _ _ => t end.
Definition a_tok (a : ast) : string := match a with Ast _ _ k _ => k end.
Definition a_sub (a : ast) : list ast := match a with Ast _ _ _ l => l end.

(** The outcome of matching at a position: the text consumed, the nodes of the rules referred to, the texts of the token
    boundaries, the rest of the input. *)
Inductive out := No | Yes (c : string) (ns : list ast) (ts : list string) (r : string).

(** peg::TokenChecker. *)
Fixpoint has_boundary (e : exp rule) : bool :=
  match e with
  | Tok _ => true
  | Seq a b | Alt a b => has_boundary a || has_boundary b
  | Star e | Plus e | Opt e | Ign e => has_boundary e
  | _ => false
  end.
Fixpoint has_ref (e : exp rule) : bool :=
  match e with
  | Ref _ => true
  | Seq a b | Alt a b => has_ref a || has_ref b
  | Star e | Plus e | Opt e | Ign e => has_ref e
  | _ => false
  end.
Definition is_token_rule (r : rule) : bool :=
  match gram r with Ref _ => false | e => has_boundary e || negb (has_ref e) end.
(** The node of rule [r] (the action installed by enable_ast, parser.hpp:517). *)
Definition node_of (r : rule) (c : string) (ns : list ast) (ts : list string) : list ast :=
  if ignored r then []
  else if is_token_rule r then [Ast r r (match ts with t :: _ => t | [] => c end) []]
  else [Ast r r "" ns].

(** Matching; [None] = out of fuel (the model's recursion bound). *)
Fixpoint peg (n : nat) (e : exp rule) (s : string) {struct n} : option out :=
  match n with
  | O => None
  | S n =>
      match e with
      | Eps => Some (Yes "" [] [] s)
      | Lit l => match after l s with Some r => Some (Yes l [] [] r) | None => Some No end
      | Cls l => match s with
                 | String c r => if in_class c l then Some (Yes (String c "") [] [] r) else Some No
                 | EmptyString => Some No
                 end
      | Any => match s with String c r => Some (Yes (String c "") [] [] r) | EmptyString => Some No end
      | Ref r => match peg n (gram r) s with
                 | Some (Yes c ns ts s') => Some (Yes c (node_of r c ns ts) [] s')
                 | o => o
                 end
      | Seq a b => match peg n a s with
                   | Some (Yes c ns ts s') =>
                       match peg n b s' with
                       | Some (Yes c' ns' ts' s'') => Some (Yes (c ++ c') (ns ++ ns') (ts ++ ts') s'')
                       | o => o
                       end
                   | o => o
                   end
      | Alt a b => match peg n a s with Some No => peg n b s | o => o end
      | Star e => match peg n e s with
                  | Some (Yes c ns ts s') =>
                      match peg n (Star e) s' with
                      | Some (Yes c' ns' ts' s'') => Some (Yes (c ++ c') (ns ++ ns') (ts ++ ts') s'')
                      | o => o
                      end
                  | Some No => Some (Yes "" [] [] s)
                  | None => None
                  end
      | Plus e => peg n (Seq e (Star e)) s
      | Opt e => match peg n e s with Some No => Some (Yes "" [] [] s) | o => o end
      | Not e => match peg n e s with Some No => Some (Yes "" [] [] s) | Some _ => Some No | None => None end
      | Tok e => match peg n e s with Some (Yes c ns ts s') => Some (Yes c ns (c :: ts) s') | o => o end
      | Ign e => match peg n e s with Some (Yes c ns ts s') => Some (Yes c [] [] s') | o => o end
      end
  end.

(** peg::AstOptimizer (parser.hpp:552 optimize_ast): a node with one child is replaced by that child, which takes the
    name of the replaced node as its original name. *)
Fixpoint optimize (a : ast) : ast :=
  match a with
  | Ast o t k l =>
      match l with
      | [x] => match optimize x with Ast _ t' k' l' => Ast t t' k' l' end
      | _ => Ast o t k (map optimize l)
      end
  end.

(** parser_.parse(text, ast) and optimize_ast (parser.hpp:544-552): the whole text must match rule DOCUMENT.
    [Some None] = the parse failed. *)
Definition parse_document (n : nat) (s : string) : option (option ast) :=
  match peg n (Ref R_DOCUMENT) s with
  | None => None
  | Some (Yes _ [a] _ EmptyString) => Some (Some (optimize a))
  | Some _ => Some None
  end.
(** rule.parse(identifier).ret of one rule (parser.hpp:912): the whole identifier must match. *)
Definition matches (n : nat) (r : rule) (s : string) : option bool :=
  match peg n (Ref r) s with None => None | Some (Yes _ _ _ EmptyString) => Some true | Some _ => Some false end.
