(** Parsing expressions (the operators of cpp-peglib used by include/xtypes/idl/grammar.hpp). *)
From Verif Require Import Base.

(** Expressions over rule names [R].  [Cls] is a character class (a list of inclusive ranges), [Tok] is the token
    boundary < e >, [Ign] is ~e, [Eps] the empty alternative.  Simplification: characters are bytes. *)
Inductive exp (R : Type) :=
| Eps | Lit (s : string) | Cls (l : list (ascii * ascii)) | Any | Ref (r : R)
| Seq (a b : exp R) | Alt (a b : exp R) | Star (e : exp R) | Plus (e : exp R) | Opt (e : exp R)
| Not (e : exp R) | Tok (e : exp R) | Ign (e : exp R).
Arguments Eps {R}. Arguments Lit {R} s. Arguments Cls {R} l. Arguments Any {R}. Arguments Ref {R} r.
Arguments Seq {R} a b. Arguments Alt {R} a b. Arguments Star {R} e. Arguments Plus {R} e. Arguments Opt {R} e.
Arguments Not {R} e. Arguments Tok {R} e. Arguments Ign {R} e.

Definition NL : string := String "010" "".
Definition CR : string := String "013" "".
Definition TAB : string := String "009" "".

Definition in_range (c : ascii) (p : ascii * ascii) : bool := (N_of_ascii (fst p) <=? N_of_ascii c) && (N_of_ascii c <=? N_of_ascii (snd p)).
Definition in_class (c : ascii) (l : list (ascii * ascii)) : bool := existsb (in_range c) l.
(** The rest of [s] after the literal [l]. *)
Fixpoint after (l s : string) : option string :=
  match l, s with
  | EmptyString, _ => Some s
  | String a l', String b s' => if Ascii.eqb a b then after l' s' else None
  | _, EmptyString => None
  end.
