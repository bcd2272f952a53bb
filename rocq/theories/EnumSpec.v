(** Enumerations, as a user may lay them out. *)
From Verif Require Import Base PegRules GapSpec GenIdl Peg0.
Local Open Scope string_scope.

(** Names with commas between them; blanks and comments may stand everywhere. *)
Inductive enumerators_say : list string -> string -> Prop :=
| enumerators_one : forall e w, is_ident e = true -> gap w -> enumerators_say [e] (e ++ w)
| enumerators_more : forall e w w' l s, is_ident e = true -> gap w -> gap w' -> enumerators_say l s -> enumerators_say (e :: l) (e ++ w ++ "," ++ w' ++ s).
Definition free_enum_text (x w1 w2 body : string) : string := "enum " ++ x ++ w1 ++ "{" ++ w2 ++ body ++ "}".
(** The layout the generator writes. *)
Fixpoint enumerators_text (l : list string) : string :=
  match l with [] => "" | [e] => "    " ++ e ++ NL | e :: r => "    " ++ e ++ "," ++ NL ++ enumerators_text r end.
Definition enum_text (x : string) (l : list string) : string := "enum " ++ x ++ NL ++ "{" ++ NL ++ enumerators_text l ++ "}".
