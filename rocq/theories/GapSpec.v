(** Blanks and comments between the parts of an IDL text. *)
From Verif Require Import Base Peg0 Grammar Peg PegRules.
Local Open Scope string_scope.

Definition space_or_line (c : ascii) : bool := in_class c [(" ", " "); ("010", "010")]%char.
Definition on_the_line (c : ascii) : bool := negb (in_class c [("013", "013"); ("010", "010")]%char).
(** The text does not end with a backslash (which continues the line). *)
Fixpoint unescaped (t : string) : bool := match t with EmptyString => true | String c EmptyString => negb (Ascii.eqb c "\") | String _ r => unescaped r end.
(** The two characters that end a comment do not stand in [t]. *)
Fixpoint unclosed (t : string) : bool :=
  match t with String "*" (String "/" _) => false | EmptyString => true | String _ r => unclosed r end.
(** Blanks and comments.  Before a comment there may be spaces and line feeds only: a tab or a carriage return there is
    taken by WS as a blank of its own, and the comment is not (C85_tab_refuted). *)
Inductive gap : string -> Prop :=
| gap_blank : forall w, all_chars is_ws w = true -> gap w
| gap_line : forall b t e g, all_chars space_or_line b = true -> all_chars on_the_line t = true -> unescaped t = true -> e = NL \/ e = String "013" NL -> gap g -> gap (b ++ "//" ++ t ++ e ++ g)
| gap_block : forall b t g, all_chars space_or_line b = true -> unclosed (t ++ "*") = true -> gap g -> gap (b ++ "/*" ++ t ++ "*/" ++ g).
