(** What it means that two IDL texts differ only in their blanks. *)
From Verif Require Import Base Peg0 Grammar Peg.
Local Open Scope string_scope.

Definition blank (c : ascii) : bool := in_class c [(" ", " "); ("009", "009"); ("013", "013"); ("010", "010")]%char.
Fixpoint all_blank (s : string) : bool := match s with EmptyString => true | String c r => blank c && all_blank r end.
Definition one_of (s : string) (c : ascii) : bool := existsb (Ascii.eqb c) (list_ascii_of_string s).
(** The characters around which a blank separates nothing. *)
Definition loose_char (c : ascii) : bool := one_of ";:,()[]{}=<>|^&*/%~" c.
(** Of these the ones that have another meaning when doubled: ::, <<, >>. *)
Definition doubling (c : ascii) : bool := one_of ":<>" c.
Definition starts (c : ascii) (s : string) : bool := match s with String d _ => Ascii.eqb c d | EmptyString => false end.
(** What precedes ends with a single loose character [c] ([p] is the character before it). *)
Definition free_after (p c : ascii) : bool := loose_char c && negb (doubling c && Ascii.eqb p c).
(** What follows begins with a single loose character [d], [s] follows it. *)
Definition free_before (d : ascii) (s : string) : bool := loose_char d && negb (doubling d && starts d s).

(** [respaced p c s s']: after the characters [p c], the texts [s] and [s'] have the same characters that are no blanks,
    and they have blanks at the same places; only next to a loose character one of them may have blanks where the other
    has none.  There are no quotes and no #, and no // and no /* (comments). *)
Inductive respaced : ascii -> ascii -> string -> string -> Prop :=
| rs_end : forall p c w w', all_blank w = true -> all_blank w' = true -> respaced p c w w'
| rs_char : forall p c d w w' s s', all_blank w = true -> all_blank w' = true -> blank d = false -> one_of """'#" d = false ->
    ((w = "" <-> w' = "") \/ (doubling c && Ascii.eqb c d = false /\ (free_after p c = true \/ (free_before d s = true /\ free_before d s' = true)))) ->
    (c = "/"%char -> one_of "/*" d = true -> w <> "" /\ w' <> "") ->
    respaced c d s s' -> respaced p c (w ++ String d s) (w' ++ String d s').
(** Two texts that differ only in their blanks. *)
Definition same_but_blanks (s s' : string) : Prop := respaced ";" ";" s s'.

(** No case label of the tree contains a blank. *)
Fixpoint no_blank (s : string) : bool := match s with EmptyString => true | String c r => negb (blank c) && no_blank r end.
Fixpoint tight_labels (a : ast) : bool :=
  match a with Ast _ t k l => (negb (rule_eqb t R_CASE_LABEL) || no_blank k) && forallb tight_labels l end.
(** Every case label of the document is written without blanks. *)
Definition labels_without_blanks (s : string) : Prop := forall n a, parse_document n s = Some (Some a) -> tight_labels a = true.
