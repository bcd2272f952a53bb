(** Annotations as a user writes them (specification): [@key], [@id(3)], [@range(min=1, max=2*N)], [@unit("m")]. *)
From Verif Require Import Base Types IntOps ModuleSpec PegRules IdlLit IdlExpr IdlSpec GenSpec ExprSpec.
Local Open Scope string_scope.

(** A character that stands for itself between double quotes. *)
Definition in_quotes (c : ascii) : bool := negb (Ascii.eqb c """") && negb (Ascii.eqb c "\").
(** The value of a parameter: an integer constant expression, a boolean, a text. *)
Inductive value_text : string -> Prop :=
| vt_expr : forall e ts s, idl_expr e ts -> text_of ts s -> value_text s
| vt_true : value_text "TRUE"
| vt_false : value_text "FALSE"
| vt_string : forall s, all_chars in_quotes s = true -> value_text ("""" ++ s ++ """").
(** A parameter, with or without its name. *)
Inductive param_text : string -> Prop :=
| pt_value : forall v, value_text v -> param_text v
| pt_named : forall x w w' v, is_ident x = true -> all_chars is_ws w = true -> all_chars is_ws w' = true -> value_text v -> param_text (x ++ w ++ "=" ++ w' ++ v).
(** Parameters separated by commas. *)
Inductive params_text : string -> Prop :=
| ps_one : forall v, param_text v -> params_text v
| ps_more : forall v w w' s, param_text v -> all_chars is_ws w = true -> all_chars is_ws w' = true -> params_text s -> params_text (v ++ w ++ "," ++ w' ++ s).
(** Annotations in front of a declaration: any number with parameters, and at the end perhaps one without, and blanks. *)
Inductive notes : string -> Prop :=
| no_notes : notes ""
| note_bare : forall abs qs x w, ident_path qs x -> all_chars is_ws w = true -> w <> "" -> notes ("@" ++ render abs qs x ++ w)
| note_with : forall abs qs x w0 w1 s w2 w r, ident_path qs x -> all_chars is_ws w0 = true -> all_chars is_ws w1 = true -> params_text s -> all_chars is_ws w2 = true -> all_chars is_ws w = true ->
    notes r -> notes ("@" ++ render abs qs x ++ w0 ++ "(" ++ w1 ++ s ++ w2 ++ ")" ++ w ++ r).
(** What begins with one of the words that annotations may precede. *)
Definition annotatable (s : string) : Prop := exists k r, In k ["struct"; "union"; "enum"; "module"] /\ s = k ++ " " ++ r.
