(** The log of a parser context: LogContext (idl/parser.hpp:92-232). *)
From Verif Require Import Base.

(** LogLevel (94-100): the order of the enumerators is that of the comparisons. *)
Inductive level := XError | XWarning | XInfo | XDebug.
Definition rank (l : level) : N := match l with XError => 0 | XWarning => 1 | XInfo => 2 | XDebug => 3 end.
(** LogEntry (102-125); the constructor takes path, line and column from the syntax tree. *)
Record entry := mkEntry { e_path : string; e_line : N; e_column : N; e_level : level; e_category : string; e_message : string }.
(** LogEntry::to_string (127-157). *)
Definition level_name (l : level) : string := match l with XError => "ERROR" | XWarning => "WARNING" | XInfo => "INFO" | XDebug => "DEBUG" end.
Definition entry_string (e : entry) : string := "[" ++ level_name (e_level e) ++ "] " ++ e_category e ++ ": " ++ e_message e.
(** LogContext: log_, log_level_ and print_log_ with their initial values (163-167), and the lines written to std::cout. *)
Record log_context := mkLog { lc_log : list entry; lc_level : level; lc_print : bool; lc_cout : list string }.
Definition new_log : log_context := mkLog [] XWarning false [].
(** log_level(level) (191-195), print_log(enable) (202-206). *)
Definition set_level (l : level) (c : log_context) : log_context := mkLog (lc_log c) l (lc_print c) (lc_cout c).
Definition print_log (b : bool) (c : log_context) : log_context := mkLog (lc_log c) (lc_level c) b (lc_cout c).
(** log(level, category, message, ast) (209-231); [ast]: path, line and column of a node, if one is given. *)
Definition add_log (l : level) (cat msg : string) (ast : option (string * N * N)) (c : log_context) : log_context :=
  if rank l <=? rank (lc_level c) then
    let e := match ast with Some (p, ln, col) => mkEntry p ln col l cat msg | None => mkEntry "" 0 0 l cat msg end in
    mkLog (lc_log c ++ [e]) (lc_level c) (lc_print c) (if lc_print c then lc_cout c ++ [entry_string e] else lc_cout c)
  else c.
(** log(level, strict) (176-189). *)
Definition get_log (l : level) (strict : bool) (c : log_context) : list entry :=
  filter (fun e => (rank (e_level e) =? rank l) || (negb strict && (rank (e_level e) <? rank l))) (lc_log c).

(** The calls of a user. *)
Inductive log_call := CLog (l : level) (cat msg : string) (ast : option (string * N * N)) | CLevel (l : level) | CPrint (b : bool).
Definition log_step (c : log_context) (x : log_call) : log_context :=
  match x with CLog l cat msg ast => add_log l cat msg ast c | CLevel l => set_level l c | CPrint b => print_log b c end.
Definition log_run (h : list log_call) : log_context := fold_left log_step h new_log.
