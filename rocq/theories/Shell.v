(** Passing IDL text to the preprocessor: PreprocessorContext (idl/parser.hpp:309-423). *)
From Verif Require Import Base.

Definition text := list ascii.
Definition quote : ascii := """".
Definition backslash : ascii := "\".
Definition dollar : ascii := "$".
Definition backquote : ascii := "`".
Definition newline : ascii := "010".
Definition nul : ascii := "000".

(** ** replace_all_string(str, "\"", "\\\"") (309-330), the only use (371) *)
(** str.find(from, pos): the first quote at or after [pos]; [None] is npos. *)
Fixpoint find_quote (s : text) : option nat :=
  match s with [] => None | c :: r => if Ascii.eqb c quote then Some 0%nat else option_map S (find_quote r) end.
Definition find_from (s : text) (pos : nat) : option nat := option_map (Nat.add pos) (find_quote (skipn pos s)).
(** str.replace(pos, 1, by). *)
Definition replace_at (s : text) (pos : nat) (new : text) : text := firstn pos s ++ new ++ skipn (S pos) s.
(** The inner loop (322-326).  With [pos] npos, str[pos - 1] is read outside of the string: [oob] is the character found
    there, [None] to treat the read as the undefined behaviour that it is; replace at npos throws. *)
Fixpoint inner (oob : option ascii) (fuel : nat) (s : text) (pos : option nat) : res (text * option nat) :=
  match fuel with
  | O => Fail Loop
  | S n =>
      match pos with
      | None => match oob with None => Fail UB | Some c => if Ascii.eqb c backslash then Fail Throw else Ok (s, None) end
      | Some p =>
          if Ascii.eqb (nth (p - 1) s nul) backslash then
            inner oob n (replace_at s p [backslash; backslash; quote]) (find_from (replace_at s p [backslash; backslash; quote]) (p + 3))
          else Ok (s, Some p)
      end
  end.
(** The outer loop (318-328). *)
Fixpoint outer (oob : option ascii) (fuel : nat) (s : text) (pos : option nat) : res text :=
  match fuel with
  | O => Fail Loop
  | S n =>
      match pos with
      | None => Ok s
      | Some p =>
          let s1 := replace_at s p [backslash; quote] in
          do sp <- inner oob (S (List.length s1)) s1 (find_from s1 (p + 2)); outer oob n (fst sp) (snd sp)
      end
  end.
Definition replace_all (oob : option ascii) (s : text) : res text := outer oob (S (List.length s)) s (find_from s 0).

(** ** The command  echo "..." | cpp -H args 2>/dev/null  (361-380), run by popen through /bin/sh *)
(** What the shell makes of the text behind the opening double quote (POSIX 2.2.3): the argument and the text behind the
    closing one.  [None]: the quote is not closed, or there is a command substitution or a parameter expansion, of which
    the model says nothing; a dollar that is not followed by a letter, digit, underscore, brace, parenthesis or special
    parameter stands for itself, the model says nothing about it either. *)
Fixpoint dquoted (s : text) : option (text * text) :=
  match s with
  | [] => None
  | c :: r =>
      if Ascii.eqb c quote then Some ([], r)
      else if Ascii.eqb c dollar || Ascii.eqb c backquote then None
      else if Ascii.eqb c backslash then
        match r with
        | d :: r' =>
            match dquoted r' with
            | Some (a, t) =>
                if Ascii.eqb d newline then Some (a, t)
                else if Ascii.eqb d dollar || Ascii.eqb d backquote || Ascii.eqb d quote || Ascii.eqb d backslash then Some (d :: a, t)
                else Some (c :: d :: a, t)
            | None => None
            end
        | [] => None
        end
      else match dquoted r with Some (a, t) => Some (c :: a, t) | None => None end
  end.
(** echo: prints the argument and a newline.  [xsi]: backslash sequences are interpreted, as by dash; the model has \n, \t,
    and \\ and keeps other sequences.  An argument that starts with a hyphen may be taken for an option: nothing is said. *)
Fixpoint xsi_text (s : text) : text :=
  match s with
  | c :: r =>
      if Ascii.eqb c backslash then
        match r with
        | d :: r' => if Ascii.eqb d "n" then newline :: xsi_text r' else if Ascii.eqb d "t" then ("009"%char) :: xsi_text r'
                     else if Ascii.eqb d backslash then backslash :: xsi_text r' else c :: d :: xsi_text r'
        | [] => [c]
        end
      else c :: xsi_text r
  | [] => []
  end.
Definition echo (xsi : bool) (arg : text) : option text :=
  match arg with
  | c :: _ => if Ascii.eqb c "-" then None else Some ((if xsi then xsi_text arg else arg) ++ [newline])
  | [] => Some [newline]
  end.
(** The command ends at a NUL (popen takes a C string); an argument of execve has at most 131072 bytes with the
    terminating one (Linux MAX_ARG_STRLEN). *)
Fixpoint c_string (s : text) : text := match s with c :: r => if Ascii.eqb c nul then [] else c :: c_string r | [] => [] end.
Definition arg_limit : N := 131072.
Definition prefix : text := list_ascii_of_string "echo """.
(** The text the preprocessor gets on its standard input; [tail] is  " | " preprocessor arguments redirection. *)
Definition received (xsi : bool) (oob : option ascii) (tail s : text) : res (option text) :=
  do e <- replace_all oob s;
  let cmd := c_string (prefix ++ e ++ quote :: tail) in
  if arg_limit <=? N.of_nat (List.length cmd) then Ok None else
  match dquoted (skipn (List.length prefix) cmd) with
  | Some (arg, rest) => if list_eq_dec ascii_dec rest tail then Ok (echo xsi arg) else Ok None
  | None => Ok None
  end.

(** ** exec (332-356): the output of the preprocessor, read with fgets into 256 characters *)
(** One fgets: at most [n] characters, up to and with a newline; what it read and what is left. *)
Fixpoint fgets (n : nat) (s : text) : text * text :=
  match n, s with
  | S n, c :: r => if Ascii.eqb c newline then ([c], r) else let (a, b) := fgets n r in (c :: a, b)
  | _, _ => ([], s)
  end.
(** result += buffer.data() for every line read. *)
Fixpoint read_all (fuel : nat) (s : text) : res text :=
  match fuel with
  | O => Fail Loop
  | S k => match s with [] => Ok [] | _ => let (a, b) := fgets 255 s in do r <- read_all k b; Ok (c_string a ++ r) end
  end.
Definition exec_output (s : text) : res text := read_all (S (List.length s)) s.
