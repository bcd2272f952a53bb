(** The parser's actions on the syntax tree (idl/parser.hpp:785-2264): from a text to the types of a module. *)
From Verif Require Import Base Types TypeBuild Compat Mem Hash MapOps Ops Module IntOps IdlLit Peg0 Grammar Peg.
Local Open Scope string_scope.

(** The options of Context used by the parser (parser.hpp:436-441). *)
Inductive char_as := AsChar | AsUint8 | AsInt8.
Record ctx := Ctx { ignore_case : bool; allow_keyword_identifiers : bool; ignore_redefinition : bool; char_translation : char_as; wide16 : bool }.
Definition default_ctx : ctx := Ctx false false false AsChar false.

Definition starts_with (p s : string) : bool := match after p s with Some _ => true | None => false end.
Definition lower (c : ascii) : ascii := let n := N_of_ascii c in if ((65 <=? n) && (n <=? 90))%N then ascii_of_N (n + 32) else c.
Fixpoint to_lower (s : string) : string := match s with EmptyString => "" | String c r => String (lower c) (to_lower r) end.

(** is_token (parser.hpp:896-920). *)
Fixpoint any_matches (n : nat) (l : list rule) (x : string) : res bool :=
  match l with
  | [] => Ok false
  | r :: l => match matches n r x with None => Fail Loop | Some true => Ok true | Some false => any_matches n l x end
  end.
Definition is_token (n : nat) (c : ctx) (x : string) : res bool := any_matches n kw_rules (if ignore_case c then to_lower x else x).

(** resolve_identifier (parser.hpp:844-886).  [n] is the fuel of the matcher and of resolve_scope; logging is left out. *)
Definition resolve_identifier (n : nat) (c : ctx) (root : modl) (p : place) (x : string) (ignore_already_used : bool) : res string :=
  match x with
  | String "_" r => Ok r
  | _ =>
      do k <- is_token n c x;
      if k && negb (allow_keyword_identifiers c) then Fail Throw
      else if has_symbol root p x && negb ignore_already_used then Fail Throw
      else Ok x
  end.

(** resolve_scope(name) from the module at [p], then the queries of Module.hpp (181-192, 194-217, 392-430, 596-654). *)
Definition resolve (n : nat) (root : modl) (p : place) (x : string) : res (option (place * string)) := resolve_scope n root p x x true.
Definition find_in {A} (n : nat) (root : modl) (p : place) (tab : tables -> list (string * A)) (x : string) : res (option A) :=
  do r <- resolve n root p x; Ok (found root tab r).
Definition type_named (n : nat) (root : modl) (p : place) (x : string) : res (option ty) := do r <- resolve n root p x; type_of root x r.

(** value of a constant as a dimension (parser.hpp:2029-2069, 2217-2256): int to size_t; anything else throws. *)
Definition int_of_data (d : data) : res (option Z) :=
  match d_type d with
  | TPrim p => if int_kind p then do bs <- operand p d; Ok (Some (prim_int p bs)) else Ok None
  | _ => Ok None
  end.
Definition constant_dimension (n : nat) (root : modl) (p : place) (x : string) : res Z :=
  do o <- find_in n root p consts x;
  match o with
  | Some d => do v <- int_of_data d; match v with Some z => Ok (z mod 2 ^ 64)%Z | None => Fail Throw end
  | None => Fail Throw       (* DynamicData of bool *)
  end.
(** get_dimension(outer, node) (parser.hpp:2071-2089). *)
Definition get_dimension (n : nat) (root : modl) (p : place) (a : ast) : res Z :=
  match a_tag a with
  | R_SCOPED_NAME => constant_dimension n root p (a_tok a)
  | _ => if String.eqb (a_tok a) "" then Ok 0%Z else stoul (a_tok a)
  end.
(** size_t to the uint32_t parameter of SequenceType, MapType and ArrayType. *)
Definition to_u32 (z : Z) : N := Z.to_N (z mod 2 ^ 32).
(** TStringType(int bounds) stores it as uint32_t (StringType.hpp:42-50).
    Simplification: the type is given by its bound, a negative int has the name of an unbounded string. *)
Definition string_type (k : skind) (z : Z) : ty := TStr k (to_u32 z).

(** type_spec (parser.hpp:1883-2027).  [None] is the null pointer, which is never returned: an unknown name throws.  In
    the default case the function calls itself with the same arguments: it never returns. *)
Definition wide_kind (c : ctx) : skind := if wide16 c then SK16 else SKW.
Fixpoint type_spec (n : nat) (c : ctx) (root : modl) (p : place) (a : ast) {struct a} : res ty :=
  match a with
  | Ast _ tag tok l =>
      match tag with
      | R_SCOPED_NAME | R_IDENTIFIER =>
          do t <- type_named n root p tok; match t with Some t => Ok t | None => Fail Throw end
      | R_BOOLEAN_TYPE => Ok (TPrim PBool)
      | R_SIGNED_TINY_INT => Ok (TPrim PI8)
      | R_UNSIGNED_TINY_INT | R_OCTET_TYPE => Ok (TPrim PU8)
      | R_SIGNED_SHORT_INT => Ok (TPrim PI16)
      | R_UNSIGNED_SHORT_INT => Ok (TPrim PU16)
      | R_SIGNED_LONG_INT => Ok (TPrim PI32)
      | R_UNSIGNED_LONG_INT => Ok (TPrim PU32)
      | R_SIGNED_LONGLONG_INT => Ok (TPrim PI64)
      | R_UNSIGNED_LONGLONG_INT => Ok (TPrim PU64)
      | R_FLOAT_TYPE => Ok (TPrim PF32)
      | R_DOUBLE_TYPE => Ok (TPrim PF64)
      | R_LONG_DOUBLE_TYPE => Ok (TPrim PF128)
      | R_CHAR_TYPE => Ok (TPrim match char_translation c with AsChar => PC8 | AsUint8 => PU8 | AsInt8 => PI8 end)
      | R_WIDE_CHAR_TYPE => Ok (TPrim (if wide16 c then PC16 else PWC))
      | R_STRING_TYPE => Ok (string_type SK8 0)
      | R_STRING_SIZE =>
          do k <- find_in n root p consts tok;
          match k with
          | Some _ => do z <- constant_dimension n root p tok; Ok (string_type SK8 z)
          | None => do z <- atoi tok; Ok (string_type SK8 z)
          end
      | R_WIDE_STRING_TYPE =>
          do k <- find_in n root p consts tok;
          match k with
          | Some _ => do z <- constant_dimension n root p tok; Ok (string_type (wide_kind c) z)
          | None => Ok (string_type (wide_kind c) 0)
          end
      | R_WSTRING_SIZE => do z <- atoi tok; Ok (string_type (wide_kind c) z)
      | R_SEQUENCE_TYPE =>
          match l with
          | x :: r =>
              do t <- type_spec n c root p x;
              do z <- match r with y :: _ => get_dimension n root p y | [] => Ok 0%Z end;
              Ok (TSeq t (to_u32 z))
          | [] => Fail UB
          end
      | R_MAP_TYPE =>
          match l with
          | x :: y :: r =>
              do k <- type_spec n c root p x; do t <- type_spec n c root p y;
              do z <- match r with w :: _ => get_dimension n root p w | [] => Ok 0%Z end;
              Ok (TMap k t (to_u32 z))
          | _ => Fail UB
          end
      | _ => Fail Loop
      end
  end.

(** get_array_type (parser.hpp:2091-2110): the last dimension is the innermost. *)
Fixpoint get_array_type (dims : list Z) (t : ty) : res ty :=
  match dims with
  | [] => Fail UB
  | [d] => Ok (mk_array t (to_u32 d))
  | d :: r => do a <- get_array_type r t; Ok (mk_array a (to_u32 d))
  end.

(** identifier (parser.hpp:2188-2264): the name of a declarator and its dimensions.
    Simplification: stoul reads the literal only; the text goes on behind it with a character that is no digit. *)
Fixpoint declarator_parts (n : nat) (c : ctx) (root : modl) (p : place) (l : list ast) (name : string) (dims : list Z) : res (string * list Z) :=
  match l with
  | [] => Ok (name, dims)
  | a :: r =>
      match a_tag a with
      | R_IDENTIFIER => do x <- resolve_identifier n c root p (a_tok a) false; declarator_parts n c root p r x dims
      | R_INTEGER_LITERAL => do z <- stoul (a_tok a); declarator_parts n c root p r name (dims ++ [z])%list
      | R_SCOPED_NAME => do z <- constant_dimension n root p (a_tok a); declarator_parts n c root p r name (dims ++ [z])%list
      | _ => declarator_parts n c root p r name dims
      end
  end.
Definition declarator (n : nat) (c : ctx) (root : modl) (p : place) (a : ast) : res (string * list Z) :=
  match a_tag a with
  | R_IDENTIFIER => do x <- resolve_identifier n c root p (a_tok a) false; Ok (x, [])
  | R_ARRAY_DECLARATOR => declarator_parts n c root p (a_sub a) "" []
  | _ => Ok ("", [])
  end.
Fixpoint map_res {A B} (f : A -> res B) (l : list A) : res (list B) :=
  match l with [] => Ok [] | x :: r => do y <- f x; do ys <- map_res f r; Ok (y :: ys) end.
(** identifier_list (parser.hpp:2165-2186). *)
Definition identifier_list (n : nat) (c : ctx) (root : modl) (p : place) (a : ast) : res (list (string * list Z)) :=
  if rule_eqb (a_tag a) (a_orig a) then map_res (declarator n c root p) (a_sub a)
  else do d <- declarator n c root p a; Ok [d].
(** The loops of members and case_member_def (parser.hpp:2131-2162, 1687-1717): a name that is in the list throws. *)
Definition known_member (x : string) (ms : list (string * ty)) : bool := existsb (fun m => String.eqb (fst m) x) ms.
Fixpoint add_declared (t : ty) (l : list (string * list Z)) (ms : list (string * ty)) : res (list (string * ty)) :=
  match l with
  | [] => Ok ms
  | (x, dims) :: r =>
      if known_member x ms then Fail Throw
      else do mt <- match dims with [] => Ok t | _ => get_array_type dims t end;
           add_declared t r (ms ++ [(x, mt)])%list
  end.
(** member_def (parser.hpp:1858-1881): the children of a MEMBER node. *)
Fixpoint member_def (n : nat) (c : ctx) (root : modl) (p : place) (l : list ast) (t : option ty) (ms : list (string * ty)) : res (list (string * ty)) :=
  match l with
  | [] => Ok ms
  | a :: r =>
      match a_orig a with
      | R_TYPE_SPEC => do x <- type_spec n c root p a; member_def n c root p r (Some x) ms
      | R_DECLARATORS =>
          match t with
          | Some t' => do ds <- identifier_list n c root p a; do ms <- add_declared t' ds ms; member_def n c root p r t ms
          | None => member_def n c root p r t ms
          end
      | _ => member_def n c root p r t ms
      end
  end.

(** Replace the type registered under [x] (the reference returned by structure(name), union_switch(name)). *)
Definition store (k : table) (x : string) (t : ty) (tab : tables) : tables :=
  set_table k (map (fun e => if String.eqb x (fst e) then (fst e, t) else e) (get_table k tab)) tab.
Definition store_at (k : table) (x : string) (t : ty) (root : modl) (q : place) : res modl :=
  do r <- on_tables root q (fun tab => Ok (tt, store k x t tab)); Ok (snd r).
(** structure(name) and union_switch(name): the entry found, an assertion if there is none. *)
Definition lookup (n : nat) (k : table) (root : modl) (p : place) (x : string) : res (place * string * ty) :=
  do r <- resolve n root p x;
  match r with
  | Some (q, y) => match assoc y (get_table k (tab_at root q)) with Some t => Ok (q, y, t) | None => Fail Assert end
  | None => Fail Assert
  end.
Definition members_of (t : ty) : list (string * N * ty) := match t with TStruct _ _ ms | TUnion _ _ ms _ _ _ _ => ms | _ => [] end.
Fixpoint add_members (t : ty) (ms : list (string * ty)) : res ty :=
  match ms with
  | [] => Ok t
  | (x, mt) :: r => match add_member t x mt with (t', Ok _) => add_members t' r | (_, Fail e) => Fail e end
  end.

(** struct_def (parser.hpp:1455-1536), first loop: the name, the name of the parent, the members. *)
Record struct_acc := SA { sa_root : modl; sa_name : string; sa_parent : string; sa_ms : list (string * ty) }.
Definition declare_struct (n : nat) (c : ctx) (root : modl) (p : place) (x : string) : res (string * modl) :=
  do nm <- resolve_identifier n c root p x true;
  do r <- call_register Structs (TStruct nm 0 []) false root p;
  Ok (nm, snd r).
Fixpoint struct_parts (n : nat) (c : ctx) (p : place) (l : list ast) (s : struct_acc) : res struct_acc :=
  match l with
  | [] => Ok s
  | a :: r =>
      match a_orig a with
      | R_IDENTIFIER =>
          do d <- declare_struct n c (sa_root s) p (a_tok a); struct_parts n c p r (SA (snd d) (fst d) (sa_parent s) (sa_ms s))
      | R_INHERITANCE =>
          do t <- find_in n (sa_root s) p structs (a_tok a);
          match t with Some _ => struct_parts n c p r (SA (sa_root s) (sa_name s) (a_tok a) (sa_ms s)) | None => Fail Throw end
      | R_MEMBER => do ms <- member_def n c (sa_root s) p (a_sub a) None (sa_ms s); struct_parts n c p r (SA (sa_root s) (sa_name s) (sa_parent s) ms)
      | _ => struct_parts n c p r s
      end
  end.
Definition struct_def (n : nat) (c : ctx) (p : place) (a : ast) (root : modl) : res modl :=
  do s <- struct_parts n c p (a_sub a) (SA root "" "" []);
  do s <- (if String.eqb (sa_name s) "" && rule_eqb (a_tag a) R_IDENTIFIER
           then do d <- declare_struct n c (sa_root s) p (a_tok a); Ok (SA (snd d) (fst d) (sa_parent s) (sa_ms s))
           else Ok s);
  let root := sa_root s in
  do e <- lookup n Structs root p (sa_name s);
  let '(q, y, t) := e in
  match members_of t with
  | _ :: _ => if ignore_redefinition c then Ok root else Fail Throw
  | [] =>
      do d <- (if String.eqb (sa_parent s) "" then Ok (root, q, y, t)
               else do b <- lookup n Structs root p (sa_parent s);
                    do t' <- struct_new (sa_name s) (Some (snd b));
                    do r <- call_register Structs t' true root p;
                    do e <- lookup n Structs (snd r) p (sa_name s);
                    Ok (snd r, fst (fst e), snd (fst e), snd e));
      let '(root, q, y, t) := d in
      do t <- add_members t (sa_ms s);
      store_at Structs y t root q
  end.
(** struct_fw_dcl, union_fw_dcl (parser.hpp:1410-1453). *)
Definition forward_dcl (n : nat) (c : ctx) (p : place) (a : ast) (root : modl) : res modl :=
  do x <- resolve_identifier n c root p (a_tok a) false;
  match mod_at root p with
  | Some m => if has_symbol_here m x then Fail Throw else do r <- call_register Structs (TStruct x 0 []) false root p; Ok (snd r)
  | None => Fail UB
  end.

(** alias_dcl (parser.hpp:967-993): a second child that is neither an identifier nor an array declarator leaves the name
    empty; the dimensions are read with atoi. *)
Definition alias_dcl (n : nat) (c : ctx) (p : place) (a : ast) (root : modl) : res modl :=
  match a_sub a with
  | x :: y :: _ =>
      do t <- type_spec n c root p x;
      do r <- match a_tag y with
              | R_IDENTIFIER => do nm <- resolve_identifier n c root p (a_tok y) (ignore_redefinition c); Ok (nm, t)
              | R_ARRAY_DECLARATOR =>
                  match a_sub y with
                  | i :: ds =>
                      do nm <- resolve_identifier n c root p (a_tok i) (ignore_redefinition c);
                      do dims <- map_res (fun d => do z <- atoi (a_tok d); Ok (z mod 2 ^ 64)%Z) ds;
                      do t <- get_array_type dims t; Ok (nm, t)
                  | [] => Fail UB
                  end
              | _ => Ok ("", t)
              end;
      do known <- resolve n root p (fst r);
      do r <- call_create_alias known (snd r) (fst r) root p;
      Ok (snd r)
  | _ => Fail UB
  end.

Section Values.
  (** Conversions between floating point and integer values, floating point operators and literals: parameters. *)
  Variable fc : prim -> prim -> list N -> list N.
  Variable flt : arith -> prim -> list N -> list N -> list N.
  Variable flit : prim -> string -> res (list N).

  (** enum_dcl (parser.hpp:1380-1408); name + "::" + token is refused by create_constant. *)
  Fixpoint enumerators (l : list ast) (p : place) (e : enum_st) (root : modl) : res (enum_st * modl) :=
    match l with
    | [] => Ok (e, root)
    | a :: r =>
        match add_enumerator_next e (a_tok a) with
        | (e', Ok _) =>
            do v <- enum_value (es_vals e') (a_tok a);
            do d <- result fc PU32 (int_bytes PU32 (Z.of_N v));
            do x <- call_create_constant fc (es_name e ++ "::" ++ a_tok a) d false true root p;
            do x <- call_create_constant fc (a_tok a) d false true (snd x) p;
            enumerators r p e' (snd x)
        | (_, Fail er) => Fail er
        end
    end.
  Definition enum_dcl (p : place) (a : ast) (root : modl) : res modl :=
    match a_sub a with
    | i :: r =>
        do x <- enumerators r p (enum_new (a_tok i) 4) root;
        do y <- call_register Enums (enum_type (fst x)) false (snd x) p;
        Ok (snd y)
    | [] => Fail UB
    end.

  (** *** Constants *)
  Fixpoint codes (s : string) : list N := match s with EmptyString => [] | String c r => N_of_ascii c :: codes r end.
  (** literal.substr(find(quote) + 1, rfind(quote) - 1) (parser.hpp:1157, 1176); a position behind the end throws, npos + 1 = 0. *)
  Fixpoint find_char (c : ascii) (s : string) : option nat :=
    match s with EmptyString => None | String d r => if Ascii.eqb c d then Some O else option_map S (find_char c r) end.
  Fixpoint rfind_char (c : ascii) (s : string) : option nat :=
    match s with
    | EmptyString => None
    | String d r => match rfind_char c r with Some i => Some (S i) | None => if Ascii.eqb c d then Some O else None end
    end.
  Definition unquote (s : string) : string :=
    let q := """"%char in
    match find_char q s, rfind_char q s with
    | Some i, Some (S j) => substring (S i) j s
    | Some i, _ => substring (S i) (String.length s) s  (* rfind - 1 wraps to npos *)
    | None, _ => s
    end.
  (** get_literal_value (parser.hpp:1013-1257).  Simplifications: the warnings are left out; code_conversion_tool is the
      identity, as it is on ASCII text (C38); for the other kinds the data is left as constructed. *)
  Definition literal_value (t : ty) (a : ast) : res data :=
    let lit := a_tok a in
    match rget t with
    | TPrim p =>
        if int_kind p then get_literal_value fc p lit ""
        else match p with
             | PBool => result fc PBool [if String.eqb lit "TRUE" then 1 else 0]%N
             | PC8 => match lit with String c _ => result fc PC8 [N_of_ascii c] | EmptyString => Fail Throw end
             | PC16 | PWC => result fc p (le_encode (N.to_nat (prim_size p)) (match lit with String c _ => N_of_ascii c | EmptyString => 0%N end))
             | _ => do bs <- flit p lit; result fc p bs
             end
    | TStr k b =>
        let text := match k with SK8 => fold_left (fun s x => s ++ unquote (a_tok x)) (a_sub a) (unquote lit) | _ => lit end in
        do d <- new_data (TStr k b); do m <- set_value fc (ScStr k (codes text)) (TStr k b) (d_mem d) 0; Ok (mkData (TStr k b) m)
    | t => new_data t
    end.
  Definition arith_of (r : rule) : option arith :=
    match r with
    | R_MULT_OP => Some Mul | R_DIV_OP => Some Div | R_MOD_OP => Some Rem | R_ADD_OP => Some Add | R_SUB_OP => Some Sub
    | R_LSHIFT_OP => Some Shl | R_RSHIFT_OP => Some Shr | R_AND_OP => Some BAnd | R_XOR_OP => Some BXor | R_OR_OP => Some BOr
    | _ => None
    end.
  (** solve_expr (parser.hpp:1259-1378): [result] of the type is assigned. *)
  Definition assign_new (t : ty) (v : data) : res data := do r <- new_data t; assign_data fc r v.
  Fixpoint solve_expr (n : nat) (root : modl) (p : place) (t : ty) (a : ast) {struct a} : res data :=
    match a with
    | Ast _ tag tok l =>
        match tag with
        | R_INTEGER_LITERAL | R_FLOAT_LITERAL | R_FIXED_PT_LITERAL | R_CHAR_LITERAL | R_WIDE_CHAR_LITERAL | R_BOOLEAN_LITERAL
        | R_STRING_LITERAL | R_SUBSTRING_LITERAL | R_WIDE_STRING_LITERAL | R_WIDE_SUBSTRING_LITERAL => literal_value t a
        | R_SCOPED_NAME =>
            do o <- find_in n root p consts tok;
            do v <- match o with Some d => Ok d | None => new_data (TPrim PBool) end;
            assign_new t v
        | R_UNARY_EXPR =>
            match l with
            | o :: e :: _ =>
                do v <- solve_expr n root p t e; do r <- assign_new t v;
                if rule_eqb (a_tag o) R_SUB_OP then do x <- negate fc flt r; assign_data fc r x else Ok r
            | _ => Fail UB
            end
        | R_MULT_EXPR | R_ADD_EXPR | R_SHIFT_EXPR | R_AND_EXPR | R_XOR_EXPR | R_CONST_EXPR =>
            match l with
            | x :: o :: y :: _ =>
                do u <- solve_expr n root p t x; do v <- solve_expr n root p t y;
                match arith_of (a_tag o) with Some op => do w <- binary fc flt op u v; assign_new t w | None => new_data t end
            | _ => Fail UB
            end
        | _ => new_data t
        end
    end.
  (** const_dcl (parser.hpp:995-1011).  The message contains expr.to_string(), which asks a wchar_t for a char16_t
      (DynamicDataImpl.hpp:141-148). *)
  Definition const_dcl (n : nat) (c : ctx) (p : place) (a : ast) (root : modl) : res modl :=
    match a_sub a with
    | x :: i :: e :: _ =>
        do t <- type_spec n c root p x;
        do r <- new_data t;
        do v <- solve_expr n root p t e;
        do v <- assign_data fc r v;
        do _ <- assert_ (match d_type v with TPrim PWC => false | _ => true end);
        do y <- call_create_constant fc (a_tok i) v false false root p;
        Ok (snd y)
    | _ => Fail UB
    end.

  (** *** Unions *)
  (** cast<std::string>() (DynamicDataImpl.hpp:236-293): std::to_string of the number, also for characters and booleans;
      "" for wide strings.  Simplification: floating point values are not printed. *)
  Definition z_to_string (z : Z) : string := match z with Zneg q => "-" ++ to_string (Npos q) | _ => to_string (Z.to_N z) end.
  Fixpoint of_codes (l : list N) : string := match l with [] => "" | x :: r => String (ascii_of_N x) (of_codes r) end.
  Definition cast_string (d : data) : res string :=
    match d_type d with
    | TPrim p => if is_float p then Fail Loop else do bs <- operand p d; Ok (z_to_string (prim_int p bs))
    | TEnum _ sz _ => do bs <- operand (enum_prim sz) d; Ok (z_to_string (prim_int (enum_prim sz) bs))
    | TStr SK8 _ => do r <- get_value (StStr SK8) (d_type d) (d_mem d) 0; match r with ScStr _ s => Ok (of_codes s) | _ => Fail UB end
    | TStr _ _ => Ok ""
    | _ => Fail Assert
    end.
  (** A label of a character discriminator: label[0] if it has one character, else the one behind the first apostrophe
      (UnionType.hpp:1063-1104). *)
  Definition char_label (s : string) : N :=
    let at_ i := match String.get i s with Some c => N_of_ascii c | None => 0%N end in
    if Nat.eqb (String.length s) 1 then at_ O
    else at_ (match find_char "'" s with Some i => S i | None => O end).
  (** parse_labels (UnionType.hpp:953-1125): the values and whether "default" was there. *)
  Definition label_value (disc : ty) (label : string) : res Z :=
    match rget disc with
    | TPrim p =>
        if int_kind p then Ok (parse_label p label)
        else match p with
             | PBool => if String.eqb label "TRUE" then Ok 1%Z else if String.eqb label "FALSE" then Ok 0%Z else Fail Assert
             | PC8 => Ok (prim_int PC8 [char_label label])
             | PC16 | PWC => Ok (Z.of_N (char_label label))
             | _ => Fail Assert
             end
    | TEnum _ _ vals => match disc with TEnum _ _ _ => parse_enum_label vals label | _ => Fail UB end
    | _ => Fail Assert
    end.
  Fixpoint parse_labels (disc : ty) (l : list string) (def : bool) (acc : list Z) : res (bool * list Z) :=
    match l with
    | [] => Ok (def, acc)
    | x :: r =>
        if String.eqb x "default" then if def then Fail Assert else parse_labels disc r true acc
        else do z <- label_value disc x; parse_labels disc r def (acc ++ [z])%list
    end.
  (** add_case_member(labels as strings, member) (UnionType.hpp:152-161). *)
  Definition add_case_strings (t : ty) (labels : list string) (x : string) (mt : ty) : res ty :=
    match t with
    | TUnion _ _ ((_, _, disc) :: _) _ _ _ _ =>
        do r <- parse_labels disc labels false [];
        match add_case_member t (snd r) x mt (fst r) with (t', Ok _) => Ok t' | (_, Fail e) => Fail e end
    | _ => Fail UB
    end.
  (** case_member_def (parser.hpp:1661-1718): the children of an ELEMENT_SPEC node. *)
  Fixpoint case_member_def (n : nat) (c : ctx) (root : modl) (p : place) (l : list ast) (t : option ty) (ds : list (string * list Z)) : res (list (string * ty)) :=
    match l with
    | [] => match ds, t with
            | [], _ => Ok []
            | _, Some t => add_declared t ds []
            | _, None => Fail UB
            end
    | a :: r =>
        match a_orig a with
        | R_TYPE_SPEC => do x <- type_spec n c root p a; case_member_def n c root p r (Some x) ds
        | R_DECLARATOR => do d <- declarator n c root p a; case_member_def n c root p r t (ds ++ [d])%list
        | _ => case_member_def n c root p r t ds
        end
    end.
  (** switch_case (parser.hpp:1624-1659): the labels are moved into the member's entry. *)
  Definition cases := list (list string * (string * ty)).
  Fixpoint switch_case (n : nat) (c : ctx) (root : modl) (p : place) (l : list ast) (labels : list string) (member : list (string * ty)) (acc : cases) : res cases :=
    match l with
    | [] => Ok acc
    | a :: r =>
        match a_orig a with
        | R_CASE_LABEL =>
            do o <- find_in n root p consts (a_tok a);
            do v <- match o with Some d => cast_string d | None => Ok (a_tok a) end;
            switch_case n c root p r (labels ++ [v])%list member acc
        | R_ELEMENT_SPEC =>
            do ms <- case_member_def n c root p (a_sub a) None [];
            match (member ++ ms)%list with
            | m :: _ => switch_case n c root p r [] (member ++ ms)%list (acc ++ [(labels, m)])%list
            | [] => Fail Throw
            end
        | _ => switch_case n c root p r labels member acc
        end
    end.
  (** switch_body (parser.hpp:1598-1622): a child that is no CASE is ignored. *)
  Fixpoint switch_body (n : nat) (c : ctx) (root : modl) (p : place) (l : list ast) (acc : cases) : res cases :=
    match l with
    | [] => Ok acc
    | a :: r =>
        match a_orig a with
        | R_CASE => do acc <- switch_case n c root p (a_sub a) [] [] acc; switch_body n c root p r acc
        | _ => switch_body n c root p r acc
        end
    end.
  (** union_def (parser.hpp:1538-1596). *)
  Fixpoint union_parts (n : nat) (c : ctx) (p : place) (l : list ast) (root : modl) (name : string) (cs : cases) : res (modl * string * cases) :=
    match l with
    | [] => Ok (root, name, cs)
    | a :: r =>
        match a_orig a with
        | R_IDENTIFIER => do x <- resolve_identifier n c root p (a_tok a) true; union_parts n c p r root x cs
        | R_SWITCH_TYPE_SPEC | R_SCOPED_NAME =>
            do t <- type_spec n c root p a; do u <- union_new name t;
            do x <- call_register Unions u false root p; union_parts n c p r (snd x) name cs
        | R_SWITCH_BODY => do cs <- switch_body n c root p (a_sub a) cs; union_parts n c p r root name cs
        | _ => union_parts n c p r root name cs
        end
    end.
  Fixpoint add_cases (t : ty) (cs : cases) : res ty :=
    match cs with [] => Ok t | (ls, (x, mt)) :: r => do t <- add_case_strings t ls x mt; add_cases t r end.
  Definition union_def (n : nat) (c : ctx) (p : place) (a : ast) (root : modl) : res modl :=
    do s <- union_parts n c p (a_sub a) root "" [];
    let '(root, name, cs) := s in
    do e <- lookup n Unions root p name;
    let '(q, y, t) := e in
    match members_of t with
    | _ :: _ :: _ => if ignore_redefinition c then Ok root else Fail Throw
    | _ => do t <- add_cases t cs; store_at Unions y t root q
    end.

  (** annotation_dcl, bitset_dcl, bitmask_dcl (parser.hpp:1720-1856): only the name is looked at. *)
  Fixpoint check_names (n : nat) (c : ctx) (p : place) (l : list ast) (root : modl) : res modl :=
    match l with
    | [] => Ok root
    | a :: r => match a_orig a with
                | R_IDENTIFIER => do _ <- resolve_identifier n c root p (a_tok a) true; check_names n c p r root
                | _ => check_names n c p r root
                end
    end.

  (** build_on_ast (parser.hpp:785-842) with module_dcl (920-965).  [p] is the current scope; in a module [None] until
      its name was read: build_on_ast then takes the root. *)
  Fixpoint build (n : nat) (c : ctx) (p : place) (a : ast) (root : modl) {struct a} : res modl :=
    match a with
    | Ast _ tag tok l =>
        match tag with
        | R_ANNOTATION_APPL => Ok root
        | R_MODULE_DCL =>
            (fix go (l : list ast) (sc : option place) (root : modl) {struct l} : res modl :=
               match l with
               | [] => Ok root
               | a :: r =>
                   match a_tag a with
                   | R_IDENTIFIER =>
                       if rule_eqb (a_orig a) R_IDENTIFIER then
                         do x <- resolve_identifier n c root p (a_tok a) true;
                         do root <- (if has_submodule root p x then Ok root else call_create_submodule x root p);
                         do s <- call_submodule x root p;
                         if fst s then go r (Some (x :: p)) (snd s) else Fail UB
                       else match sc with
                            | Some q => do root <- struct_def n c q a root; go r sc root
                            | None => Fail UB
                            end
                   | _ => do root <- build n c (match sc with Some q => q | None => [] end) a root; go r sc root
                   end
               end) l None root
        | R_CONST_DCL => const_dcl n c p a root
        | R_STRUCT_DEF | R_IDENTIFIER => struct_def n c p a root
        | R_STRUCT_FORWARD_DCL | R_UNION_FORWARD_DCL => forward_dcl n c p a root
        | R_UNION_DEF => union_def n c p a root
        | R_ENUM_DCL => enum_dcl p a root
        | R_ANNOTATION_DCL | R_BITSET_DCL | R_BITMASK_DCL => check_names n c p l root
        | R_TYPE_DECLARATOR => alias_dcl n c p a root
        | _ =>
            (fix go (l : list ast) (root : modl) {struct l} : res modl :=
               match l with [] => Ok root | a :: r => do root <- build n c p a root; go r root end) l root
        end
    end.

  (** Parser::parse(text, context) (parser.hpp:536-560) on a context whose module is [root]: success and the module
      afterwards; [Fail] if an exception leaves parse.  Simplification: the preprocessor is not run
      (context.preprocess = false). *)
  Definition parse_idl (n : nat) (c : ctx) (text : string) (root : modl) : res (bool * modl) :=
    match parse_document n text with
    | None => Fail Loop
    | Some None => Ok (false, root)
    | Some (Some a) => do root <- build n c [] a root; Ok (true, root)
    end.
End Values.
