(** ReadableDynamicDataRef::to_string. *)
From Verif Require Import Base Types TypeBuild Mem Ops MapOps Visit.
Local Open Scope string_scope.

Definition newline : string := String (Ascii.ascii_of_nat 10) "".
(** std::string(n, ' ') *)
Fixpoint blanks (n : nat) : string := match n with O => "" | S k => " " ++ blanks k end.
(** operator<< of std::ostream for the integers (classic locale). *)
Definition out_int (z : Z) : string := match z with Zneg q => "-" ++ to_string (Npos q) | _ => to_string (Z.to_N z) end.
(** operator<< for std::string. *)
Definition out_chars (s : list N) : string := List.fold_right (fun c r => String (Ascii.ascii_of_N c) r) "" s.

Section Print.
  (** Parameters (no theorem depends on them): operator<< for floating point values; code_conversion_tool<char> of a
      UTF-16 string (utils.hpp), which may throw. *)
  Variable flo : prim -> list N -> string.
  Variable conv : list N -> res string.

  (** ss << value<T>(), DynamicDataImpl.hpp:141-187; [p] is the kind of the node.  int8_t and uint8_t are character types
      for operator<<; a wchar_t is read with value<char16_t>(). *)
  Definition out_prim (p : prim) (t : ty) (b : block) (off : N) : res string :=
    match p with
    | PWC | PC16 =>
        do v <- get_value (StPrim PC16) t b off;
        match v with ScPrim _ bs => conv [le_decode bs] | _ => Fail UB end
    | _ =>
        do v <- get_value (StPrim p) t b off;
        match v with
        | ScPrim _ bs =>
            Ok (match p with
                | PBool => if (le_decode bs =? 0)%N then "0" else "1"
                | PC8 | PI8 | PU8 => out_chars [le_decode bs]
                | PF32 | PF64 | PF128 => flo p bs
                | _ => out_int (prim_int p bs)
                end)
        | _ => Fail UB
        end
    end.
  (** Lines 188-204; std::u16string(aux.begin(), aux.end()) reduces every wchar_t to 16 bits. *)
  Definition out_str (k : skind) (t : ty) (b : block) (off : N) : res string :=
    do v <- get_value (StStr k) t b off;
    match v with
    | ScStr _ s =>
        match k with
        | SK8 => Ok (out_chars s)
        | SKW => conv (map (fun c => (c mod 65536)%N) s)
        | SK16 => conv s
        end
    | _ => Fail UB
    end.
  (** The switch, lines 139-224. *)
  Definition body (n : node) : res string :=
    let t := n_type n in
    let nm := tname t in
    match t with
    | TPrim p => do x <- out_prim p t (n_blk n) (n_off n); Ok ("<" ++ nm ++ ">  " ++ x)
    | TStr k _ => do x <- out_str k t (n_blk n) (n_off n); Ok ("<" ++ nm ++ ">  " ++ x)
    | TArr _ _ _ => Ok ("<" ++ nm ++ ">")
    | TSeq _ _ | TMap _ _ _ =>
        do s <- get_size t (n_blk n) (n_off n);
        match s with ONat k => Ok ("<" ++ nm ++ "[" ++ to_string k ++ "]>") | _ => Fail UB end
    | TStruct _ _ _ => Ok ("Structure: <" ++ nm ++ ">")
    | TEnum _ _ _ => Ok ("Enumeration: <" ++ nm ++ ">")
    | TPair _ _ | TUnion _ _ _ _ _ _ _ | TAlias _ _ => Ok ("Unsupported type: " ++ nm)
    end.
  (** Lines 130-138. *)
  Definition prefix (n : node) : res string :=
    match n_parent n with
    | None => Ok ""
    | Some p =>
        if is_aggregation_type (n_type p)
        then match n_member n with Some m => Ok ("[" ++ m ++ "] ") | None => Fail UB end
        else Ok ("[" ++ to_string (n_index n) ++ "] ")
    end.
  (** The visitor; the stream is its state.  An exception that is not a bool leaves for_each. *)
  Definition printer (s : res string) (n : node) : res string * option bool :=
    match s with
    | Fail e => (Fail e, Some true)
    | Ok s =>
        match (do x <- prefix n; do y <- body n; Ok (s ++ blanks (n_deep n * 4) ++ x ++ y ++ newline)) with
        | Ok s' => (Ok s', None)
        | Fail e => (Fail e, Some true)
        end
    end.
  (** to_string (DynamicDataImpl.hpp:124-228) of a reference. *)
  Definition print (t : ty) (b : block) (off : N) : res string :=
    do r <- for_each printer t b off (Ok ""); fst r.
End Print.
