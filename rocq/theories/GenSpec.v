(** Which declarations can be written as IDL text: names and types (specification). *)
From Verif Require Import Base Types TypeBuild Peg0 Grammar Peg Mem Hash MapOps Ops IntOps Module ModuleSpec PegRules IdlLit IdlParse.
Local Open Scope string_scope.

(** The keywords of IDL and the first words of the keywords made of several words. *)
Definition keywords : list string :=
  ["const"; "module"; "sequence"; "string"; "wstring"; "fixed"; "union"; "struct"; "enum"; "switch"; "case"; "default"; "native"; "typedef"; "any"; "map";
   "bitset"; "bitfield"; "bitmask"; "short"; "int16"; "long"; "int32"; "int64"; "unsigned"; "uint16"; "uint32"; "uint64"; "int8"; "uint8"; "char"; "wchar";
   "boolean"; "octet"; "float"; "double"].
(** An identifier that no keyword is the beginning of, unless a letter or an underscore follows ([clash], PegRules; C45
    shows why). *)
Definition plain (x : string) : bool := is_ident x && forallb (fun k => negb (clash k x)) keywords.
(** A plain identifier which is not changed by the escape rule: it does not begin with an underscore. *)
Definition plain_name (x : string) : bool := plain x && negb (first_is (Ascii.eqb "_") x).
(** A scoped name made of identifiers, the first of them plain; or an absolute name ::q1::...::qn::x. *)
Definition plain_scoped (s : string) : Prop :=
  exists abs qs x, s = render abs qs x /\ Forall (fun y => is_ident y = true) (qs ++ [x]) /\ (abs = true \/ plain (hd x qs) = true).
(** The types IDL has a text for which means the same type, in the default context; [name] is how a named type is written. *)
Fixpoint readable (name : ty -> string) (t : ty) : Prop :=
  match t with
  | TPrim p => p <> PC16
  | TStr k b => k <> SK16 /\ (b < 2 ^ 31)%N
  | TSeq c b => readable name c /\ (b < 2 ^ 32)%N
  | TMap k v b => readable name k /\ readable name v /\ (b < 2 ^ 32)%N
  | TArr _ _ _ | TPair _ _ => False
  | _ => plain_scoped (name t)
  end.
Fixpoint array_base (t : ty) : ty := match t with TArr _ c _ => array_base c | _ => t end.
(** Every array has the name its constructor gives it and a dimension that fits into uint32_t. *)
Fixpoint canonical (t : ty) : Prop :=
  match t with TArr nm c d => nm = ("array_" ++ to_string d ++ "_" ++ tname c) /\ (d < 2 ^ 32)%N /\ canonical c | _ => True end.
(** Module::type(x) of the module at [p] answers [t]. *)
Definition names_type (root : modl) (p : place) (x : string) (t : ty) : Prop := exists n, type_named n root p x = Ok (Some t).
(** Module::structure(x) answers [t]. *)
Definition names_struct (root : modl) (p : place) (x : string) (t : ty) : Prop := exists n q y, lookup n Structs root p x = Ok (q, y, t).
Definition ident_path (qs : list string) (y : string) : Prop := Forall (fun z => is_ident z = true) (qs ++ [y]).
(** All the symbols visible at [p] are identifiers. *)
Definition idents_only (root : modl) (p : place) : Prop := forall x, has_symbol root p x = true -> is_ident x = true.
(** The names the text of [t] uses are known at [p]. *)
Fixpoint named_in (name : ty -> string) (root : modl) (p : place) (t : ty) : Prop :=
  match t with
  | TPrim _ | TStr _ _ => True
  | TArr _ c _ | TSeq c _ => named_in name root p c
  | TMap k v _ => named_in name root p k /\ named_in name root p v
  | _ => names_type root p (name t) t
  end.
(** A new symbol [x] at [p] hides none of the names of [t]: they end in other identifiers, or [p] is the root, or they are
    absolute and lead to a module that is not inside [p]. *)
Definition not_hidden (p : place) (x s : string) : Prop := forall abs qs, s = render abs qs x -> (abs = true -> around p (rev qs)) -> p = [].
Fixpoint unshadowed (name : ty -> string) (p : place) (x : string) (t : ty) : Prop :=
  match t with
  | TPrim _ | TStr _ _ => True
  | TArr _ c _ | TSeq c _ => unshadowed name p x c
  | TMap k v _ => unshadowed name p x k /\ unshadowed name p x v
  | _ => not_hidden p x (name t)
  end.
(** StructType(x, parent) with add_member for each member. *)
Definition struct_of (x : string) (parent : option ty) (ms : list (string * ty)) : res ty := do t <- struct_new x parent; add_members t ms.
(** The context writes char as char8 and wide strings with wchar_t, and keywords are spelled as in the grammar: the defaults. *)
Definition usual (c : ctx) : Prop := char_translation c = AsChar /\ wide16 c = false /\ ignore_case c = false.
(** The parent's name [pn], if any, means the parent type [bt] in the module at [p]. *)
Definition base_named (root : modl) (p : place) (x : string) (pn : option string) (bt : option ty) : Prop :=
  match pn with
  | None => bt = None
  | Some b => exists abs qs y bt', b = render abs qs y /\ ident_path qs y /\ not_hidden p x b /\ bt = Some bt' /\ names_struct root p b bt'
  end.
(** A member [y] of type [t] written in the module at [p], where [x] is being declared. *)
Record member_fits (name : ty -> string) (root : modl) (p : place) (x y : string) (t : ty) : Prop := {
  mf_name : plain_name y = true; mf_other : y <> x; mf_new : has_symbol root p y = false; mf_canon : canonical t;
  mf_readable : readable name (array_base t); mf_named : named_in name root p (array_base t); mf_hidden : unshadowed name p x (array_base t) }.
(** Enumerators with the values k, k + 1, ... *)
Fixpoint numbered (k : N) (es : list (string * N)) : Prop := match es with [] => True | (_, v) :: r => v = k /\ numbered (k + 1) r end.
