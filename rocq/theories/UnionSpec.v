(** Unions built by the API, and the labels IDL has a text for (specification). *)
From Verif Require Import Base Types TypeBuild Mem Ops IntOps ModuleSpec Module NumSpec IntSpec Peg0 Grammar Peg PegRules IdlLit IdlParse GenIdl GenSpec ExprSpec.
From Coq Require Import Sorting.
Local Open Scope string_scope.

(** A call add_case_member(labels, member, is_default). *)
Definition ucase := (list Z * bool * (string * ty))%type.
Fixpoint add_all (t : ty) (cs : list ucase) : res ty :=
  match cs with
  | [] => Ok t
  | (ls, isd, (x, mt)) :: r => match add_case_member t ls x mt isd with (t', Ok _) => add_all t' r | (_, Fail e) => Fail e end
  end.
(** UnionType(x, disc) with add_case_member for each case. *)
Definition union_of (x : string) (disc : ty) (cs : list ucase) : res ty := do t <- union_new x disc; add_all t cs.
(** The largest label value means "no label": the one next to it "no default" (UnionType.hpp:42-46, 475-482). *)
Definition no_default_label (disc : ty) : Z := (default_union_label (msize disc) - 1)%Z.
(** The labels of a case are ascending; the first label of the default case is not the reserved one. *)
Definition case_sorted (disc : ty) (k : ucase) : Prop :=
  let '(ls, isd, _) := k in StronglySorted Z.lt ls /\ (isd = true -> match ls with l :: _ => l <> no_default_label disc | [] => True end).
(** The characters written between apostrophes (the generator does not escape; a colon is left out as well, for simplicity). *)
Definition quotable (ch : ascii) : bool := let n := N_of_ascii ch in ((n <? 128) && negb (existsb (N.eqb n) [34; 39; 58; 92]))%N.
(** Labels that have a text with the same value. *)
Definition label_fits (root : modl) (p : place) (x : string) (disc : ty) (l : Z) : Prop :=
  match disc with
  | TPrim PBool => (l = 0 \/ l = 1)%Z /\ has_symbol root p "TRUE" = false /\ has_symbol root p "FALSE" = false /\ x <> "TRUE" /\ x <> "FALSE"
  | TPrim PC8 | TPrim PWC => (0 <= l < 128)%Z /\ quotable (ascii_of_N (Z.to_N l)) = true
  | TPrim q => int_kind q = true /\ (0 <= l < 2 ^ 63)%Z /\ fits q l
  | TEnum _ sz vals => sz = 4%N /\ (0 <= l < 2 ^ 32)%Z /\
      let e := enum_enumerator vals (Z.to_N l) in
      is_ident e = true /\ begins "TRUE" e = false /\ begins "FALSE" e = false /\ e <> "default" /\ e <> x /\ assoc e vals = Some (Z.to_N l) /\
      (has_symbol root p e = false \/ exists n d, find_in n root p consts e = Ok (Some d) /\ is_int d PU32 l)
  | _ => False
  end.
(** A case of a union [x] that IDL has a text for: a member that can be written, at least one label (or default), labels
    that have a text, and no symbol called default (C48's substitution of constants would replace the word). *)
Definition case_fits (name : ty -> ty -> string) (root : modl) (p : place) (x : string) (disc : ty) (k : ucase) : Prop :=
  let '(ls, isd, (y, mt)) := k in
  member_fits (name mt) root p x y mt /\ (ls <> [] \/ isd = true) /\ (forall l, In l ls -> label_fits root p x disc l) /\ (isd = true -> has_symbol root p "default" = false).
