(** Unions as a user writes them (specification). *)
From Verif Require Import Base Types TypeBuild Mem Hash MapOps Ops IntOps ModuleSpec Module NumSpec IntSpec Peg0 Grammar Peg PegRules IdlLit IdlSpec IdlParse GapSpec GenIdl GenSpec ExprSpec NoteSpec UnionSpec FreeSpec.
Local Open Scope string_scope.

(** The types a union can have as its discriminator, by their text: integers, characters, boolean, and names. *)
Definition switch_says (types : string -> ty -> Prop) (s : string) (t : ty) : Prop :=
  (exists q, In (s, q) base_names /\ is_float q = false /\ t = TPrim q) \/ (plain_scoped s /\ types s t).

Section Labels.
  Variables (root : modl) (p : place) (x : string) (disc : ty).
  (** [label_says L z]: the text [L] behind the word case is a label with the value [z], in a union [x] of the module at [p]
      over [disc].  Over the integers: literals in every base, negative decimal ones, constants that are not negative.  Labels
      are 64-bit signed numbers in the library. *)
  Inductive label_says : string -> Z -> Prop :=
  | lb_number : forall q L base z, rget disc = TPrim q -> int_kind q = true -> literal L base z -> fits q z -> (z < 2 ^ 63)%Z -> label_says L z
  | lb_negative : forall q L z, rget disc = TPrim q -> signed_int_kind q = true -> literal L 10 z -> fits q (- z) -> label_says ("-" ++ L) (- z)
  | lb_constant : forall q qs y b, rget disc = TPrim q -> int_kind q = true -> ident_path qs y -> begins "TRUE" (qualified qs y) = false -> begins "FALSE" (qualified qs y) = false -> qualified qs y <> "default" ->
      sizes_for root p x (qualified qs y) b -> fits q (Z.of_N b) -> (b < 2 ^ 63)%N -> label_says (qualified qs y) (Z.of_N b)
  | lb_true : rget disc = TPrim PBool -> has_symbol root p "TRUE" = false -> x <> "TRUE" -> label_says "TRUE" 1
  | lb_false : rget disc = TPrim PBool -> has_symbol root p "FALSE" = false -> x <> "FALSE" -> label_says "FALSE" 0
  | lb_char : forall ch, rget disc = TPrim PC8 -> quotable ch = true -> label_says ("'" ++ String ch "'") (Z.of_N (N_of_ascii ch))
  | lb_wchar : forall ch, rget disc = TPrim PWC -> quotable ch = true -> label_says ("L'" ++ String ch "'") (Z.of_N (N_of_ascii ch))
  (** An enumerator: of an enumeration declared in IDL it is a constant, of one made by the API it need not be. *)
  | lb_enumerator : forall nm vals e v, disc = TEnum nm 4 vals -> is_ident e = true -> begins "TRUE" e = false -> begins "FALSE" e = false -> e <> "default" -> e <> x ->
      assoc e vals = Some v -> (v < 2 ^ 32)%N -> has_symbol root p e = false \/ (exists n d, find_in n root p consts e = Ok (Some d) /\ is_int d PU32 (Z.of_N v)) -> label_says e (Z.of_N v).
  (** The labels of a case, with blanks or comments behind each of them: their values, and whether the word default is among
      them. *)
  Inductive labels_say : string -> list Z -> bool -> Prop :=
  | ls_none : labels_say "" [] false
  | ls_label : forall L z w r zs d, label_says L z -> gap w -> w <> "" -> labels_say r zs d -> labels_say ("case " ++ L ++ ":" ++ w ++ r) (z :: zs) d
  | ls_default : forall w r zs, has_symbol root p "default" = false -> gap w -> w <> "" -> labels_say r zs false -> labels_say ("default:" ++ w ++ r) zs true.
  (** Cases: labels, annotations, a member. *)
  Variable types : string -> ty -> Prop.
  Variable constants : string -> N -> Prop.
  Inductive cases_say : string -> list ucase -> Prop :=
  | cs_none : cases_say "" []
  | cs_more : forall l zs d a s t y e ds w r cs, labels_say l zs d -> l <> "" -> notes a -> type_says types constants s t -> dims_say constants (2 ^ 32) e ds -> gap w -> cases_say r cs ->
      cases_say (l ++ a ++ s ++ " " ++ y ++ e ++ ";" ++ w ++ r) ((zs, d, (y, array_of t ds)) :: cs).
  (** Between the braces. *)
  Inductive switch_body_says : string -> list ucase -> Prop := switch_led : forall w r cs, gap w -> cases_say r cs -> switch_body_says (w ++ r) cs.
End Labels.
Definition union_text (x d body : string) : string := "union " ++ x ++ " switch (" ++ d ++ ") {" ++ body ++ "}".

(** *** When add_case_member accepts the cases *)
(** A label: in the range of the discriminator, below the value the library reserves for "no label" and, over an enumeration,
    the value of an enumerator. *)
Definition label_allowed (disc : ty) (l : Z) : Prop :=
  (0 <= l < 2 ^ (8 * Z.of_N (msize disc)))%Z /\ (l < 2 ^ 63)%Z /\ l <> default_union_label (msize disc) /\
  match rget disc with TEnum _ sz vals => sz = 4%N /\ is_allowed_value vals (Z.to_N l) = true | _ => True end.
(** A case: a label or default; the first label of the default case is not the value reserved for "no default". *)
Definition case_allowed (disc : ty) (k : ucase) : Prop :=
  (fst (fst k) <> [] \/ snd (fst k) = true) /\ fst (snd k) <> UNION_DISCRIMINATOR /\ Forall (label_allowed disc) (fst (fst k)) /\
  (snd (fst k) = true -> match fst (fst k) with l :: _ => l <> no_default_label disc | [] => True end).
(** The names of the members differ, no label is twice there, and only one case is the default. *)
Definition cases_apart (cs : list ucase) : Prop :=
  NoDup (map (fun k => fst (snd k)) cs) /\ NoDup (List.concat (map (fun k => fst (fst k)) cs)) /\
  (forall k k', In k cs -> In k' cs -> snd (fst k) = true -> snd (fst k') = true -> fst (snd k) = fst (snd k')).
Definition good_union (disc : ty) (cs : list ucase) : Prop := check_discriminator disc = true /\ Forall (case_allowed disc) cs /\ cases_apart cs.
(** The members of a union: the discriminator and those of the cases. *)
Definition case_members (t : ty) : list (string * ty) := match t with TUnion _ _ ms _ _ _ _ => map (fun m => (m_name m, m_type m)) ms | _ => [] end.
