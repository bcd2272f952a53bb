(** What a compatible copy should produce.  [converts t o v v']: an instance of [o] with the value [v], copied into a new
    instance of [t], becomes [v'].  The relation is empty where the code is known to misbehave (PropConvert lists
    these cases); [convertible] collects the conditions on the two types alone. *)
From Verif Require Import Base Types Mem MemSpec.

(** Aliases are looked through, and a struct with one member stands for that member. *)
Fixpoint bare (o : ty) (v : value) : ty * value :=
  match o with
  | TAlias _ a => bare a v
  | TStruct _ _ [(_, _, m)] => match v with VNode [w] => bare m w | _ => (o, v) end
  | _ => (o, v)
  end.
Definition at_most {A} (bd : N) (l : list A) : list A := if bd =? 0 then l else firstn (N.to_nat bd) l.
(** Scalars whose conversion leaves the bytes alone: the same type, or two integer types of one width. *)
Definition integer (p : prim) : bool := negb (is_float p) && negb (prim_eqb p PBool).
Definition bytewise (p q : prim) : Prop := p = q \/ (integer p = true /\ integer q = true).
(** The elements of arrays and sequences of a primitive type are copied as raw bytes if the sizes are equal; that is a
    conversion only in these cases. *)
Definition elements_ok (c c' : ty) : Prop :=
  match c with
  | TPrim q =>
      msize c = msize c' ->
      match strip1 c' with
      | TPrim p => bytewise p q
      | TEnum _ sz _ => sz = 4 /\ bytewise PU32 q
      | _ => False
      end
  | _ => True
  end.

Section Converts.
  Variable fc : prim -> prim -> list N -> list N.
  (** A scalar read as a [q].  An enumeration must have 4 bytes. *)
  Definition scalar_converts (q : prim) (o : ty) (v v' : value) : Prop :=
    match bare o v with
    | (TPrim p, VBytes bs) => v' = VBytes (convert fc p q bs)
    | (TEnum _ sz _, VBytes bs) => sz = 4 /\ v' = VBytes (convert fc PU32 q bs)
    | _ => False
    end.
  Fixpoint converts (t o : ty) (v v' : value) {struct t} : Prop :=
    match t with
    | TAlias _ a => converts a o v v'
    | TPrim q => scalar_converts q o v v'
    | TEnum _ sz _ => scalar_converts (enum_prim sz) o v v'
    | TStr k bd => match bare o v with (TStr k' _, VStr s) => k = k' /\ v' = VStr (at_most bd s) | _ => False end
    | TArr _ c n =>
        match bare o v, v' with
        | (TArr _ c' n', VNode l), VNode l' =>
            n <= n' /\ elements_ok c c' /\ Forall2 (converts c c') (firstn (N.to_nat n) l) l'
        | _, _ => False
        end
    | TSeq c bd =>
        match bare o v, v' with
        | (TSeq c' bd', VNode l), VNode l' =>
            (bd = 0 -> bd' = 0 /\ (msize c <= msize c' \/ 2 * N.of_nat (List.length l) * msize c < 4294967296)) /\
            elements_ok c c' /\ Forall2 (converts c c') (at_most bd l) l'
        | _, _ => False
        end
    | TMap k w bd =>
        match bare o v with
        | (TMap k' w' bd', VNode l) => k' = k /\ w' = w /\ cf_ok k /\ cf_ok w /\ (bd = 0 -> bd' = 0) /\ v' = VNode (at_most bd l)
        | _ => False
        end
    | TPair x y =>
        match bare o v, v' with
        | (TPair x' y', VNode [a; c]), VNode [a'; c'] => msize x = msize x' /\ converts x x' a a' /\ converts y y' c c'
        | _, _ => False
        end
    | TStruct _ _ ms =>
        match v' with
        | VNode l' =>
            match rget o, v with
            | TStruct _ _ oms, VNode l =>
                (* member by member; one missing member takes its default, further members of the source are ignored *)
                (fix go (ms oms : list (string * N * ty)) (l l' : list value) {struct ms} : Prop :=
                   match ms, oms, l, l' with
                   | [], _, _, [] => True
                   | (_, _, mt) :: r, (_, _, ot) :: orest, x :: lr, x' :: lr' => converts mt ot x x' /\ go r orest lr lr'
                   | [(_, _, mt)], [], [], [x'] => x' = default_value mt
                   | _, _, _, _ => False
                   end) ms oms l l'
            | TStruct _ _ _, _ => False
            | o', _ => match ms, l' with [(_, _, mt)], [x'] => converts mt o' v x' | _, _ => False end
            end
        | _ => False
        end
    | TUnion _ _ _ _ _ _ _ => o = t /\ cf_ok t /\ v' = v
    end.
End Converts.

(** The conditions on the types. *)
Fixpoint convertible (t o : ty) {struct t} : Prop :=
  match t with
  | TAlias _ a => convertible a o
  | TPrim _ | TEnum _ _ _ => match strip1 o with TPrim _ => True | TEnum _ sz _ => sz = 4 | _ => False end
  | TStr k _ => match strip1 o with TStr k' _ => k = k' | _ => False end
  | TArr _ c n => match strip1 o with TArr _ c' n' => n <= n' /\ elements_ok c c' /\ convertible c c' | _ => False end
  | TSeq c bd =>
      match strip1 o with
      | TSeq c' bd' => (bd = 0 -> bd' = 0 /\ msize c <= msize c') /\ elements_ok c c' /\ convertible c c'
      | _ => False
      end
  | TMap k w bd => match strip1 o with TMap k' w' bd' => k' = k /\ w' = w /\ cf_ok k /\ cf_ok w /\ (bd = 0 -> bd' = 0) | _ => False end
  | TPair x y => match strip1 o with TPair x' y' => msize x = msize x' /\ convertible x x' /\ convertible y y' | _ => False end
  | TStruct _ _ ms =>
      match rget o with
      | TStruct _ _ oms =>
          (fix go (ms oms : list (string * N * ty)) {struct ms} : Prop :=
             match ms, oms with
             | [], _ => True
             | (_, _, mt) :: r, (_, _, ot) :: orest => convertible mt ot /\ go r orest
             | [_], [] => True
             | _, [] => False
             end) ms oms
      | o' => match ms with [(_, _, mt)] => convertible mt o' | _ => False end
      end
  | TUnion _ _ _ _ _ _ _ => o = t /\ cf_ok t
  end.
