(** Specification notions used in the statements about is_compatible. *)
From Verif Require Import Base Types Compat.

(** The memory an instance of a type occupies, as a flat list of leaves.  Two types with the same
    list of leaves have the same bytes/objects at the same offsets; names and labels are forgotten. *)
Inductive leaf :=
| LBytes (n : N)                              (* a scalar of n bytes *)
| LStr (k : skind) (bound : N)                (* a string object *)
| LSeq (content : list leaf) (bound : N)      (* a sequence object *)
| LMap (content : list leaf) (bound : N)      (* a map object *)
| LUnion (members : list (list leaf)).        (* discriminator and overlaid members *)

Fixpoint repeat_app {A} (n : nat) (l : list A) : list A :=
  match n with O => [] | S k => l ++ repeat_app k l end.

Fixpoint shape (t : ty) : list leaf :=
  match t with
  | TPrim p => [LBytes (prim_size p)]
  | TEnum _ sz _ => [LBytes sz]
  | TStr k b => [LStr k b]
  | TArr _ c n => repeat_app (N.to_nat n) (shape c)
  | TSeq c b => [LSeq (shape c) b]
  | TMap k v b => [LMap (shape k ++ shape v) b]
  | TPair a b => shape a ++ shape b
  | TStruct _ _ ms =>
      (fix go (l : list (string * N * ty)) : list leaf :=
         match l with [] => [] | m :: r => shape (m_type m) ++ go r end) ms
  | TUnion _ _ ms _ _ _ _ =>
      [LUnion ((fix go (l : list (string * N * ty)) : list (list leaf) :=
         match l with [] => [] | m :: r => shape (m_type m) :: go r end) ms)]
  | TAlias _ a => shape a
  end.

(** Types without enumerations and without one-member structs anywhere inside. *)
Fixpoint plain (t : ty) : bool :=
  match t with
  | TPrim _ | TStr _ _ => true
  | TEnum _ _ _ => false
  | TArr _ c _ | TSeq c _ => plain c
  | TMap a b _ | TPair a b => plain a && plain b
  | TStruct _ _ ms =>
      negb (Nat.eqb (List.length ms) 1) &&
      (fix go (l : list (string * N * ty)) : bool :=
         match l with [] => true | m :: r => plain (m_type m) && go r end) ms
  | TUnion _ _ ms _ _ _ _ =>
      (fix go (l : list (string * N * ty)) : bool :=
         match l with [] => true | m :: r => plain (m_type m) && go r end) ms
  | TAlias _ a => plain a
  end.

(** The verdict for two member lists, as a plain description: NONE if some pair of members at the
    same position is incompatible, otherwise the union of all the pairs' flags, plus
    IGNORE_MEMBER_NAMES when some pair is named differently, plus IGNORE_MEMBERS when the
    numbers of members differ. *)
Definition pair_verdicts (ms oms : list (string * N * ty)) : list (res N) :=
  map (fun p => is_compatible (m_type (fst p)) (m_type (snd p))) (combine ms oms).
Definition verdict_val (r : res N) : N := match r with Ok v => v | Fail _ => NONE end.
Definition members_verdict (ms oms : list (string * N * ty)) : N :=
  let vs := map verdict_val (pair_verdicts ms oms) in
  if existsb (fun v => v =? NONE) vs then NONE
  else N.lor (fold_right N.lor 0 vs)
        (N.lor (if forallb (fun p => String.eqb (m_name (fst p)) (m_name (snd p))) (combine ms oms)
                then 0 else IGNORE_MEMBER_NAMES)
               (if Nat.eqb (List.length ms) (List.length oms) then 0 else IGNORE_MEMBERS)).
