(** Type compatibility: every override of DynamicType::is_compatible. *)
From Verif Require Import Base Types.

(** TypeConsistency (include/xtypes/TypeConsistency.hpp:29-60): a bitset on int;
    NONE = ~0 is the 32-bit all-ones pattern, [|] is bitwise or (62-66). *)
Definition NONE : N := 4294967295.
Definition EQUALS : N := 0.
Definition IGNORE_TYPE_SIGN : N := 1.
Definition IGNORE_TYPE_WIDTH : N := 2.
Definition IGNORE_SEQUENCE_BOUNDS : N := 4.
Definition IGNORE_ARRAY_BOUNDS : N := 8.
Definition IGNORE_STRING_BOUNDS : N := 16.
Definition IGNORE_MEMBER_NAMES : N := 32.
Definition IGNORE_MEMBERS : N := 64.
Definition IGNORE_MAP_BOUNDS : N := 128.

(** Loop over the members of two aggregations
    (StructType.hpp:209-238, UnionType.hpp:387-416): NONE short-circuits, a shorter
    list on either side adds IGNORE_MEMBERS, different names add IGNORE_MEMBER_NAMES. *)
Fixpoint compat_members (rec : ty -> ty -> res N)
    (ms oms : list (string * N * ty)) (acc : N) : res N :=
  match ms, oms with
  | [], [] => Ok acc
  | [], _ :: _ => Ok (N.lor acc IGNORE_MEMBERS)
  | _ :: _, [] => Ok (N.lor acc IGNORE_MEMBERS)
  | m :: r, om :: omr =>
      do c <- rec (m_type m) (m_type om);
      if c =? NONE then Ok NONE
      else
        let acc := if String.eqb (m_name m) (m_name om) then acc
                   else N.lor acc IGNORE_MEMBER_NAMES in
        compat_members rec r omr (N.lor acc c)
  end.

(** One virtual call this->is_compatible(other); [rec] stands for the nested virtual calls. *)
Definition compat_body (rec : ty -> ty -> res N) (t o : ty) : res N :=
  match t with
  (* PrimitiveType.hpp:227-262 *)
  | TPrim p =>
      match o with
      | TAlias _ _ => rec o t                     (* other_alias.is_compatible( *this ) *)
      | TStruct _ _ _ => rec o t
      | _ =>
          if negb (is_primitive_type o) then Ok NONE
          else if kind t =? kind o then Ok EQUALS
          else
            let c := EQUALS in
            let c := if msize t =? msize o then c else N.lor c IGNORE_TYPE_WIDTH in
            let c := if N.land (kind t) K_UNSIGNED =? N.land (kind o) K_UNSIGNED
                     then c else N.lor c IGNORE_TYPE_SIGN in
            Ok c
      end
  (* EnumeratedType.hpp:82-122 *)
  | TEnum _ _ _ =>
      match o with
      | TAlias _ _ => rec t (rget o)
      | TStruct _ _ _ => rec o t
      | _ =>
          if is_enumerated_type o then
            (if msize t =? msize o then Ok EQUALS else Ok IGNORE_TYPE_WIDTH)
          else if negb (is_primitive_type o) then Ok NONE
          else
            let c := EQUALS in
            let c := if msize t =? msize o then c else N.lor c IGNORE_TYPE_WIDTH in
            let c := if N.land (kind o) K_UNSIGNED =? 0 then N.lor c IGNORE_TYPE_SIGN else c in
            Ok c
      end
  (* StringType.hpp:123-150 *)
  | TStr k b =>
      match o with
      | TAlias _ _ => rec t (rget o)
      | TStruct _ _ _ => rec o t
      | TStr k' b' =>
          if skind_eqb k k' then
            (if b =? b' then Ok EQUALS else Ok IGNORE_STRING_BOUNDS)
          else Ok NONE
      | _ => Ok NONE
      end
  (* ArrayType.hpp:231-260 *)
  | TArr _ c n =>
      match o with
      | TAlias _ _ => rec t (rget o)
      | TStruct _ _ _ => rec o t
      | TArr _ c' n' =>
          do x <- rec c c';
          if n =? n' then Ok (N.lor EQUALS x) else Ok (N.lor IGNORE_ARRAY_BOUNDS x)
      | _ => Ok NONE
      end
  (* SequenceType.hpp:154-183 *)
  | TSeq c b =>
      match o with
      | TAlias _ _ => rec t (rget o)
      | TStruct _ _ _ => rec o t
      | TSeq c' b' =>
          do x <- rec c c';
          if b =? b' then Ok (N.lor EQUALS x) else Ok (N.lor IGNORE_SEQUENCE_BOUNDS x)
      | _ => Ok NONE
      end
  (* MapType.hpp:167-196, content_type() being the PairType *)
  | TMap k v b =>
      match o with
      | TAlias _ _ => rec t (rget o)
      | TStruct _ _ _ => rec o t
      | TMap k' v' b' =>
          do x <- rec (TPair k v) (TPair k' v');
          if b =? b' then Ok (N.lor EQUALS x) else Ok (N.lor IGNORE_MAP_BOUNDS x)
      | _ => Ok NONE
      end
  (* PairType.hpp:157-174: no one-member-struct rule *)
  | TPair a b =>
      match o with
      | TAlias _ _ => rec t (rget o)
      | TPair a' b' =>
          do x <- rec a a'; do y <- rec b b'; Ok (N.lor x y)
      | _ => Ok NONE
      end
  (* StructType.hpp:188-239 *)
  | TStruct _ _ ms =>
      match o with
      | TAlias _ _ => rec t (rget o)
      | _ =>
          match ms with
          | [m] => rec o (m_type m)
          | _ =>
              match o with
              | TStruct _ _ oms => compat_members rec ms oms EQUALS
              | _ => Ok NONE
              end
          end
      end
  (* UnionType.hpp:366-417: labels are not compared *)
  | TUnion _ _ ms _ _ _ _ =>
      match o with
      | TAlias _ _ => rec t (rget o)
      | TStruct _ _ _ => rec o t
      | TUnion _ _ oms _ _ _ _ => compat_members rec ms oms EQUALS
      | _ => Ok NONE
      end
  (* AliasType.hpp:113-128 *)
  | TAlias _ a =>
      match o with
      | TAlias _ _ => do x <- rec (rget t) (rget o); Ok (N.lor EQUALS x)
      | _ => rec (rget t) o
      end
  end.

Fixpoint compat_f (fuel : nat) (t o : ty) : res N :=
  match fuel with
  | O => Fail Loop
  | S n => compat_body (compat_f n) t o
  end.

(** Number of nodes of a type, used only to supply enough fuel. *)
Fixpoint tsize (t : ty) : nat :=
  match t with
  | TPrim _ | TEnum _ _ _ | TStr _ _ => 1
  | TArr _ c _ => S (tsize c)
  | TSeq c _ => S (tsize c)
  | TMap k v _ => S (S (tsize k + tsize v))
  | TPair a b => S (tsize a + tsize b)
  | TStruct _ _ ms =>
      S ((fix go (l : list (string * N * ty)) : nat :=
            match l with [] => O | (_, _, m) :: r => (tsize m + go r)%nat end) ms)
  | TUnion _ _ ms _ _ _ _ =>
      S ((fix go (l : list (string * N * ty)) : nat :=
            match l with [] => O | (_, _, m) :: r => (tsize m + go r)%nat end) ms)
  | TAlias _ a => S (tsize a)
  end.

(** t.is_compatible(o).  [CompatFacts.is_compatible_total] shows the fuel always suffices and
    [CompatFacts.is_compatible_eq] that the result satisfies the recursive equations of the code. *)
Definition is_compatible (t o : ty) : res N :=
  compat_f (2 * (tsize t + tsize o) + 2) t o.
