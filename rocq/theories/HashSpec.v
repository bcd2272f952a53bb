(** The hash of an instance as a function of the value it denotes. *)
From Verif Require Import Base Types TypeBuild Mem MemSpec Hash.

(** Types whose hash is a function of the value: no bounded sequence (the code hashes addresses) and no union
    (the code compares a hash with the case labels). *)
Fixpoint hashable (t : ty) : Prop :=
  match t with
  | TPrim _ | TEnum _ _ _ | TStr _ _ => True
  | TArr _ c _ => hashable c
  | TSeq _ bd => bd = 0
  | TMap k v _ | TPair k v => hashable k /\ hashable v
  | TStruct _ _ ms =>
      (fix go (l : list (string * N * ty)) : Prop :=
         match l with [] => True | m :: r => hashable (m_type m) /\ go r end) ms
  | TUnion _ _ _ _ _ _ _ => False
  | TAlias _ a => hashable a
  end.

Definition value_bytes (v : value) : list N := match v with VBytes bs => bs | _ => [] end.
Definition fold_hash (l : list N) : N := match l with [] => 0 | h :: r => fold_left hash_combine r h end.

Section VHash.
  Variable strhash : skind -> list N -> N.
  Fixpoint vhash (t : ty) (v : value) {struct t} : N :=
    match t, v with
    | (TPrim _ | TEnum _ _ _), VBytes bs => hash64 bs
    | TStr k _, VStr s => strhash k s
    | TArr _ c n, VNode l =>
        if n =? 0 then 0
        else if is_constructed_type c then fold_hash (map (vhash c) l) else hash64 (flat_map value_bytes l)
    | TMap k w _, VNode l =>
        fold_hash (map (fun e => match e with VNode [a; c] => hash_combine (vhash k a) (vhash w c) | _ => 0 end) l)
    | TPair x y, VNode [a; c] => hash_combine (vhash x a) (vhash y c)
    | TStruct _ _ ms, VNode l =>
        fold_hash ((fix go (ms : list (string * N * ty)) (l : list value) : list N :=
                      match ms, l with
                      | (_, _, mt) :: r, x :: l' => vhash mt x :: go r l'
                      | _, _ => []
                      end) ms l)
    | TAlias _ a, _ => vhash a v
    | _, _ => 0
    end.
End VHash.
