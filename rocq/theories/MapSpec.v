(** Maps as lists of entries [VNode [key; value]]: the specification of lookup and insertion on values. *)
From Verif Require Import Base Types TypeBuild Mem MemSpec Hash HashSpec.

Fixpoint value_eqb (x y : value) : bool :=
  match x, y with
  | VBytes a, VBytes b | VStr a, VStr b => bytes_eqb a b
  | VNode a, VNode b =>
      (fix go (a b : list value) : bool :=
         match a, b with
         | [], [] => true
         | x :: a', y :: b' => value_eqb x y && go a' b'
         | _, _ => false
         end) a b
  | VUnion d None, VUnion d' None => value_eqb d d'
  | VUnion d (Some m), VUnion d' (Some m') => value_eqb d d' && value_eqb m m'
  | _, _ => false
  end.

Definition entry_key (e : value) : value := match e with VNode (k :: _) => k | _ => VNode [] end.
Definition entry_value (e : value) : value := match e with VNode [_; v] => v | _ => VNode [] end.
Definition entry (k v : value) : value := VNode [k; v].

(** Position of the entry of key [kv]. *)
Fixpoint key_pos (kv : value) (l : list value) : option nat :=
  match l with
  | [] => None
  | e :: r => if value_eqb (entry_key e) kv then Some O else option_map S (key_pos kv r)
  end.
(** The value associated to a key. *)
Definition map_get (kv : value) (l : list value) : option value :=
  match key_pos kv l with Some i => option_map entry_value (nth_error l i) | None => None end.

Definition insert_at {A} (p : nat) (x : A) (l : list A) : list A := firstn p l ++ x :: skipn p l.

Section Order.
  Variable strhash : skind -> list N -> N.
  Variable k : ty.     (* the type of the keys *)
  Definition khash (e : value) : N := vhash strhash k (entry_key e).
  (** Entries are kept in increasing order of the hash of their key. *)
  Fixpoint ordered (l : list value) : bool :=
    match l with
    | [] => true
    | e :: r => match r with [] => true | e' :: _ => (khash e <? khash e') && ordered r end
    end.
  Fixpoint lower_bound (h : N) (l : list value) : nat :=
    match l with [] => O | e :: r => if khash e <? h then S (lower_bound h r) else O end.
  (** Another key has the same hash. *)
  Definition collides (kv : value) (l : list value) : bool :=
    existsb (fun e => khash e =? vhash strhash k kv) l.
  (** The entries after [kv] (absent) has been added with value [w]. *)
  Definition add_entry (kv w : value) (l : list value) : list value :=
    insert_at (lower_bound (vhash strhash k kv) l) (entry kv w) l.
End Order.
