(** Vocabulary of the theorems about DynamicData. *)
From Verif Require Import Base Types TypeBuild TypeSpec Mem MemSpec Ops OpsSpec Prog ProgSpec ValueSpec.

(** [d] is a live DynamicData holding the value [v]. *)
Definition holds (d : data) (v : value) : Prop :=
  wf_ty (d_type d) /\ ok_ty (d_type d) /\ rget (d_type d) = d_type d /\
  live (d_type d) (d_mem d) 0 /\ read (d_type d) (d_mem d) 0 = Ok v.

(** Everything is zero or empty; of a union only the active member is looked at. *)
Definition zero_bytes (v : value) : Prop := match v with VBytes bs => Forall (fun x => x = 0) bs | _ => False end.
Fixpoint blank (t : ty) (v : value) {struct t} : Prop :=
  match t with
  | TPrim _ | TEnum _ _ _ => zero_bytes v
  | TStr _ _ => v = VStr []
  | TArr _ c n => match v with VNode l => List.length l = N.to_nat n /\ Forall (blank c) l | _ => False end
  | TSeq _ _ | TMap _ _ _ => v = VNode []
  | TPair x y => match v with VNode [a; c] => blank x a /\ blank y c | _ => False end
  | TStruct _ _ ms =>
      match v with
      | VNode l =>
          (fix go (ms : list (string * N * ty)) (l : list value) : Prop :=
             match ms, l with
             | [], [] => True
             | (_, _, mt) :: r, x :: l' => blank mt x /\ go r l'
             | _, _ => False
             end) ms l
      | _ => False
      end
  | TUnion _ _ ms labels _ _ _ =>
      match ms, v with
      | (_, _, disc) :: _, VUnion dv None =>
          exists l, label_of disc dv = Some l /\ lookup_label l labels = None
      | (_, _, disc) :: _, VUnion dv (Some w) =>
          exists l nm, label_of disc dv = Some l /\ lookup_label l labels = Some nm /\
            (fix go (x : list (string * N * ty)) : Prop :=
               match x with
               | [] => False
               | (mn, _, mt) :: r => if String.eqb nm mn then blank mt w else go r
               end) ms
      | _, _ => False
      end
  | TAlias _ a => blank a v
  end.

(** Variable [x] of a program is alive and holds [v]. *)
Definition var_holds (st : state) (x : nat) (t : ty) (v : value) : Prop :=
  exists u b, nth_error (vars st) x = Some (Some u) /\ v_ty u = t /\ v_init u = true /\
    nth_error (heap st) (v_id u) = Some (Some b) /\ holds (mkData t b) v.
(** No two variables of the program share their memory. *)
Definition unshared (st : state) : Prop :=
  forall x y u w, nth_error (vars st) x = Some (Some u) -> nth_error (vars st) y = Some (Some w) -> v_id u = v_id w -> x = y.
(** The variables a statement names. *)
Definition mentions (s : stmt) : list nat :=
  match s with
  | New _ => []
  | Copy y | Move y | Convert y _ | FromRef y | Destroy y => [y]
  | Assign x y => [x; y]
  | Do x p o => x :: map fst (flat_map step_uses p ++ op_uses o)
  end.

(** No union anywhere. *)
Fixpoint union_free (t : ty) : Prop :=
  match t with
  | TPrim _ | TStr _ _ | TEnum _ _ _ => True
  | TArr _ c _ | TSeq c _ => union_free c
  | TMap k v _ | TPair k v => union_free k /\ union_free v
  | TStruct _ _ ms =>
      (fix go (l : list (string * N * ty)) : Prop :=
         match l with [] => True | m :: r => union_free (m_type m) /\ go r end) ms
  | TUnion _ _ _ _ _ _ _ => False
  | TAlias _ a => union_free a
  end.
(** Only numbers, characters and enumerations, in arrays, pairs and structs. *)
Fixpoint scalar_only (t : ty) : Prop :=
  match t with
  | TPrim _ | TEnum _ _ _ => True
  | TStr _ _ | TSeq _ _ | TMap _ _ _ | TUnion _ _ _ _ _ _ _ => False
  | TArr _ c _ => scalar_only c
  | TPair k v => scalar_only k /\ scalar_only v
  | TStruct _ _ ms =>
      (fix go (l : list (string * N * ty)) : Prop :=
         match l with [] => True | m :: r => scalar_only (m_type m) /\ go r end) ms
  | TAlias _ a => scalar_only a
  end.
