(** Values of a type, positions inside a value. *)
From Verif Require Import Base Types TypeBuild Mem MemSpec Ops OpsSpec.

(** [v] is a value of type [t]: the shape is the one of the type, numbers are bytes, strings, sequences and maps are
    within their bounds, a union has exactly the member its discriminator selects. *)
Fixpoint wf_value (t : ty) (v : value) {struct t} : Prop :=
  match t with
  | TPrim p => match v with VBytes bs => N.of_nat (List.length bs) = prim_size p /\ Forall (fun x => x < 256) bs | _ => False end
  | TEnum _ sz _ => match v with VBytes bs => N.of_nat (List.length bs) = sz /\ Forall (fun x => x < 256) bs | _ => False end
  | TStr _ bd => match v with VStr s => bd = 0 \/ N.of_nat (List.length s) <= bd | _ => False end
  | TArr _ c n => match v with VNode l => N.of_nat (List.length l) = n /\ Forall (wf_value c) l | _ => False end
  | TSeq c bd => match v with VNode l => (bd = 0 \/ N.of_nat (List.length l) <= bd) /\ Forall (wf_value c) l | _ => False end
  | TMap k w bd =>
      match v with
      | VNode l => (bd = 0 \/ N.of_nat (List.length l) <= bd) /\
          Forall (fun e => match e with VNode [x; y] => wf_value k x /\ wf_value w y | _ => False end) l
      | _ => False
      end
  | TPair x y => match v with VNode [a; c] => wf_value x a /\ wf_value y c | _ => False end
  | TStruct _ _ ms =>
      match v with
      | VNode l =>
          (fix go (ms : list (string * N * ty)) (l : list value) : Prop :=
             match ms, l with
             | [], [] => True
             | (_, _, mt) :: r, x :: l' => wf_value mt x /\ go r l'
             | _, _ => False
             end) ms l
      | _ => False
      end
  | TUnion _ _ ms labels _ _ _ =>
      match ms, v with
      | (_, _, disc) :: _, VUnion dv mv =>
          wf_value disc dv /\
          exists l, label_of disc dv = Some l /\
            match lookup_label l labels with
            | None => mv = None
            | Some nm =>
                match mv with
                | None => False
                | Some w =>
                    (fix go (x : list (string * N * ty)) : Prop :=
                       match x with
                       | [] => False
                       | (mn, _, mt) :: r => if String.eqb nm mn then wf_value mt w else go r
                       end) ms
                end
            end
      | _, _ => False
      end
  | TAlias _ a => wf_value a v
  end.

(** The element at a position (list of indices). *)
Fixpoint elem (ns : list nat) (v : value) : option value :=
  match ns, v with
  | [], _ => Some v
  | i :: r, VNode l => match nth_error l i with Some x => elem r x | None => None end
  | _, _ => None
  end.
(** The position a chain of member and element accesses denotes (no unions, no map keys). *)
Fixpoint position (q : list vstep) (t : ty) : option (list nat) :=
  match q with
  | [] => Some []
  | (VName nm | VGet nm) :: r =>
      match rget t with
      | TStruct _ _ ms =>
          match member_index nm ms, find_member nm ms with
          | Some i, Some m => option_map (cons i) (position r (m_type m))
          | _, _ => None
          end
      | _ => None
      end
  | VIdx i :: r =>
      match rget t with
      | TArr _ c _ | TSeq c _ => option_map (cons (N.to_nat i)) (position r c)
      | TPair x y =>
          if i =? 0 then option_map (cons 0%nat) (position r x)
          else if i =? 1 then option_map (cons 1%nat) (position r y) else None
      | TStruct _ _ ms =>
          match nth_error ms (N.to_nat i) with Some m => option_map (cons (N.to_nat i)) (position r (m_type m)) | None => None end
      | _ => None
      end
  | _ => None
  end.
(** Neither position is inside the other. *)
Fixpoint disjoint_pos (p q : list nat) : Prop :=
  match p, q with
  | i :: p', j :: q' => i <> j \/ disjoint_pos p' q'
  | _, _ => False
  end.
