(** The same programs for somebody who thinks of types as plain values: no objects, no
    addresses, no copies; and the two exceptions the code makes to it. *)
From Verif Require Import Base Types TypeBuild TypeHeap.

(** A variable holds a type.  [pointer] tells a DynamicType::Ptr (or a type of a module) from a
    variable of a type class; [next] is the next value of an EnumerationType. *)
Record value := Value { pointer : bool; next : option N; type_of : ty }.

(** The type of a data: its own, or -- the first exception -- the one the pointer variable [i]
    has at the moment. *)
Inductive dtype := Own (t : ty) | Follows (i : nat).

Record vst := Vst { vvars : list (option value); vdatas : list dtype }.

Definition vvar (s : vst) (i : nat) : option value :=
  match nth_error (vvars s) i with Some (Some v) => Some v | _ => None end.
Definition vvar_type (s : vst) (i : nat) : option ty := option_map type_of (vvar s i).
Definition vdata_type (s : vst) (d : nat) : option ty :=
  match nth_error (vdatas s) d with
  | Some (Own t) => Some t
  | Some (Follows i) => vvar_type s i
  | None => None
  end.

Fixpoint part (t : ty) (p : list nat) : option ty :=
  match p with
  | [] => Some t
  | i :: r => match nth_error (kids t) i with Some u => part u r | None => None end
  end.
Definition vobj (s : vst) (o : obj) : option ty :=
  match vvar s (fst o) with Some v => part (type_of v) (snd o) | None => None end.

(** next_value_ of a copy: kept by the copy of a variable, lost -- the second exception -- in what
    a Ptr holds; member and content types have none. *)
Definition vnext (s : vst) (o : obj) : option N :=
  match snd o, vvar s (fst o) with [], Some v => next v | _, _ => None end.

Definition is_alias (t : ty) : bool := match t with TAlias _ _ => true | _ => false end.

(** The data of a type: if the program names a pointer variable itself, its type. *)
Definition vdata (s : vst) (o : obj) (t : ty) : dtype :=
  match snd o, vvar s (fst o) with
  | [], Some v => if pointer v && negb (is_alias t) then Follows (fst o) else Own (rget t)
  | _, _ => Own (rget t)
  end.

Definition vstep (s : vst) (o : op) : vst * res unit :=
  match o with
  | New k args =>
      match all_some (map (vobj s) args) with
      | Some ts =>
          match build k ts with
          | Ok t => (Vst (vvars s ++ [Some (Value false (match k with MEnum _ _ => Some 0 | _ => None end) t)])
                         (vdatas s), Ok tt)
          | Fail e => (s, Fail e)
          end
      | None => (s, Fail UB)
      end
  | Copy o =>
      match vobj s o with
      | Some t => (Vst (vvars s ++ [Some (Value false (vnext s o) t)]) (vdatas s), Ok tt)
      | None => (s, Fail UB)
      end
  | Point o =>
      match vobj s o with
      | Some t => (Vst (vvars s ++ [Some (Value true None t)]) (vdatas s), Ok tt)
      | None => (s, Fail UB)
      end
  | Change i c o =>
      match vvar s i, vobj s o with
      | Some v, Some mt =>
          let (t, r) := changed c (type_of v) mt in
          (Vst (set_nth (vvars s) i (Some (Value (pointer v) (next v) t))) (vdatas s), r)
      | _, _ => (s, Fail UB)
      end
  | Alter i c =>
      match vvar s i with
      | Some v =>
          let '(t, nx, r) := altered c (type_of v) (next v) in
          (Vst (set_nth (vvars s) i (Some (Value (pointer v) nx t))) (vdatas s), r)
      | None => (s, Fail UB)
      end
  | Drop i =>
      match vvar s i with
      | Some v =>
          (Vst (set_nth (vvars s) i None)
               (map (fun d => match d with
                              | Follows j => if Nat.eqb j i then Own (type_of v) else d
                              | Own _ => d
                              end) (vdatas s)), Ok tt)
      | None => (s, Fail UB)
      end
  | Data o =>
      match vobj s o with
      | Some t => (Vst (vvars s) (vdatas s ++ [vdata s o t]), Ok tt)
      | None => (s, Fail UB)
      end
  end.

Fixpoint vrun (s : vst) (p : list op) : vst * list (res unit) :=
  match p with
  | [] => (s, [])
  | o :: r => let (s1, x) := vstep s o in let (s2, xs) := vrun s1 r in (s2, x :: xs)
  end.
Definition vst0 : vst := Vst [] [].
