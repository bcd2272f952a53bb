(** as_vector and items (DynamicData.hpp). *)
From Verif Require Import Base Types TypeBuild Mem Ops.

(** The reads of std::vector<T>(location, location + n): a copy of each T. *)
Definition read_object (x : scalar_ty) (b : block) (off : N) : res scalar :=
  match x with
  | StPrim p => do bs <- read_bytes b off (prim_size p); Ok (ScPrim p bs)
  | StStr k =>
      match at_ b off with
      | CStr k' s => if skind_eqb k k' && intact b off SZ_STRING then Ok (ScStr k s) else Fail UB
      | _ => Fail UB
      end
  end.
Fixpoint read_objects (n : nat) (x : scalar_ty) (b : block) (off : N) : res (list scalar) :=
  match n with O => Ok [] | S n' => do v <- read_object x b off; do r <- read_objects n' x b (off + sizeof x); Ok (v :: r) end.
(** The kind of the content type is the kind of T: an alias has its own kind (DynamicData.hpp:320-327). *)
Definition content_is (c : ty) (x : scalar_ty) : bool :=
  match c, x with TStr k _, StStr k' => skind_eqb k k' | TPrim p, StPrim q => prim_eqb p q | _, _ => false end.
(** The content type of a string (StringType.hpp:39-51, 196-206). *)
Definition char_of (k : skind) : prim := match k with SK8 => PC8 | SKW => PWC | SK16 => PC16 end.
(** as_vector<T>() (DynamicData.hpp:313-331) on the reference ([t], [off] in [b]).  get_instance_at(instance, 0):
    SequenceInstance.hpp:192-198 has a check, ArrayType.hpp:284-289 and StringType.hpp:166-172 have none. *)
Definition as_vector (x : scalar_ty) (t : ty) (b : block) (off : N) : res (list scalar) :=
  match rget t with
  | TArr _ c n => if content_is c x then read_objects (N.to_nat n) x b off else Fail Assert
  | TSeq c _ =>
      if content_is c x then
        match at_ b off with
        | CSeq _ _ size m => if intact b off SZ_SEQ then if 0 <? size then read_objects (N.to_nat size) x m 0 else Fail Assert else Fail UB
        | _ => Fail UB
        end
      else Fail Assert
  | TStr k _ =>
      if content_is (TPrim (char_of k)) x then
        match at_ b off with
        | CStr k' s => if skind_eqb k k' && intact b off SZ_STRING then Ok (map (fun c => ScPrim (char_of k) (le_encode (N.to_nat (prim_size (char_of k))) c)) s) else Fail UB
        | _ => Fail UB
        end
      else Fail Assert
  | _ => Fail Assert
  end.

(** for (auto&& m : ref.items()): items(), begin(), end(), != , ++ and * (DynamicData.hpp:517-622): the member and the
    reference data() in the order in which they are reached; a reference has the type behind the aliases.
    Simplification: the iterators keep a C++ reference to [ref]; here [ref] outlives them (it does not if it is a
    temporary in the head of a range-for). *)
Definition items (t : ty) (b : block) (off : N) : res (list (string * (ty * block * N))) :=
  match rget t with
  | TStruct _ _ ms | TUnion _ _ ms _ _ _ _ => Ok (map (fun m => (m_name m, (rget (m_type m), b, off + m_off m))) ms)
  | _ => Fail Assert
  end.
