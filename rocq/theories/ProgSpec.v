(** What a program over DynamicData variables means: variables hold values, no memory. *)
From Verif Require Import Base Types TypeBuild TypeSpec Mem MemSpec Hash HashSpec MapSpec Ops OpsSpec Prog Compat ConvSpec.

Inductive vvar := VDead | VMoved | VLive (t : ty) (v : value).
Definition vstate := list vvar.
Definition is_live (vs : vstate) (x : nat) : bool := match nth_error vs x with Some (VLive _ _) => true | _ => false end.

Definition fstep_vstep (s : fstep) : vstep :=
  match s with FName nm => VName nm | FGet nm => VGet nm | FIdx i => VIdx i end.
(** Accesses whose keys have been evaluated to a typed value. *)
Inductive rstep := RF (s : fstep) | RKey (T : ty) (kv : value) | RAt (T : ty) (kv : value).
Definition erase (s : rstep) : vstep :=
  match s with RF s => fstep_vstep s | RKey _ kv => VKey kv | RAt _ kv => VAt kv end.
(** Keys have the type of the keys of the map they are used on. *)
Fixpoint keys_fit (p : list rstep) (t : ty) : Prop :=
  match p with
  | [] => True
  | RF (FName nm | FGet nm) :: r =>
      match rget t with
      | TStruct _ _ ms | TUnion _ _ ms _ _ _ _ =>
          match find_member nm ms with Some m => keys_fit r (m_type m) | None => False end
      | _ => False
      end
  | RF (FIdx i) :: r =>
      match rget t with
      | TArr _ c _ | TSeq c _ => keys_fit r c
      | TPair x y => if i =? 0 then keys_fit r x else keys_fit r y
      | TStruct _ _ ms => match nth_error ms (N.to_nat i) with Some m => keys_fit r (m_type m) | None => False end
      | _ => False
      end
  | (RKey T kv | RAt T kv) :: r =>
      match rget t with
      | TMap k v _ => T = rget k /\ vselected k kv /\ entry_ok k v /\ keys_fit r v
      | _ => False
      end
  end.

(** Operations whose operands have been evaluated. *)
Inductive rop :=
| RSet (x : scalar) | RResize (n : N) | RPushVal (x : scalar) | RPush (T : ty) (w : value) | RAssign (T : ty) (w : value)
| RDisc (l : Z) | RInsert (T : ty) (w : value) | RGet (x : scalar_ty) | RSize | RCase | REq (T : ty) (w : value)
| RHasKey (T : ty) (w : value).

(** What the operation requires of the type of the element and of its operands. *)
Definition op_ok (T : ty) (o : rop) : Prop :=
  match o with
  | RSet x => scalar_ok T x
  | RResize _ => match T with TSeq c _ => copy_ok c /\ movable c | _ => False end
  | RPushVal x => match T with TSeq c _ => match c with TPrim _ | TStr _ _ => scalar_ok c x | _ => False end | _ => False end
  | RPush T' w => match T with TSeq c _ => T' = rget c /\ copy_ok c /\ movable c /\ vselected c w | _ => False end
  | RAssign T' w => T' = T /\ copy_ok T /\ vselected T w
  | RDisc _ => True
  | RInsert T' w =>
      match T with TMap k v _ => T' = TPair k v /\ entry_ok k v /\ vselected k (entry_key w) | _ => False end
  | RGet _ | RSize | RCase => True
  | REq T' _ => T' = T /\ nofloat T
  | RHasKey T' w => match T with TMap k v _ => T' = rget k /\ entry_ok k v /\ vselected k w | _ => False end
  end.

Section Spec.
  Variable strhash : skind -> list N -> N.

  (** The result of the operation and the new value of the element. *)
  Definition op_value (T : ty) (o : rop) (v : value) : option (out * value) :=
    let write x := option_map (fun v' => (ONone, v')) x in
    match o with
    | RSet x => write (Some (scalar_value T x))
    | RResize n => match T with TSeq c bd => write (resize_value c bd n v) | _ => None end
    | RPushVal x => match T with TSeq c bd => write (push_value c bd (scalar_value c x) v) | _ => None end
    | RPush _ w => match T with TSeq c bd => write (push_value c bd w v) | _ => None end
    | RAssign _ w => write (Some w)
    | RDisc l => write (disc_value T l v)
    | RInsert _ w => match T with TMap k x bd => insert_value strhash k x bd w v | _ => None end
    | RGet x => asking (read_value T x) v
    | RSize => asking (size_value T) v
    | RCase => asking (case_value T) v
    | REq _ w => asking (fun v => Some (OBool (value_eqb v w))) v
    | RHasKey _ w => match T with TMap k x bd => asking (has_key_value strhash k w) v | _ => None end
    end.

  (** Evaluating a reference yields its type and value (and selects the union members it names). *)
  Inductive vfetch_path : vstate -> nat -> list rstep -> ty -> value -> vstate -> Prop :=
  | vfetch_intro vs y q t v T w v' :
      nth_error vs y = Some (VLive t v) -> keys_fit q t -> path_ty (map erase q) t = Some T ->
      vmod strhash (map erase q) (fun x => Some (x, x)) t v = Some (w, v') ->
      vfetch_path vs y q T w (set_nth y (VLive t v') vs).
  Definition vfetch (vs : vstate) (k : operand) : ty -> value -> vstate -> Prop :=
    vfetch_path vs (fst k) (map RF (snd k)).
  Inductive vresolve : vstate -> list pstep -> list rstep -> vstate -> Prop :=
  | vresolve_nil vs : vresolve vs [] [] vs
  | vresolve_f vs s r q vs' : vresolve vs r q vs' -> vresolve vs (PF s :: r) (RF s :: q) vs'
  | vresolve_key vs k r T kv vs1 q vs' : vfetch vs k T kv vs1 -> vresolve vs1 r q vs' ->
      vresolve vs (PKey k :: r) (RKey T kv :: q) vs'
  | vresolve_at vs k r T kv vs1 q vs' : vfetch vs k T kv vs1 -> vresolve vs1 r q vs' ->
      vresolve vs (PAt k :: r) (RAt T kv :: q) vs'.
  Inductive vsource : vstate -> source -> ty -> value -> vstate -> Prop :=
  | vsource_intro vs y p q vs1 T w vs2 : vresolve vs p q vs1 -> vfetch_path vs1 y q T w vs2 -> vsource vs (y, p) T w vs2.
  Inductive vop : vstate -> op -> rop -> vstate -> Prop :=
  | vop_set vs x : vop vs (OpSet x) (RSet x) vs
  | vop_resize vs n : vop vs (OpResize n) (RResize n) vs
  | vop_pushval vs x : vop vs (OpPushVal x) (RPushVal x) vs
  | vop_push vs y T w vs' : vsource vs y T w vs' -> vop vs (OpPush y) (RPush T w) vs'
  | vop_assign vs y T w vs' : vsource vs y T w vs' -> vop vs (OpAssign y) (RAssign T w) vs'
  | vop_disc vs l : vop vs (OpDisc l) (RDisc l) vs
  | vop_insert vs y T w vs' : vsource vs y T w vs' -> vop vs (OpInsert y) (RInsert T w) vs'
  | vop_get vs x : vop vs (OpGet x) (RGet x) vs
  | vop_size vs : vop vs OpSize RSize vs
  | vop_case vs : vop vs OpCase RCase vs
  | vop_eq vs y T w vs' : vsource vs y T w vs' -> vop vs (OpEq y) (REq T w) vs'
  | vop_has_key vs y T w vs' : vsource vs y T w vs' -> vop vs (OpHasKey y) (RHasKey T w) vs'.
End Spec.

Section Exec.
  Variable fc : prim -> prim -> list N -> list N.
  Variable strhash : skind -> list N -> N.
  (** One statement: what it returns and the variables afterwards. *)
  Inductive exec : vstate -> stmt -> out -> vstate -> Prop :=
  | exec_new vs t : api_type t -> ok_ty t -> exec vs (New t) ONone (vs ++ [VLive (rget t) (default_value t)])
  | exec_copy vs y t v : nth_error vs y = Some (VLive t v) -> copy_ok t -> vselected t v ->
      exec vs (Copy y) ONone (vs ++ [VLive t v])
  | exec_move vs y t v : nth_error vs y = Some (VLive t v) -> copy_ok t ->
      exec vs (Move y) ONone (set_nth y VMoved vs ++ [VLive t v])
  | exec_destroy vs x t v : nth_error vs x = Some (VLive t v) -> exec vs (Destroy x) ONone (set_nth x VDead vs)
  | exec_destroy_moved vs x : nth_error vs x = Some VMoved -> exec vs (Destroy x) ONone (set_nth x VDead vs)
  | exec_assign vs x y t v w : x <> y -> nth_error vs x = Some (VLive t v) -> nth_error vs y = Some (VLive t w) ->
      copy_ok t -> vselected t w -> exec vs (Assign x y) ONone (set_nth x (VLive t w) vs)
  | exec_convert vs y o v t v' c : nth_error vs y = Some (VLive o v) -> api_type t -> ok_ty t ->
      is_compatible (rget t) o = Ok c -> c <> NONE -> converts fc (rget t) o v v' ->
      exec vs (Convert y t) ONone (vs ++ [VLive (rget t) v'])
  | exec_do vs x p o q vs1 r vs2 t v T a v' :
      let us := flat_map step_uses p ++ op_uses o in
      is_live vs x = true -> forallb (fun u => is_live vs (fst u)) us = true -> separate Nat.eqb x us = true ->
      vresolve strhash vs p q vs1 -> vop strhash vs1 o r vs2 ->
      nth_error vs2 x = Some (VLive t v) -> keys_fit q t -> path_ty (map erase q) t = Some T -> op_ok T r ->
      vmod strhash (map erase q) (op_value strhash T r) t v = Some (a, v') ->
      exec vs (Do x p o) a (set_nth x (VLive t v') vs2).
  Inductive execs : vstate -> list stmt -> list out -> vstate -> Prop :=
  | execs_nil vs : execs vs [] [] vs
  | execs_cons vs s a vs1 r l vs2 : exec vs s a vs1 -> execs vs1 r l vs2 -> execs vs (s :: r) (a :: l) vs2.
End Exec.
