(** Programs over DynamicData variables: a heap of instance blocks, variables that own one block each. *)
From Verif Require Import Base Types TypeBuild Compat Mem Hash MapOps Ops.

(** Accesses without keys; an operand is such a chain of accesses on a variable; accesses with keys. *)
Inductive fstep := FName (nm : string) | FGet (nm : string) | FIdx (i : N).
Definition operand : Type := nat * list fstep.
Inductive pstep := PF (s : fstep) | PKey (k : operand) | PAt (k : operand).
Definition source : Type := nat * list pstep.

(** Member functions called on a reference; a [source] is another reference. *)
Inductive op :=
| OpSet (x : scalar)          (* ref.value(x) / ref = x *)
| OpResize (n : N)            (* ref.resize(n) *)
| OpPushVal (x : scalar)      (* ref.push(x) *)
| OpPush (y : source)         (* ref.push(other) *)
| OpAssign (y : source)       (* ref = other *)
| OpDisc (l : Z)              (* ref.d(l) *)
| OpInsert (y : source)       (* ref.insert(pair) *)
| OpGet (x : scalar_ty)       (* ref.value<T>() *)
| OpSize                      (* ref.size() *)
| OpCase                      (* ref.current_case().name() *)
| OpEq (y : source)           (* ref == other *)
| OpHasKey (y : source).      (* ref.has_key(other) *)

(** Statements; the constructors of DynamicData create a new variable. *)
Inductive stmt :=
| New (t : ty)                             (* DynamicData x(t) *)
| Copy (y : nat)                           (* DynamicData x(y) *)
| Move (y : nat)                           (* DynamicData x(std::move(y)) *)
| Convert (y : nat) (t : ty)               (* DynamicData x(y, t) *)
| FromRef (y : nat)                        (* DynamicData x(y.ref()) *)
| Destroy (x : nat)                        (* end of the lifetime of x *)
| Assign (x y : nat)                       (* x = y *)
| Do (x : nat) (p : list pstep) (o : op).  (* x[p1][p2]... .o *)

(** The data members of a DynamicData (DynamicData.hpp:494-622): type_, the block instance_ points to,
    initialize_. *)
Record var := mkVar { v_ty : ty; v_id : nat; v_init : bool }.
(** Blocks ([None]: deleted) and variables ([None]: destroyed). *)
Record state := mkSt { heap : list (option block); vars : list (option var) }.

Fixpoint set_nth {A} (n : nat) (x : A) (l : list A) : list A :=
  match n, l with
  | _, [] => []
  | O, _ :: r => x :: r
  | S k, y :: r => y :: set_nth k x r
  end.

Definition lookup (st : state) (x : nat) : res var :=
  match nth_error (vars st) x with Some (Some v) => Ok v | _ => Fail UB end.
Definition block_of (st : state) (v : var) : res block :=
  match nth_error (heap st) (v_id v) with Some (Some b) => Ok b | _ => Fail UB end.
Definition put_block (st : state) (v : var) (b : block) : state := mkSt (set_nth (v_id v) (Some b) (heap st)) (vars st).
(** A new variable with a new block (new uint8_t[memory_size]). *)
Definition add_var (st : state) (t : ty) (b : block) : state :=
  mkSt (heap st ++ [Some b]) (vars st ++ [Some (mkVar t (List.length (heap st)) true)]).

Definition fstep_step (s : fstep) : step :=
  match s with FName nm => SName nm | FGet nm => SGet nm | FIdx i => SIdx i end.

(** The variables a statement reads, with "is the whole variable". *)
Definition whole {A} (l : list A) : bool := match l with [] => true | _ => false end.
Definition step_uses (s : pstep) : list (nat * bool) :=
  match s with PF _ => [] | PKey k | PAt k => [(fst k, whole (snd k))] end.
Definition source_uses (y : source) : list (nat * bool) := flat_map step_uses (snd y) ++ [(fst y, whole (snd y))].
Definition op_uses (o : op) : list (nat * bool) :=
  match o with
  | OpPush y | OpAssign y | OpInsert y | OpEq y | OpHasKey y => source_uses y
  | _ => []
  end.
(** No use is the target [x], two uses of the same thing only use the whole. *)
Fixpoint separate {A} (eqb : A -> A -> bool) (x : A) (us : list (A * bool)) : bool :=
  match us with
  | [] => true
  | (y, w) :: r => negb (eqb x y) && forallb (fun u => negb (eqb y (fst u)) || w && snd u) r && separate eqb x r
  end.
Definition id_of (st : state) (x : nat) : option nat :=
  match nth_error (vars st) x with Some (Some v) => Some (v_id v) | _ => None end.
Definition opt_eqb (x y : option nat) : bool :=
  match x, y with Some a, Some b => Nat.eqb a b | None, None => true | _, _ => false end.

Section Prog.
  Variable fc : prim -> prim -> list N -> list N.
  Variable strhash : skind -> list N -> N.

  (** Evaluate a reference: its type, the memory it points into and the offset there. *)
  Definition fetch_path (st : state) (y : nat) (p : list step) : res ((ty * block * N) * state) :=
    do v <- lookup st y; do b <- block_of st v;
    do r <- on_path fc strhash p (fun t m off => Ok ((t, m, off), m)) (v_ty v) b 0;
    Ok (fst r, put_block st v (snd r)).
  Definition fetch (st : state) (k : operand) : res ((ty * block * N) * state) :=
    fetch_path st (fst k) (map fstep_step (snd k)).
  (** Evaluate the keys of a chain of accesses. *)
  Fixpoint resolve (st : state) (p : list pstep) : res (list step * state) :=
    match p with
    | [] => Ok ([], st)
    | PF s :: r => do x <- resolve st r; Ok (fstep_step s :: fst x, snd x)
    | PKey k :: r =>
        do y <- fetch st k;
        do x <- resolve (snd y) r;
        Ok (SKey (snd (fst (fst y))) (snd (fst y)) :: fst x, snd x)
    | PAt k :: r =>
        do y <- fetch st k;
        do x <- resolve (snd y) r;
        Ok (SAt (snd (fst (fst y))) (snd (fst y)) :: fst x, snd x)
    end.
  Definition fetch_source (st : state) (y : source) : res ((ty * block * N) * state) :=
    do p <- resolve st (snd y); fetch_path (snd p) (fst y) (fst p).

  (** ref = other: the reference checks nothing (DynamicData.hpp:819-825); a DynamicData on the left requires
      EQUALS (DynamicData.hpp:1384-1405). *)
  Definition assign_op (top : bool) (r : ty * block * N) (t : ty) (b : block) (off : N) : res block :=
    let '(ot, ob, oo) := r in
    if top
    then do c <- is_compatible t ot; if c =? EQUALS then assign_from fc ob oo t b off else Fail Assert
    else assign_from fc ob oo t b off.
  (** The effect of an operation on the reference it is called on, its operands being evaluated. *)
  Definition op_fun (st : state) (top : bool) (o : op) : res ((ty -> block -> N -> res (out * block)) * state) :=
    match o with
    | OpSet x => Ok (writing (set_value fc x), st)
    | OpResize n => Ok (writing (resize fc n), st)
    | OpPushVal x => Ok (writing (push_scalar fc x), st)
    | OpPush y => do r <- fetch_source st y; Ok (writing (push fc (snd (fst (fst r))) (snd (fst r))), snd r)
    | OpAssign y => do r <- fetch_source st y; Ok (writing (assign_op top (fst r)), snd r)
    | OpDisc l => Ok (writing (set_disc l), st)
    | OpInsert y =>
        do r <- fetch_source st y;
        Ok (insert_pair fc strhash (fst (fst (fst r))) (snd (fst (fst r))) (snd (fst r)), snd r)
    | OpGet x => Ok (reading (get_scalar x), st)
    | OpSize => Ok (reading get_size, st)
    | OpCase => Ok (reading get_case, st)
    | OpEq y =>
        do r <- fetch_source st y;
        Ok (reading (ref_eq (fst (fst (fst r))) (snd (fst (fst r))) (snd (fst r))), snd r)
    | OpHasKey y =>
        do r <- fetch_source st y;
        Ok (reading (has_key strhash (fst (fst (fst r))) (snd (fst (fst r))) (snd (fst r))), snd r)
    end.

  (** One statement.  Simplification: a statement whose operands are in the same block as its target, or that
      uses parts of one block twice, is not modelled ([Fail UB]): the order of evaluation would matter. *)
  Definition run_stmt (st : state) (s : stmt) : res (out * state) :=
    match s with
    | New t => do d <- new_data t; Ok (ONone, add_var st (d_type d) (d_mem d))
    | Copy y =>
        do v <- lookup st y; do b <- block_of st v;
        do d <- copy_data fc (mkData (v_ty v) b); Ok (ONone, add_var st (d_type d) (d_mem d))
    | Move y =>
        do v <- lookup st y; do b <- block_of st v;
        do d <- move_data fc (mkData (v_ty v) b);
        let st1 := mkSt (heap st) (set_nth y (Some (mkVar (v_ty v) (v_id v) false)) (vars st)) in
        Ok (ONone, add_var st1 (d_type d) (d_mem d))
    | Convert y t =>
        do v <- lookup st y; do b <- block_of st v;
        do d <- convert_data fc (mkData (v_ty v) b) t; Ok (ONone, add_var st (d_type d) (d_mem d))
    | FromRef y =>                            (* DynamicData.hpp:1333-1346: the pointer is copied *)
        do v <- lookup st y;
        Ok (ONone, mkSt (heap st) (vars st ++ [Some (mkVar (v_ty v) (v_id v) true)]))
    | Destroy x =>                            (* DynamicData.hpp:1590-1597 *)
        do v <- lookup st x; do b <- block_of st v;
        do _ <- (if v_init v then destroy_data (mkData (v_ty v) b) else Ok b);
        Ok (ONone, mkSt (set_nth (v_id v) None (heap st)) (set_nth x None (vars st)))
    | Assign x y =>
        do v <- lookup st x; do b <- block_of st v;
        do w <- lookup st y; do c <- block_of st w;
        do d <- (if Nat.eqb (v_id v) (v_id w) then assign_self fc (mkData (v_ty v) b)
                 else assign_data fc (mkData (v_ty v) b) (mkData (v_ty w) c));
        Ok (ONone, put_block st v (d_mem d))
    | Do x p o =>
        if separate opt_eqb (id_of st x) (map (fun u => (id_of st (fst u), snd u)) (flat_map step_uses p ++ op_uses o))
        then
          do q <- resolve st p;
          do f <- op_fun (snd q) (whole p) o;
          do v <- lookup (snd f) x; do b <- block_of (snd f) v;
          do r <- run_on fc strhash (mkData (v_ty v) b) (fst q) (fst f);
          Ok (fst r, put_block (snd f) v (d_mem (snd r)))
        else Fail UB
    end.
  Fixpoint run (st : state) (prog : list stmt) : res (list out * state) :=
    match prog with
    | [] => Ok ([], st)
    | s :: r => do x <- run_stmt st s; do y <- run (snd x) r; Ok (fst x :: fst y, snd y)
    end.
End Prog.
Definition no_vars : state := mkSt [] [].
