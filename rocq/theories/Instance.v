(** Parser::instance and Parser::destroy under interleaving (idl/parser.hpp:496-512). *)
From Verif Require Import Base.

(** Where a thread is.  A thread calls instance(create) or destroy(), one call after the other. *)
Inductive pc :=
| Idle                     (* not in a call *)
| Entered (create : bool)  (* about to evaluate  !instance_ && create  (498) *)
| Missing                  (* found null and create: about to lock mtx_ (500) *)
| Creating                 (* holds mtx_: about to assign instance_ (501) *)
| Reading                  (* about to copy instance_ for the result (504) *)
| Destroying               (* destroy(): about to lock mtx_ (509) *)
| Resetting.               (* holds mtx_: about to reset instance_ (510) *)
(** The static members and the threads; [made] counts the parsers made, their identities are the numbers below it;
    [results]: what the calls of instance() returned, the latest first. *)
Record shared := mkShared { inst : option nat; holder : option nat; made : nat; pcs : nat -> pc; results : list (nat * option nat) }.
Definition no_calls : shared := mkShared None None 0 (fun _ => Idle) [].
Definition goto (f : nat -> pc) (t : nat) (p : pc) : nat -> pc := fun u => if Nat.eqb u t then p else f u.

(** One step of the thread [t].  The steps are sequentially consistent; simplification: a test of instance_, an
    assignment and the copy are one step each.  (The shared_ptr is not atomic: see [racing].) *)
Inductive step (t : nat) : shared -> shared -> Prop :=
| st_call s b : pcs s t = Idle -> step t s (mkShared (inst s) (holder s) (made s) (goto (pcs s) t (Entered b)) (results s))
| st_null s : pcs s t = Entered true -> inst s = None -> step t s (mkShared (inst s) (holder s) (made s) (goto (pcs s) t Missing) (results s))
| st_present s b : pcs s t = Entered b -> (b = false \/ inst s <> None) -> step t s (mkShared (inst s) (holder s) (made s) (goto (pcs s) t Reading) (results s))
| st_lock s : pcs s t = Missing -> holder s = None -> step t s (mkShared (inst s) (Some t) (made s) (goto (pcs s) t Creating) (results s))
| st_create s : pcs s t = Creating -> step t s (mkShared (Some (made s)) None (S (made s)) (goto (pcs s) t Reading) (results s))
| st_return s : pcs s t = Reading -> step t s (mkShared (inst s) (holder s) (made s) (goto (pcs s) t Idle) ((t, inst s) :: results s))
| st_destroy s : pcs s t = Idle -> step t s (mkShared (inst s) (holder s) (made s) (goto (pcs s) t Destroying) (results s))
| st_dlock s : pcs s t = Destroying -> holder s = None -> step t s (mkShared (inst s) (Some t) (made s) (goto (pcs s) t Resetting) (results s))
| st_reset s : pcs s t = Resetting -> step t s (mkShared None None (made s) (goto (pcs s) t Idle) (results s)).
(** Executions; [ts] are the threads that moved. *)
Inductive steps : shared -> list nat -> shared -> Prop :=
| ss_refl s : steps s [] s
| ss_step s t s' ts s'' : step t s s' -> steps s' ts s'' -> steps s (t :: ts) s''.
Definition reachable (s : shared) : Prop := exists ts, steps no_calls ts s.
