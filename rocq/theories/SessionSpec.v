(** Contexts as independent values. *)
From Verif Require Import Base Types TypeBuild Compat Mem Hash MapOps Ops Module ModList NumSpec IntSpec IntOps IdlLit IdlExpr IdlSpec Peg0 Grammar Peg IdlParse KeepRun Session.
Local Open Scope string_scope.

(** A context: its options, success, and everything declared in it.  [touched]: since it was made or cleared, it was parsed
    into, declared into, or asked for through its parser. *)
Record value := Val { options : ctx; clearable : bool; worked : bool; declared : modl; touched : bool }.
(** The contexts of a program, and for each parser the context it parsed into last. *)
Record values := Values { val : nat -> option value; made_so_far : nat; last : nat -> option nat }.
Definition no_values : values := Values (fun _ => None) 0 (fun _ => None).
Definition with_val (x : nat) (c : option value) (v : values) : values := Values (put (val v) x c) (made_so_far v) (last v).
Definition add_val (c : value) (v : values) : values := Values (put (val v) (made_so_far v) (Some c)) (S (made_so_far v)) (last v).
Definition listing (scoped : bool) (m : modl) : res answer := match fill_all_types scoped [] m [] with Ok l => Ok (Types l) | Fail e => Fail e end.

Section Values.
  Variable fc : prim -> prim -> list N -> list N.
  Variable flt : arith -> prim -> list N -> list N -> list N.
  Variable flit : prim -> string -> res (list N).
  (** Every call changes the context it names and no other; a copy is another context that declares the same. *)
  Definition expect (n : nat) (k : call) (v : values) : values * res answer :=
    let ask (x : nat) (f : value -> values * res answer) := match val v x with Some c => f c | None => (v, Fail UB) end in
    match k with
    | NewContext k c => (add_val (Val k c false root_module false) v, Ok (Address (made_so_far v)))
    | CopyContext x => ask x (fun c => (add_val c v, Ok (Address (made_so_far v))))
    | AssignContext y x => ask y (fun _ => ask x (fun c => (with_val y (Some c) v, Ok Done)))
    | DestroyContext x => ask x (fun _ => (with_val x None v, Ok Done))
    | ClearContext x => ask x (fun c => (if clearable c then with_val x (Some (Val (options c) true (worked c) root_module false)) v else v, Ok Done))
    | Parse p x text => ask x (fun c =>
        let '(m, r) := parse_run fc flt flit n (options c) text (declared c) in
        let worked := match r with Ok b => b | Fail _ => worked c end in
        (Values (put (val v) x (Some (Val (options c) (clearable c) worked m true))) (made_so_far v) (put (last v) p (Some x)),
         match r with Ok b => Ok (Said b) | Fail e => Fail e end))
    | DeclareType x k t replace => ask x (fun c =>
        match call_register k t replace (declared c) [] with
        | Ok (b, m) => (with_val x (Some (Val (options c) (clearable c) (worked c) m true)) v, Ok (Said b))
        | Fail e => (with_val x (Some (Val (options c) (clearable c) (worked c) (declared c) true)) v, Fail e)
        end)
    | Success x => ask x (fun c => (v, Ok (Said (worked c))))
    | ContextTypes x scoped => ask x (fun c => (v, listing scoped (declared c)))
    | ParserTypes p =>
        match last v p with
        | None => (v, Ok (Types []))
        | Some x => ask x (fun c => (with_val x (Some (Val (options c) (clearable c) (worked c) (declared c) true)) v, listing false (declared c)))
        end
    end.
  Fixpoint expect_all (n : nat) (ks : list call) (v : values) : list (res answer) :=
    match ks with
    | [] => []
    | k :: r => let '(v, a) := expect n k v in a :: if goes_on a then expect_all n r v else []
    end.
  (** Only untouched contexts are copied. *)
  Fixpoint copies_untouched (n : nat) (ks : list call) (v : values) : Prop :=
    match ks with
    | [] => True
    | k :: r =>
        match k with CopyContext x | AssignContext _ x => forall c, val v x = Some c -> touched c = false | _ => True end /\
        copies_untouched n r (fst (expect n k v))
    end.
End Values.
