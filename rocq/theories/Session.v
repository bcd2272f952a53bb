(** Contexts, parsers and the calls programs make on them (idl/parser.hpp, idl/idl.hpp). *)
From Verif Require Import Base Types TypeBuild Compat Mem Hash MapOps Ops Module ModList NumSpec IntSpec IntOps IdlLit IdlExpr IdlSpec Peg0 Grammar Peg IdlParse KeepRun.
Local Open Scope string_scope.

(** A Context (parser.hpp:405-480): its configuration, clear, success, and the Module object module_ points at.  Not
    modelled: instance_ (it only keeps the parser alive), the log and the preprocessor's options. *)
Record context := Cx { cfg : ctx; clear_flag : bool; success : bool; home : option nat }.
(** The objects of a program.  [cx x] is the Context at address [x] ([None]: not made yet, or destroyed), [md m] the Module
    object at [m], [cur p] the member context_ of the parser [p] ([None]: nullptr); below [ncx] and [nmd] the addresses are used.
    Simplification: addresses are never used again. *)
Record world := World { cx : nat -> option context; ncx : nat; md : nat -> modl; nmd : nat; cur : nat -> option nat }.
Definition put {A} (f : nat -> A) (i : nat) (v : A) : nat -> A := fun j => if Nat.eqb j i then v else f j.
Definition set_cx (x : nat) (c : option context) (w : world) : world := World (put (cx w) x c) (ncx w) (md w) (nmd w) (cur w).
Definition set_md (m : nat) (v : modl) (w : world) : world := World (cx w) (ncx w) (put (md w) m v) (nmd w) (cur w).
Definition set_cur (p x : nat) (w : world) : world := World (cx w) (ncx w) (md w) (nmd w) (put (cur w) p (Some x)).
Definition new_cx (c : context) (w : world) : world := World (put (cx w) (ncx w) (Some c)) (S (ncx w)) (md w) (nmd w) (cur w).
Definition no_objects : world := World (fun _ => None) 0 (fun _ => root_module) 0 (fun _ => None).

(** Context::module() (parser.hpp:455-462): the Module is made by the first call. *)
Definition own_module (x : nat) (c : context) (w : world) : world * nat :=
  match home c with
  | Some m => (w, m)
  | None =>
      (World (put (cx w) x (Some (Cx (cfg c) (clear_flag c) (success c) (Some (nmd w))))) (ncx w) (put (md w) (nmd w) root_module) (S (nmd w)) (cur w), nmd w)
  end.

Section Values.
  Variable fc : prim -> prim -> list N -> list N.
  Variable flt : arith -> prim -> list N -> list N -> list N.
  Variable flit : prim -> string -> res (list N).

  (** The parts of Parser::parse(text, context) (parser.hpp:536-560).  context_ = &context (541). *)
  Definition enter (p x : nat) (w : world) : world := set_cur p x w.
  (** build_on_ast(ast) (parser.hpp:785-793, then the declarations) reads context_ again: module and configuration. *)
  Definition build_in (n p : nat) (a : ast) (w : world) : world * res unit :=
    match cur w p with
    | Some x =>
        match cx w x with
        | Some c =>
            let '(w, m) := own_module x c w in
            let '(root, r) := build_run fc flt flit n (cfg c) [] a (md w m) in
            (set_md m root w, r)
        | None => (w, Fail UB)
        end
    | None => (w, Fail UB)
    end.
  (** context_->success = ... (parser.hpp:547, 555). *)
  Definition finish (p : nat) (b : bool) (w : world) : world * res unit :=
    match cur w p with
    | Some x =>
        match cx w x with
        | Some c => (set_cx x (Some (Cx (cfg c) (clear_flag c) b (home c))) w, Ok tt)
        | None => (w, Fail UB)
        end
    | None => (w, Fail UB)
    end.
  (** The whole call by one thread (parser.hpp:536-560). *)
  Definition parse_call (n p x : nat) (text : string) (w : world) : world * res bool :=
    let w := enter p x w in
    match parse_document n text with
    | None => (w, Fail Loop)
    | Some None => match finish p false w with (w, Ok _) => (w, Ok false) | (w, Fail e) => (w, Fail e) end
    | Some (Some a) =>
        match build_in n p a w with
        | (w, Ok _) => match finish p true w with (w, Ok _) => (w, Ok true) | (w, Fail e) => (w, Fail e) end
        | (w, Fail e) => (w, Fail e)
        end
    end.

  (** What a program does with contexts and parsers. *)
  Inductive call :=
  | NewContext (k : ctx) (clear : bool)                  (* Context c;  with its options set *)
  | CopyContext (x : nat)                                (* Context d = x; *)
  | AssignContext (y x : nat)                            (* y = x; *)
  | DestroyContext (x : nat)
  | ClearContext (x : nat)                               (* x.clear_context() *)
  | Parse (p x : nat) (text : string)                    (* parser p: parse(text, x), preprocess = false *)
  | DeclareType (x : nat) (k : table) (t : ty) (replace : bool)   (* x.module().structure(t, replace), ... *)
  | Success (x : nat)                                    (* x.success *)
  | ContextTypes (x : nat) (scoped : bool)               (* x.get_all_types(scoped) *)
  | ParserTypes (p : nat).                               (* parser p: get_all_types(types) on an empty map *)
  Inductive answer := Done | Address (x : nat) | Said (b : bool) | Types (l : list (string * ty)).

  (** The implicit copy constructor and copy assignment of Context copy module_, a shared_ptr (there is a user-declared
      destructor, so no implicit move); clear_context (parser.hpp:2272-2279); get_all_types of Context (437-448) and of
      Parser (612-620); structure, ... of Module.hpp on module(). *)
  Definition exec (n : nat) (k : call) (w : world) : world * res answer :=
    match k with
    | NewContext k c => (new_cx (Cx k c false None) w, Ok (Address (ncx w)))
    | CopyContext x => match cx w x with Some c => (new_cx c w, Ok (Address (ncx w))) | None => (w, Fail UB) end
    | AssignContext y x =>
        match cx w y, cx w x with Some _, Some c => (set_cx y (Some c) w, Ok Done) | _, _ => (w, Fail UB) end
    | DestroyContext x => match cx w x with Some _ => (set_cx x None w, Ok Done) | None => (w, Fail UB) end
    | ClearContext x =>
        match cx w x with
        | Some c => (if clear_flag c then set_cx x (Some (Cx (cfg c) (clear_flag c) (success c) None)) w else w, Ok Done)
        | None => (w, Fail UB)
        end
    | Parse p x text =>
        match cx w x with
        | Some _ => match parse_call n p x text w with (w, Ok b) => (w, Ok (Said b)) | (w, Fail e) => (w, Fail e) end
        | None => (w, Fail UB)
        end
    | DeclareType x k t replace =>
        match cx w x with
        | Some c =>
            let '(w, m) := own_module x c w in
            match call_register k t replace (md w m) [] with
            | Ok (b, root) => (set_md m root w, Ok (Said b))
            | Fail e => (w, Fail e)
            end
        | None => (w, Fail UB)
        end
    | Success x => match cx w x with Some c => (w, Ok (Said (success c))) | None => (w, Fail UB) end
    | ContextTypes x scoped =>
        match cx w x with
        | Some c =>
            match home c with
            | Some m => (w, match fill_all_types scoped [] (md w m) [] with Ok l => Ok (Types l) | Fail e => Fail e end)
            | None => (w, Ok (Types []))
            end
        | None => (w, Fail UB)
        end
    | ParserTypes p =>
        match cur w p with
        | None => (w, Ok (Types []))
        | Some x =>
            match cx w x with
            | Some c => let '(w, m) := own_module x c w in (w, match fill_all_types false [] (md w m) [] with Ok l => Ok (Types l) | Fail e => Fail e end)
            | None => (w, Fail UB)
            end
        end
    end.
  (** The program goes on after an exception, not after undefined behaviour, an abort or a call that does not return. *)
  Definition goes_on (r : res answer) : bool := match r with Ok _ | Fail Throw => true | Fail _ => false end.
  Fixpoint exec_all (n : nat) (ks : list call) (w : world) : world * list (res answer) :=
    match ks with
    | [] => (w, [])
    | k :: r => let '(w, a) := exec n k w in if goes_on a then let '(w, l) := exec_all n r w in (w, a :: l) else (w, [a])
    end.

  (** Calls of parse by several threads at once.  A job: the parser, the context and the text of the call. *)
  Record job := Job { by_ : nat; into : nat; text_of : string }.
  (** Where the thread of a job is. *)
  Inductive at_ := Start | Entered | Matched (o : option ast) | Built | Over (r : res bool).
  (** One step of thread [i].  Simplification: build_on_ast is one step (the real one reads context_ again at each
      declaration). *)
  Inductive tstep (jobs : nat -> option job) : nat -> world * (nat -> at_) -> world * (nat -> at_) -> Prop :=
  | t_enter : forall i j w pc, jobs i = Some j -> pc i = Start -> tstep jobs i (w, pc) (enter (by_ j) (into j) w, put pc i Entered)
  | t_match : forall i j w pc n o, jobs i = Some j -> pc i = Entered -> parse_document n (text_of j) = Some o -> tstep jobs i (w, pc) (w, put pc i (Matched o))
  | t_reject : forall i j w pc w' r, jobs i = Some j -> pc i = Matched None -> finish (by_ j) false w = (w', r) ->
      tstep jobs i (w, pc) (w', put pc i (Over (match r with Ok _ => Ok false | Fail e => Fail e end)))
  | t_build : forall i j w pc n a w' r, jobs i = Some j -> pc i = Matched (Some a) -> build_in n (by_ j) a w = (w', r) -> r <> Fail Loop ->
      tstep jobs i (w, pc) (w', put pc i (match r with Ok _ => Built | Fail e => Over (Fail e) end))
  | t_finish : forall i j w pc w' r, jobs i = Some j -> pc i = Built -> finish (by_ j) true w = (w', r) ->
      tstep jobs i (w, pc) (w', put pc i (Over (match r with Ok _ => Ok true | Fail e => Fail e end))).
End Values.
