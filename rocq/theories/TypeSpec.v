(** Specification: what it means for a type to be obtainable from the API, and the layout facts
    other theorems rely on.  Independent of the proofs. *)
From Verif Require Import Base Types TypeBuild.

(** A type value obtainable by calling the public constructors. *)
Inductive struct_built : ty -> Prop :=
| sb_new nm : struct_built (TStruct nm 0 [])
| sb_derive nm pn s ms : struct_built (TStruct pn s ms) -> struct_built (TStruct nm s ms)
| sb_add t nm mt t' : struct_built t -> api_type mt -> add_member t nm mt = (t', Ok tt) ->
    struct_built t'
with union_built : ty -> Prop :=
| ub_new nm disc t : api_type disc -> union_new nm disc = Ok t -> union_built t
| ub_add t ls nm mt isd t' o : union_built t -> api_type mt ->
    add_case_member t ls nm mt isd = (t', o) -> union_built t'
with api_type : ty -> Prop :=
| at_prim p : api_type (TPrim p)
| at_enum nm sz es :
    (sz = 1 \/ sz = 2 \/ sz = 4) ->
    enum_built (enum_new nm sz) es -> api_type (enum_type es)
| at_str k b : b < 4294967296 -> api_type (TStr k b)
| at_arr c n : api_type c -> n < 4294967296 -> api_type (mk_array c n)
| at_arr_dims c dims t : api_type c -> Forall (fun n => n < 4294967296) dims ->
    mk_array_dims c dims = Ok t -> api_type t
| at_seq c b : api_type c -> b < 4294967296 -> api_type (TSeq c b)
| at_map k v b : api_type k -> api_type v -> b < 4294967296 -> api_type (TMap k v b)
| at_pair a b : api_type a -> api_type b -> api_type (TPair a b)
| at_struct t : struct_built t -> api_type t
| at_union t : union_built t -> api_type t
| at_alias nm t : api_type t -> api_type (TAlias nm t)
with enum_built : enum_st -> enum_st -> Prop :=
| eb_nil e : enum_built e e
| eb_add e e1 nm v e2 : enum_built e e1 -> v < 2 ^ (8 * es_size e1) ->
    fst (add_enumerator e1 nm v) = e2 -> enum_built e e2.

(** Members laid out back to back from offset [o] (declaration order, no gaps). *)
Fixpoint laid_out (o : N) (ms : list (string * N * ty)) : Prop :=
  match ms with
  | [] => True
  | m :: r => m_off m = o /\ laid_out (o + msize (m_type m)) r
  end.
Definition total_size (ms : list (string * N * ty)) : N :=
  fold_right (fun m acc => msize (m_type m) + acc) 0 ms.
Definition max_size (ms : list (string * N * ty)) : N :=
  fold_right (fun m acc => N.max (msize (m_type m)) acc) 0 ms.

(** labels_ as a std::map: strictly increasing keys. *)
Fixpoint sorted_labels (ls : list (Z * string)) : Prop :=
  match ls with
  | [] => True
  | (k, _) :: r => Forall (fun p => (k < fst p)%Z) r /\ sorted_labels r
  end.

Definition wf_union_labels (disc : ty) (cases : list (string * N * ty))
    (labels : list (Z * string)) (dv iv d : Z) : Prop :=
  dv = default_union_label (msize disc) /\ iv = (dv - 1)%Z /\
  sorted_labels labels /\
  Forall (fun p => In (snd p) (map m_name cases)) labels /\
  Forall (fun p => shrink_label (fst p) (msize disc) = fst p) labels /\
  (d <> iv -> lookup_label d labels <> None) /\
  (lookup_label dv labels <> None -> d = dv).

(** Structural well-formedness enjoyed by every API-built type (Layout.api_type_wf). *)
Fixpoint wf_ty (t : ty) : Prop :=
  match t with
  | TPrim _ => True
  | TEnum _ sz vals => (sz = 1 \/ sz = 2 \/ sz = 4) /\ Forall (fun p => snd p < 2 ^ (8 * sz)) vals
  | TStr _ b => b < 4294967296
  | TArr _ c n => wf_ty c /\ n < 4294967296
  | TSeq c b => wf_ty c /\ b < 4294967296
  | TMap k v b => wf_ty k /\ wf_ty v /\ b < 4294967296
  | TPair a b => wf_ty a /\ wf_ty b
  | TStruct _ s ms =>
      laid_out 0 ms /\ s = total_size ms /\ NoDup (map m_name ms) /\
      (fix all (l : list (string * N * ty)) : Prop :=
         match l with [] => True | m :: r => wf_ty (m_type m) /\ all r end) ms
  | TUnion _ s ms labels dv iv d =>
      match ms with
      | [] => False
      | disc :: cases =>
          m_name disc = UNION_DISCRIMINATOR /\ m_off disc = 0 /\
          check_discriminator (m_type disc) = true /\
          Forall (fun m => m_off m = msize (m_type disc)) cases /\
          s = msize (m_type disc) + max_size cases /\
          NoDup (map m_name ms) /\
          wf_union_labels (m_type disc) cases labels dv iv d
      end /\
      (fix all (l : list (string * N * ty)) : Prop :=
         match l with [] => True | m :: r => wf_ty (m_type m) /\ all r end) ms
  | TAlias _ a => wf_ty a
  end.

(** Run a history of add_enumerator(name, value) calls; returns the final state and the accepted
    calls in declaration order. *)
Fixpoint run_enum (e : enum_st) (calls : list (string * N)) : enum_st * list (string * N) :=
  match calls with
  | [] => (e, [])
  | (nm, v) :: r =>
      match add_enumerator e nm v with
      | (e', Ok _) => let '(e'', acc) := run_enum e' r in (e'', (nm, v) :: acc)
      | (e', Fail _) => run_enum e' r
      end
  end.

