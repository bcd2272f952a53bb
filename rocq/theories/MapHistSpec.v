(** Histories of calls on one map, as a client sees them; maps at any depth. *)
From Coq Require Import Permutation.
From Verif Require Import Base Types TypeBuild TypeSpec Mem MemSpec Hash HashSpec MapOps MapSpec Ops OpsSpec DataSpec HistSpec.

(** Calls on a map [m]; keys and values are DynamicData. *)
Inductive map_call :=
| CPut (key y : data)                  (* m[key] = y *)
| CPutVal (key : data) (x : scalar)    (* m[key] = x *)
| CTouch (key : data)                  (* m[key] *)
| CInsert (e : data)                   (* m.insert(e) *)
| CHas (key : data)                    (* m.has_key(key) *)
| CGet (key : data) (x : scalar_ty)    (* m.at(key).value<T>() *)
| CEq (key y : data)                   (* m.at(key) == y *)
| CSize.                               (* m.size() *)
(** What the caller sees: an answer or a failed check. *)
Inductive answer := Refused | Done (x : out).

Section Calls.
  Variable fc : prim -> prim -> list N -> list N.
  Variable strhash : skind -> list N -> N.

  (** The map after an insertion that was refused because the key exists: the check of create_place comes after the
      reallocation (MapInstance.hpp:139-155). *)
  Definition refused_insert (d : data) : res data :=
    match d_type d with
    | TMap _ _ bounds =>
        match at_ (d_mem d) 0 with
        | CMap k v cap size m =>
            if (cap =? 0) || (size =? cap)
            then do r <- map_realloc fc strhash k v cap size m (if 0 <? cap then wrap32 (cap * 2) else 1) bounds;
                 Ok (mkData (d_type d) (set_cell (d_mem d) 0 (CMap k v (fst r) size (snd r))))
            else Ok d
        | _ => Fail UB
        end
    | _ => Fail UB
    end.
  (** A client that goes on after a refused call.  All other checks come before any modification of the map
      (DynamicData.hpp:936-952, 984-995, 245-257). *)
  Definition call_map (d : data) (o : map_call) : res (answer * data) :=
    let r := match o with
             | CPut key y => run_on fc strhash d [SKey (d_mem key) 0] (writing (assign_from fc (d_mem y) 0))
             | CPutVal key x => run_on fc strhash d [SKey (d_mem key) 0] (writing (set_value fc x))
             | CTouch key => run_on fc strhash d [SKey (d_mem key) 0] (fun _ b _ => Ok (ONone, b))
             | CInsert e => run_on fc strhash d [] (insert_pair fc strhash (d_type e) (d_mem e) 0)
             | CHas key => run_on fc strhash d [] (reading (has_key strhash (d_type key) (d_mem key) 0))
             | CGet key x => run_on fc strhash d [SAt (d_mem key) 0] (reading (get_scalar x))
             | CEq key y => run_on fc strhash d [SAt (d_mem key) 0] (reading (ref_eq (d_type y) (d_mem y) 0))
             | CSize => run_on fc strhash d [] (reading get_size)
             end in
    match r with
    | Ok x => Ok (Done (fst x), snd x)
    | Fail Assert => match o with CInsert _ => do d' <- refused_insert d; Ok (Refused, d') | _ => Ok (Refused, d) end
    | Fail e => Fail e
    end.
  Fixpoint calls_map (d : data) (l : list map_call) : res (list answer * data) :=
    match l with
    | [] => Ok ([], d)
    | o :: r => do x <- call_map d o; do y <- calls_map (snd x) r; Ok (fst x :: fst y, snd y)
    end.
End Calls.

(** ** The specification: finite maps as association lists *)
Definition fmap := list (value * value).
Fixpoint f_get (kv : value) (a : fmap) : option value :=
  match a with [] => None | (x, y) :: r => if value_eqb x kv then Some y else f_get kv r end.
Fixpoint f_put (kv w : value) (a : fmap) : fmap :=
  match a with [] => [(kv, w)] | (x, y) :: r => if value_eqb x kv then (x, w) :: r else (x, y) :: f_put kv w r end.
Inductive fmap_call :=
| FPut (kv w : value) | FTouch (kv : value) | FInsert (kv : value) | FHas (kv : value) | FGet (kv : value) (x : scalar_ty)
| FEq (kv w : value) | FSize.
Section FMap.
  Variable v : ty.     (* the type of the values *)
  Variable bd : N.
  Definition room (a : fmap) : bool := (bd =? 0) || (N.of_nat (List.length a) <? bd).
  (** Naming a key that is absent creates it, unless the bound is reached.  insert stores a default value whatever the
      pair contains (see C18), fails when the bound is reached and is refused for an existing key. *)
  Definition f_step (a : fmap) (o : fmap_call) : answer * fmap :=
    match o with
    | FPut kv w =>
        match f_get kv a with
        | Some _ => (Done ONone, f_put kv w a)
        | None => if room a then (Done ONone, f_put kv w a) else (Refused, a)
        end
    | FTouch kv =>
        match f_get kv a with
        | Some _ => (Done ONone, a)
        | None => if room a then (Done ONone, f_put kv (default_value v) a) else (Refused, a)
        end
    | FInsert kv =>
        if room a then
          match f_get kv a with
          | Some _ => (Refused, a)
          | None => (Done (OBool true), f_put kv (default_value v) a)
          end
        else (Done (OBool false), a)
    | FHas kv => (Done (OBool (match f_get kv a with Some _ => true | None => false end)), a)
    | FGet kv x =>
        (match f_get kv a with
         | Some w => match read_value (rget v) x w with Some y => Done y | None => Refused end
         | None => Refused
         end, a)
    | FEq kv w => (match f_get kv a with Some u => Done (OBool (value_eqb u w)) | None => Refused end, a)
    | FSize => (Done (ONat (N.of_nat (List.length a))), a)
    end.
  Fixpoint f_run (a : fmap) (l : list fmap_call) : list answer * fmap :=
    match l with
    | [] => ([], a)
    | o :: r => (fst (f_step a o) :: fst (f_run (snd (f_step a o)) r), snd (f_run (snd (f_step a o)) r))
    end.
End FMap.
(** The key a call is about. *)
Definition call_key (o : fmap_call) : list value :=
  match o with FPut kv _ | FTouch kv | FInsert kv | FHas kv | FGet kv _ | FEq kv _ => [kv] | FSize => [] end.

(** What a call means for a map from [k] to [v]: keys and values have the types of the map; unions that are copied have
    an active member; == is used on values without floating point numbers. *)
Definition key_is (k : ty) (key : data) (kv : value) : Prop := holds key kv /\ d_type key = rget k /\ vselected k kv.
Definition map_means (k v : ty) (o : map_call) (a : fmap_call) : Prop :=
  match o, a with
  | CPut key y, FPut kv w => key_is k key kv /\ holds y w /\ d_type y = rget v /\ vselected v w
  | CPutVal key x, FPut kv w => key_is k key kv /\ scalar_ok (rget v) x /\ w = scalar_value (rget v) x
  | CTouch key, FTouch kv => key_is k key kv
  | CInsert e, FInsert kv => exists w, holds e (VNode [kv; w]) /\ d_type e = TPair k v /\ vselected k kv
  | CHas key, FHas kv => key_is k key kv
  | CGet key x, FGet kv y => key_is k key kv /\ x = y
  | CEq key y, FEq kv w => key_is k key kv /\ holds y w /\ d_type y = rget v /\ nofloat (rget v)
  | CSize, FSize => True
  | _, _ => False
  end.
(** The entries [l] of a map are the pairs of [a]. *)
Definition entries_of (a : fmap) : list value := map (fun p => entry (fst p) (snd p)) a.
Definition contains (l : list value) (a : fmap) : Prop := NoDup (map fst a) /\ Permutation l (entries_of a).
(** Different keys of a set have different hashes. *)
Definition no_collision (strhash : skind -> list N -> N) (k : ty) (ks : list value) : Prop :=
  forall x y, In x ks -> In y ks -> vhash strhash k x = vhash strhash k y -> x = y.

(** Every map that is [v] or inside [v] is in increasing order of the hashes of its keys. *)
Definition maps_ordered (strhash : skind -> list N -> N) (t : ty) (v : value) : Prop :=
  forall k w bd l, inside t v (TMap k w bd) (VNode l) -> ordered strhash k l = true.
