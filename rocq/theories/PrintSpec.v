(** The text of a value. *)
From Verif Require Import Base Types TypeBuild Mem MemSpec Ops OpsSpec NumSpec.
Local Open Scope string_scope.

Definition NL : string := String (Ascii.ascii_of_nat 10) "".
Fixpoint spaces (n : nat) : string := match n with O => "" | S k => String " " (spaces k) end.
Definition character (c : N) : string := String (Ascii.ascii_of_N c) "".
Definition characters (s : list N) : string := String.concat "" (map character s).
(** The number in two's complement, least significant byte first. *)
Definition as_number (p : prim) (bs : list N) : Z :=
  let x := Z.of_N (le_decode bs) in if (greatest p <? x)%Z then (x - 2 ^ width p)%Z else x.
Definition decimal (z : Z) : string := if (z <? 0)%Z then "-" ++ to_string (Z.abs_N z) else to_string (Z.abs_N z).

(** A line of the text: indentation, how the parent leads to the element, the element. *)
Definition line (deep : nat) (from body : string) : string := spaces (4 * deep) ++ from ++ body ++ NL.
Definition by_index (i : nat) : string := "[" ++ to_string (N.of_nat i) ++ "] ".
Definition by_name (m : string) : string := "[" ++ m ++ "] ".

Section Shown.
  Variable flo : prim -> list N -> string.
  Variable conv : list N -> res string.
  Definition number_text (p : prim) (bs : list N) : res string :=
    match p with
    | PBool => Ok (if le_decode bs =? 0 then "0" else "1")%N
    | PC8 | PI8 | PU8 => Ok (character (le_decode bs))
    | PF32 | PF64 | PF128 => Ok (flo p bs)
    | PC16 => conv [le_decode bs]
    | PWC => Fail Assert
    | _ => Ok (decimal (as_number p bs))
    end.
  Definition string_text (k : skind) (s : list N) : res string :=
    match k with SK8 => Ok (characters s) | SKW => conv (map (fun c => (c mod 65536)%N) s) | SK16 => conv s end.

  (** [elements f l i]: the texts of the elements [i], [i + 1], ... one after the other. *)
  Fixpoint elements (f : nat -> value -> res string) (l : list value) (i : nat) : res string :=
    match l with [] => Ok "" | x :: r => do a <- f i x; do c <- elements f r (S i); Ok (a ++ c) end.

  (** The text of [v] : [t], an element of nesting level [deep] to which [from] leads: a line for the element itself, then
      the texts of its elements. *)
  Fixpoint shown (t : ty) (v : value) (deep : nat) (from : string) {struct t} : res string :=
    match t, v with
    | TPrim p, VBytes bs => do x <- number_text p bs; Ok (line deep from ("<" ++ tname t ++ ">  " ++ x))
    | TStr k _, VStr s => do x <- string_text k s; Ok (line deep from ("<" ++ tname t ++ ">  " ++ x))
    | TEnum nm _ _, _ => Ok (line deep from ("Enumeration: <" ++ nm ++ ">"))
    | TArr nm c _, VNode l =>
        do r <- elements (fun i x => shown c x (S deep) (by_index i)) l 0;
        Ok (line deep from ("<" ++ nm ++ ">") ++ r)
    | TSeq c _, VNode l =>
        do r <- elements (fun i x => shown c x (S deep) (by_index i)) l 0;
        Ok (line deep from ("<" ++ tname t ++ "[" ++ to_string (N.of_nat (List.length l)) ++ "]>") ++ r)
    | TMap k w _, VNode l =>
        do r <- elements (fun i e =>
          match e with
          | VNode [x; y] =>
              do a <- shown k x (S (S deep)) (by_index 0);
              do c <- shown w y (S (S deep)) (by_index 1);
              Ok (line (S deep) (by_index i) ("Unsupported type: " ++ tname (TPair k w)) ++ a ++ c)
          | _ => Fail UB
          end) l 0;
        Ok (line deep from ("<" ++ tname t ++ "[" ++ to_string (N.of_nat (List.length l)) ++ "]>") ++ r)
    | TPair x y, VNode [a; c] =>
        do p <- shown x a (S deep) (by_index 0);
        do q <- shown y c (S deep) (by_index 1);
        Ok (line deep from ("Unsupported type: " ++ tname t) ++ p ++ q)
    | TStruct nm _ ms, VNode l =>
        do r <- (fix go (ms : list (string * N * ty)) (l : list value) : res string :=
          match ms, l with
          | (mn, _, mt) :: ms', x :: l' => do a <- shown mt x (S deep) (by_name mn); do c <- go ms' l'; Ok (a ++ c)
          | _, _ => Ok ""
          end) ms l;
        Ok (line deep from ("Structure: <" ++ nm ++ ">") ++ r)
    | TUnion nm _ ((_, _, disc) :: cs) labels _ _ _, VUnion dv (Some w) =>
        match label_of disc dv with
        | Some l =>
            match lookup_label l labels with
            | Some a =>
                (fix go (x : list (string * N * ty)) : res string :=
                   match x with
                   | [] => Fail UB
                   | (mn, _, mt) :: r =>
                       if String.eqb a mn
                       then do r <- shown mt w (S deep) (by_name mn); Ok (line deep from ("Unsupported type: " ++ nm) ++ r)
                       else go r
                   end) cs
            | None => Fail UB
            end
        | None => Fail UB
        end
    | TUnion _ _ _ _ _ _ _, VUnion _ None => Fail Assert
    | TAlias _ a, _ => shown a v deep from
    | _, _ => Fail UB
    end.
End Shown.

(** The values whose text tells them apart: no enumerator, no floating point number, no wide character or string; booleans
    are 0 or 1; strings have no line break; every case of a union has one label, and its name has no bracket. *)
Fixpoint lacks (c : Ascii.ascii) (s : string) : Prop := match s with "" => True | String a r => a <> c /\ lacks c r end.
Definition line_break : Ascii.ascii := Ascii.ascii_of_nat 10.
Fixpoint legible (t : ty) (v : value) {struct t} : Prop :=
  match t, v with
  | TPrim (PF32 | PF64 | PF128 | PC16 | PWC), _ => False
  | TPrim PBool, _ => v = VBytes [0%N] \/ v = VBytes [1%N]
  | TPrim _, _ => True
  | TEnum _ _ _, _ => False
  | TStr SK8 _, VStr s => Forall (fun c => (c < 256)%N /\ c <> 10%N) s
  | TStr _ _, _ => False
  | (TArr _ c _ | TSeq c _), VNode l => Forall (legible c) l
  | TMap k w _, VNode l => Forall (fun e => match e with VNode [x; y] => legible k x /\ legible w y | _ => False end) l
  | TPair x y, VNode [a; c] => legible x a /\ legible y c
  | TStruct _ _ ms, VNode l =>
      (fix go (ms : list (string * N * ty)) (l : list value) : Prop :=
         match ms, l with (_, _, mt) :: ms', x :: l' => legible mt x /\ go ms' l' | _, _ => True end) ms l
  | TUnion _ _ ((_, _, disc) :: cs) labels _ _ _, VUnion dv (Some w) =>
      NoDup (map snd labels) /\ Forall (fun m => lacks "]" (fst (fst m))) cs /\
      match label_of disc dv with
      | Some l =>
          match lookup_label l labels with
          | Some a =>
              (fix go (x : list (string * N * ty)) : Prop :=
                 match x with [] => False | (mn, _, mt) :: r => if String.eqb a mn then legible mt w else go r end) cs
          | None => False
          end
      | None => False
      end
  | TAlias _ a, _ => legible a v
  | _, _ => False
  end.
