(** Equations for the nested recursion of the memory functions: structs as folds over the members,
    unions through [find_member], and the block recursion unfolded once. *)
From Verif Require Import Base Types TypeBuild TypeSpec Mem MemSpec TyInd.

Notation member := (string * N * ty)%type.

Fixpoint mfold {X A} (f : X -> A -> res A) (l : list X) (a : A) : res A :=
  match l with [] => Ok a | x :: r => do a' <- f x a; mfold f r a' end.
Fixpoint mmap {X A} (f : X -> res A) (l : list X) : res (list A) :=
  match l with [] => Ok [] | x :: r => do a <- f x; do y <- mmap f r; Ok (a :: y) end.
(** short-circuit conjunction *)
Fixpoint mall {X} (f : X -> res bool) (l : list X) : res bool :=
  match l with [] => Ok true | x :: r => do c <- f x; if c then mall f r else Ok false end.

Lemma construct_struct nm s ms b off :
  construct (TStruct nm s ms) b off = mfold (fun m d => construct (m_type m) d (off + m_off m)) ms b.
Proof.
  cbn [construct]. revert b. induction ms as [|[[n o] t] r IH]; intros b; [reflexivity|].
  cbn [mfold m_type m_off fst snd]. destruct (construct t b (off + o)); cbn [bind]; [apply IH|reflexivity].
Qed.

(** the nested search of a union member *)
Definition with_member {A} (nm : string) (ms : list member) (e : A) (k : member -> A) : A :=
  match find_member nm ms with None => e | Some m => k m end.
Lemma search_eq {A} x (e : A) (k : N -> ty -> A) ms :
  (fix go (l : list (string * N * ty)) : A :=
     match l with [] => e | (mn, mo, mt) :: r => if String.eqb x mn then k mo mt else go r end) ms =
  with_member x ms e (fun m => k (m_off m) (m_type m)).
Proof.
  unfold with_member. induction ms as [|[[n o] t] r IH]; [reflexivity|].
  cbn [find_member m_name fst]. destruct (String.eqb x n); [reflexivity|exact IH].
Qed.

Lemma construct_union nm s ms labels dv iv d b off :
  construct (TUnion nm s ms labels dv iv d) b off =
  match ms with
  | [] => Fail UB
  | (_, _, disc) :: _ =>
      do b1 <- construct disc b off;
      do b2 <- (if Z.eqb d iv then Ok b1
                else match lookup_label d labels with
                     | None => Fail Throw
                     | Some x => with_member x ms (Fail Assert)
                                   (fun m => construct (m_type m) b1 (off + m_off m))
                     end);
      put_label disc b2 off d
  end.
Proof.
  destruct ms as [|[[dn do_] disc] cs]; [reflexivity|].
  cbn [construct]. destruct (construct disc b off) as [b1|]; cbn [bind]; [|reflexivity].
  f_equal. destruct (Z.eqb d iv); [reflexivity|]. destruct (lookup_label d labels) as [x|]; [|reflexivity].
  exact (search_eq x (Fail Assert) (fun mo mt => construct mt b1 (off + mo)) ((dn, do_, disc) :: cs)).
Qed.

Lemma live_struct nm s ms b off :
  live (TStruct nm s ms) b off <-> Forall (fun m => live (m_type m) b (off + m_off m)) ms.
Proof.
  cbn [live]. induction ms as [|[[n o] t] r IH].
  - split; constructor.
  - split.
    + intros [H1 H2]. constructor; [exact H1|apply IH, H2].
    + intros H. inversion H; subst. split; [assumption|apply IH; assumption].
Qed.
Lemma live_union nm s ms labels dv iv d b off :
  live (TUnion nm s ms labels dv iv d) b off <->
  alloc b off s /\
  exists dn do_ disc cs, ms = (dn, do_, disc) :: cs /\ live disc b off /\
    exists l, get_label disc b off = Ok l /\
      match lookup_label l labels with
      | None => True
      | Some nm => with_member nm ms False (fun m => live (m_type m) b (off + m_off m))
      end.
Proof.
  cbn [live]. 
  assert (E : forall x, (fix go (x0 : list (string * N * ty)) : Prop :=
                   match x0 with
                   | [] => False
                   | (mn, mo, mt) :: r => if String.eqb x mn then live mt b (off + mo) else go r
                   end) ms = with_member x ms False (fun m => live (m_type m) b (off + m_off m))).
  { intros x. unfold with_member. induction ms as [|[[n o] t] r IH]; [reflexivity|].
    cbn [find_member m_name fst]. destruct (String.eqb x n); [reflexivity|exact IH]. }
  destruct ms as [|[[dn do_] disc] cs].
  - split; [tauto|]. intros [_ (? & ? & ? & ? & H & _)]; discriminate.
  - split.
    + intros (Ha & Hd & l & Hl & H). split; [exact Ha|]. exists dn, do_, disc, cs.
      split; [reflexivity|]. split; [exact Hd|]. exists l. split; [exact Hl|].
      destruct (lookup_label l labels); [|exact I]. rewrite <- E. exact H.
    + intros (Ha & ? & ? & ? & ? & He & Hd & l & Hl & H). inversion He; subst.
      split; [exact Ha|]. split; [exact Hd|]. exists l. split; [exact Hl|].
      destruct (lookup_label l labels); [|exact I]. rewrite <- E in H. exact H.
Qed.

Lemma read_struct nm s ms b off :
  read (TStruct nm s ms) b off =
  do l <- mmap (fun m => read (m_type m) b (off + m_off m)) ms; Ok (VNode l).
Proof.
  cbn [read]. f_equal. induction ms as [|[[n o] t] r IH]; [reflexivity|].
  cbn [mmap m_type m_off fst snd]. destruct (read t b (off + o)); cbn [bind]; [|reflexivity].
  rewrite IH. reflexivity.
Qed.
Lemma read_union nm s ms labels dv iv d b off :
  read (TUnion nm s ms labels dv iv d) b off =
  match ms with
  | [] => Fail UB
  | (_, _, disc) :: _ =>
      do x <- read disc b off;
      do l <- get_label disc b off;
      match lookup_label l labels with
      | None => Ok (VUnion x None)
      | Some nm => with_member nm ms (Fail UB)
          (fun m => do v <- read (m_type m) b (off + m_off m); Ok (VUnion x (Some v)))
      end
  end.
Proof.
  destruct ms as [|[[dn do_] disc] cs]; [reflexivity|].
  cbn [read]. destruct (read disc b off) as [x|]; cbn [bind]; [|reflexivity].
  destruct (get_label disc b off) as [l|]; cbn [bind]; [|reflexivity].
  destruct (lookup_label l labels) as [y|]; [|reflexivity].
  exact (search_eq y (Fail UB) (fun mo mt => do v <- read mt b (off + mo); Ok (VUnion x (Some v))) ((dn, do_, disc) :: cs)).
Qed.

Lemma default_struct nm s ms :
  default_value (TStruct nm s ms) = VNode (map (fun m => default_value (m_type m)) ms).
Proof.
  cbn [default_value]. f_equal. induction ms as [|[[n o] t] r IH]; [reflexivity|].
  cbn [map m_type snd]. f_equal. exact IH.
Qed.
Lemma default_union nm s dn do_ disc cs labels dv iv d :
  default_value (TUnion nm s ((dn, do_, disc) :: cs) labels dv iv d) =
  VUnion (label_bytes disc d)
    (if Z.eqb d iv then None
     else match lookup_label d labels with
          | None => None
          | Some nm => with_member nm ((dn, do_, disc) :: cs) None (fun m => Some (default_value (m_type m)))
          end).
Proof.
  cbn [default_value]. f_equal. destruct (Z.eqb d iv); [reflexivity|].
  destruct (lookup_label d labels) as [y|]; [|reflexivity].
  exact (search_eq y None (fun _ mt => Some (default_value mt)) ((dn, do_, disc) :: cs)).
Qed.

Lemma all_members_iff (P : ty -> Prop) (ms : list member) :
  (fix go (l : list (string * N * ty)) : Prop :=
     match l with [] => True | m :: r => P (m_type m) /\ go r end) ms <-> all_members P ms.
Proof.
  unfold all_members. induction ms as [|m r IH].
  - split; constructor.
  - split.
    + intros [H1 H2]. constructor; [exact H1|apply IH, H2].
    + intros H; inversion H; subst. split; [assumption|apply IH; assumption].
Qed.
Lemma ok_struct nm s ms : ok_ty (TStruct nm s ms) <-> all_members ok_ty ms.
Proof. cbn [ok_ty]. apply all_members_iff. Qed.
Lemma ok_union nm s ms labels dv iv d : ok_ty (TUnion nm s ms labels dv iv d) <->
  match ms with
  | [] => False
  | (_, _, disc) :: _ => label_width disc = msize disc /\ lookup_label iv labels = None
  end /\ all_members ok_ty ms.
Proof. cbn [ok_ty]. rewrite all_members_iff. reflexivity. Qed.
Lemma cf_struct nm s ms : cf_ok (TStruct nm s ms) <-> all_members cf_ok ms.
Proof. cbn [cf_ok]. apply all_members_iff. Qed.
Lemma cf_union nm s ms labels dv iv d : cf_ok (TUnion nm s ms labels dv iv d) <-> all_members cf_ok ms.
Proof. cbn [cf_ok]. apply all_members_iff. Qed.
Lemma copy_ok_struct nm s ms : copy_ok (TStruct nm s ms) <-> all_members copy_ok ms.
Proof. cbn [copy_ok]. apply all_members_iff. Qed.
Lemma copy_ok_union nm s ms labels dv iv d : copy_ok (TUnion nm s ms labels dv iv d) <-> all_members copy_ok ms.
Proof. cbn [copy_ok]. apply all_members_iff. Qed.
Lemma nofloat_struct nm s ms : nofloat (TStruct nm s ms) <-> all_members nofloat ms.
Proof. cbn [nofloat]. apply all_members_iff. Qed.
Lemma nofloat_union nm s ms labels dv iv d : nofloat (TUnion nm s ms labels dv iv d) <-> all_members nofloat ms.
Proof. cbn [nofloat]. apply all_members_iff. Qed.

Lemma selected_struct nm s ms b off :
  selected (TStruct nm s ms) b off <-> Forall (fun m => selected (m_type m) b (off + m_off m)) ms.
Proof.
  cbn [selected]. induction ms as [|[[n o] t] r IH].
  - split; constructor.
  - split.
    + intros [H1 H2]. constructor; [exact H1|apply IH, H2].
    + intros H. inversion H; subst. split; [assumption|apply IH; assumption].
Qed.
Lemma selected_union nm s ms labels dv iv d b off :
  selected (TUnion nm s ms labels dv iv d) b off <->
  match ms with
  | [] => False
  | (_, _, disc) :: _ =>
      exists l nm, get_label disc b off = Ok l /\ lookup_label l labels = Some nm /\
        with_member nm ms False (fun m => selected (m_type m) b (off + m_off m))
  end.
Proof.
  cbn [selected]. 
  assert (E : forall x, (fix go (x0 : list (string * N * ty)) : Prop :=
                   match x0 with
                   | [] => False
                   | (mn, mo, mt) :: r => if String.eqb x mn then selected mt b (off + mo) else go r
                   end) ms = with_member x ms False (fun m => selected (m_type m) b (off + m_off m))).
  { intros x. unfold with_member. induction ms as [|[[n o] t] r IH]; [reflexivity|].
    cbn [find_member m_name fst]. destruct (String.eqb x n); [reflexivity|exact IH]. }
  destruct ms as [|[[dn do_] disc] cs]; [reflexivity|].
  split; intros (l & x & H1 & H2 & H3); exists l, x; (split; [exact H1|split; [exact H2|]]).
  - rewrite <- E. exact H3.
  - rewrite <- E in H3. exact H3.
Qed.

(** ** copy_from *)
Section CF.
  Variable fc : prim -> prim -> list N -> list N.
  Fixpoint cf_members (b : block) (off : N) (doff : N) (l ol : list member) (past : bool) (d : block) : res block :=
    match l with
    | [] => Ok d
    | m :: r =>
        if past then Fail UB
        else
          match ol with
          | om :: orest =>
              do d1 <- copy_from fc b (m_type m) (m_type om) (off + m_off om) d (doff + m_off m);
              cf_members b off doff r orest false d1
          | [] => do d1 <- construct (m_type m) d (doff + m_off m); cf_members b off doff r [] true d1
          end
    end.
  Lemma copy_from_struct nm s ms b o off d doff :
    copy_from fc b (TStruct nm s ms) o off d doff =
    match ms with
    | [m] =>
        match rget o with
        | TStruct _ _ oms => cf_members b off doff ms oms false d
        | o' => copy_from fc b (m_type m) o' off d doff
        end
    | _ =>
        match rget o with
        | TStruct _ _ oms => cf_members b off doff ms oms false d
        | _ => Fail Assert
        end
    end.
  Proof.
    destruct b as [f].
    assert (E : forall ms oms past d,
      (fix go (l ol : list (string * N * ty)) (past : bool) (d : block) {struct l} : res block :=
                   match l with
                   | [] => Ok d
                   | (_, mo, mt) :: r =>
                       if past then Fail UB
                       else
                         match ol with
                         | (_, oo, ot) :: orest =>
                             do d1 <- copy_from fc (Blk f) mt ot (off + oo) d (doff + mo); go r orest false d1
                         | [] => do d1 <- construct mt d (doff + mo); go r [] true d1
                         end
                   end) ms oms past d = cf_members (Blk f) off doff ms oms past d).
    { clear. induction ms as [|[[n mo] t] r IH]; intros ol past d; [reflexivity|].
      cbn [cf_members]. destruct past; [reflexivity|].
      destruct ol as [|[[on oo] ot] orest].
      - cbn [m_type m_off fst snd]. destruct (construct t d (doff + mo)); cbn [bind]; [apply IH|reflexivity].
      - cbn [m_type m_off fst snd]. destruct (copy_from fc (Blk f) t ot (off + oo) d (doff + mo)); cbn [bind]; [apply IH|reflexivity]. }
    destruct ms as [|m1 [|m2 r]].
    - cbn. destruct (rget o); reflexivity.
    - destruct m1 as [[n1 o1] t1].
      change (copy_from fc (Blk f) (TStruct nm s [(n1, o1, t1)]) o off d doff) with
        (match rget o with
         | TStruct _ _ oms => (fix go (l ol : list (string * N * ty)) (past : bool) (d : block) {struct l} : res block :=
                   match l with
                   | [] => Ok d
                   | (_, mo, mt) :: r =>
                       if past then Fail UB
                       else
                         match ol with
                         | (_, oo, ot) :: orest =>
                             do d1 <- copy_from fc (Blk f) mt ot (off + oo) d (doff + mo); go r orest false d1
                         | [] => do d1 <- construct mt d (doff + mo); go r [] true d1
                         end
                   end) [(n1, o1, t1)] oms false d
         | o' => copy_from fc (Blk f) t1 o' off d doff
         end).
      destruct (rget o) as [| | | | | | |nm' s' oms| |]; try reflexivity. exact (E [(n1, o1, t1)] oms false d).
    - destruct m1 as [[n1 o1] t1].
      cbn [copy_from]. destruct (rget o) as [| | | | | | |nm' s' oms| |]; try reflexivity. exact (E ((n1, o1, t1) :: m2 :: r) oms false d).
  Qed.
  Lemma copy_from_prim b p o off d doff :
    copy_from fc b (TPrim p) o off d doff = copy_prim_from fc p b o off d doff.
  Proof. destruct b; reflexivity. Qed.
  Lemma copy_from_enum b nm sz vals o off d doff :
    copy_from fc b (TEnum nm sz vals) o off d doff = copy_prim_from fc (enum_prim sz) b o off d doff.
  Proof. destruct b; reflexivity. Qed.
  Lemma copy_from_str b k bound o off d doff :
    copy_from fc b (TStr k bound) o off d doff =
    match strip1 o with
    | TStr k' _ => if skind_eqb k k' then copy_str k bound b off d doff else Fail Assert
    | _ => Fail Assert
    end.
  Proof. destruct b; cbn. destruct (strip1 o); reflexivity. Qed.
  Lemma copy_from_arr b nm c n o off d doff :
    copy_from fc b (TArr nm c n) o off d doff =
    match strip1 o with
    | TArr _ c' n' =>
        if is_constructed_type c || negb (msize c =? msize c')
        then for_up (N.min n n') (fun i d => copy_from fc b c c' (off + i * msize c') d (doff + i * msize c)) d
        else memcpy d doff b off (N.min n n' * msize c)
    | _ => Fail Assert
    end.
  Proof. destruct b; reflexivity. Qed.
  Lemma copy_from_seq b c bound o off d doff :
    copy_from fc b (TSeq c bound) o off d doff =
    match strip1 o with
    | TSeq _ _ =>
        match at_ b off with
        | CSeq c' ocap osize m =>
            if intact b off SZ_SEQ then
              do r <- seq_construct_copy (copy_from fc m c c')
                        c c' (bound_min ocap bound) (bound_min osize bound) ocap osize m;
              let '(cap, size, m') := r in
              put_obj d doff SZ_SEQ (CSeq c cap size m')
            else Fail UB
        | _ => Fail UB
        end
    | _ => Fail Assert
    end.
  Proof. destruct b; reflexivity. Qed.
  Lemma copy_from_map b k v bound o off d doff :
    copy_from fc b (TMap k v bound) o off d doff =
    match strip1 o with
    | TMap ok ov _ =>
        if String.eqb (tname (TPair k v)) (tname (TPair ok ov)) then
          match at_ b off with
          | CMap k' v' ocap osize m =>
              if intact b off SZ_MAP then
                do r <- map_construct_copy (copy_from fc m (TPair k' v') (TPair k' v'))
                          k' v' (bound_min ocap bound) (bound_min osize bound) ocap osize m;
                let '(cap, size, m') := r in
                put_obj d doff SZ_MAP (CMap k' v' cap size m')
              else Fail UB
          | _ => Fail UB
          end
        else Fail Assert
    | _ => Fail Assert
    end.
  Proof. destruct b; reflexivity. Qed.
  Lemma copy_from_pair b x y o off d doff :
    copy_from fc b (TPair x y) o off d doff =
    match strip1 o with
    | TPair x' y' =>
        do d1 <- copy_from fc b x x' off d doff;
        copy_from fc b y y' (off + msize x) d1 (doff + msize x)
    | _ => Fail Assert
    end.
  Proof. destruct b; reflexivity. Qed.
  Lemma copy_from_alias b nm a o off d doff :
    copy_from fc b (TAlias nm a) o off d doff = copy_from fc b a o off d doff.
  Proof. destruct b; reflexivity. Qed.
  Lemma copy_from_union b nm s ms labels dv iv df o off d doff :
    copy_from fc b (TUnion nm s ms labels dv iv df) o off d doff =
    match o with
    | TAlias _ _ => match rget o with TUnion _ _ _ _ _ _ _ => Fail UB | _ => Fail Assert end
    | TUnion _ _ ((_, _, odisc) :: _) _ _ _ _ =>
        match ms with
        | [] => Fail UB
        | (_, _, disc) :: _ =>
            do d1 <- copy_from fc b disc odisc off d doff;
            do l <- get_label disc d1 doff;
            match lookup_label l labels with
            | None => Ok d1
            | Some nm => with_member nm ms (Fail Assert)
                (fun m => copy_from fc b (m_type m) (m_type m) (off + m_off m) d1 (doff + m_off m))
            end
        end
    | _ => Fail Assert
    end.
  Proof.
    destruct b as [f]. destruct o; try reflexivity. destruct ms0 as [|[[? ?] odisc] ?]; [reflexivity|].
    destruct ms as [|[[dn do_] disc] cs]; [reflexivity|].
    cbn [copy_from].
    match goal with |- bind ?a _ = bind ?a' _ => change a with a'; destruct a' as [d1|]; cbn [bind]; [|reflexivity] end.
    destruct (get_label disc d1 doff) as [l|]; cbn [bind]; [|reflexivity].
    destruct (lookup_label l labels) as [y|]; [|reflexivity].
    exact (search_eq y (Fail Assert) (fun mo mt => copy_from fc (Blk f) mt mt (off + mo) d1 (doff + mo)) ((dn, do_, disc) :: cs)).
  Qed.

  (** ** copy *)
  Lemma copy_struct nm s ms b off d doff :
    copy fc (TStruct nm s ms) b off d doff =
    mfold (fun m d => copy fc (m_type m) b (off + m_off m) d (doff + m_off m)) ms d.
  Proof.
    cbn [copy]. revert d. induction ms as [|[[n o] t] r IH]; intros d; [reflexivity|].
    cbn [mfold m_type m_off fst snd]. destruct (copy fc t b (off + o) d (doff + o)); cbn [bind]; [apply IH|reflexivity].
  Qed.
  Lemma copy_union nm s ms labels dv iv df b off d doff :
    copy fc (TUnion nm s ms labels dv iv df) b off d doff =
    match ms with
    | [] => Fail UB
    | (_, _, disc) :: _ =>
        do d1 <- copy fc disc b off d doff;
        do l <- get_label disc b off;
        match lookup_label l labels with
        | None => Fail Assert
        | Some nm => with_member nm ms (Fail Assert)
            (fun m => copy fc (m_type m) b (off + m_off m) d1 (doff + m_off m))
        end
    end.
  Proof.
    destruct ms as [|[[dn do_] disc] cs]; [reflexivity|].
    cbn [copy]. destruct (copy fc disc b off d doff) as [d1|]; cbn [bind]; [|reflexivity].
    destruct (get_label disc b off) as [l|]; cbn [bind]; [|reflexivity].
    destruct (lookup_label l labels) as [y|]; [|reflexivity].
    exact (search_eq y (Fail Assert) (fun mo mt => copy fc mt b (off + mo) d1 (doff + mo)) ((dn, do_, disc) :: cs)).
  Qed.

  (** ** move *)
  Lemma move_struct nm s ms b off d doff init :
    move fc (TStruct nm s ms) b off d doff init =
    mfold (fun m d => move fc (m_type m) b (off + m_off m) d (doff + m_off m) init) ms d.
  Proof.
    cbn [move]. revert d. induction ms as [|[[n o] t] r IH]; intros d; [reflexivity|].
    cbn [mfold m_type m_off fst snd]. destruct (move fc t b (off + o) d (doff + o) init); cbn [bind]; [apply IH|reflexivity].
  Qed.
  Lemma move_union nm s ms labels dv iv df b off d doff init :
    move fc (TUnion nm s ms labels dv iv df) b off d doff init =
    match ms with
    | [] => Fail UB
    | (_, _, disc) :: _ =>
        do d1 <- move fc disc b off d doff init;
        do l <- get_label disc d1 doff;
        match lookup_label l labels with
        | None => Ok d1
        | Some nm => with_member nm ms (Fail Assert)
            (fun m => move fc (m_type m) b (off + m_off m) d1 (doff + m_off m) init)
        end
    end.
  Proof.
    destruct ms as [|[[dn do_] disc] cs]; [reflexivity|].
    cbn [move]. destruct (move fc disc b off d doff init) as [d1|]; cbn [bind]; [|reflexivity].
    destruct (get_label disc d1 doff) as [l|]; cbn [bind]; [|reflexivity].
    destruct (lookup_label l labels) as [y|]; [|reflexivity].
    exact (search_eq y (Fail Assert) (fun mo mt => move fc mt b (off + mo) d1 (doff + mo) init) ((dn, do_, disc) :: cs)).
  Qed.
End CF.

(** ** dlist *)
Fixpoint dl_members (f : member -> res (list (N * N))) (l : list member) : res (list (N * N)) :=
  match l with
  | [] => Ok []
  | m :: r => do lr <- dl_members f r; do lm <- f m; Ok (lr ++ lm)
  end.
Lemma dlist_prim b p off : dlist b (TPrim p) off = Ok [].
Proof. destruct b; reflexivity. Qed.
Lemma dlist_enum b nm sz vals off : dlist b (TEnum nm sz vals) off = Ok [].
Proof. destruct b; reflexivity. Qed.
Lemma dlist_str b k bd off : dlist b (TStr k bd) off =
  match at_ b off with
  | CStr k' _ => if skind_eqb k k' then Ok [(off, SZ_STRING)] else Fail UB
  | _ => Fail UB
  end.
Proof. destruct b; reflexivity. Qed.
Lemma dlist_arr b nm c n off : dlist b (TArr nm c n) off =
  if is_constructed_type c
  then concat_down (N.to_nat (int32_iterations n)) (fun i => dlist b c (off + i * msize c))
  else Ok [].
Proof. destruct b; reflexivity. Qed.
Lemma dlist_seq b c0 bd off : dlist b (TSeq c0 bd) off =
  match at_ b off with
  | CSeq c cap _ m =>
      do _ <- (if (cap =? 0) || negb (is_constructed_type c) then Ok m
               else do l <- concat_down (N.to_nat (int32_iterations cap))
                              (fun i => dlist m c (wrap32 (i * wrap32 (msize c))));
                    kill_all l m);
      Ok [(off, SZ_SEQ)]
  | _ => Fail UB
  end.
Proof. destruct b; reflexivity. Qed.
Lemma dlist_map b k0 v0 bd off : dlist b (TMap k0 v0 bd) off =
  match at_ b off with
  | CMap k v cap _ m =>
      do _ <- (if cap =? 0 then Ok m
               else do l <- concat_down (N.to_nat (int32_iterations cap))
                              (fun i => dlist m (TPair k v) (wrap32 (i * wrap32 (msize k + msize v))));
                    kill_all l m);
      Ok [(off, SZ_MAP)]
  | _ => Fail UB
  end.
Proof. destruct b; reflexivity. Qed.
Lemma dlist_pair b x y off : dlist b (TPair x y) off =
  do l1 <- dlist b x off; do l2 <- dlist b y (off + msize x); Ok (l1 ++ l2).
Proof. destruct b; reflexivity. Qed.
Lemma dlist_alias b nm a off : dlist b (TAlias nm a) off = dlist b a off.
Proof. destruct b; reflexivity. Qed.
Lemma dlist_struct b nm s ms off : dlist b (TStruct nm s ms) off =
  dl_members (fun m => dlist b (m_type m) (off + m_off m)) ms.
Proof.
  destruct b as [f]. cbn [dlist]. induction ms as [|[[n o] t] r IH]; [reflexivity|].
  cbn [dl_members m_type m_off fst snd]. rewrite <- IH. reflexivity.
Qed.
Lemma dlist_union b nm s ms labels dv iv df off : dlist b (TUnion nm s ms labels dv iv df) off =
  match ms with
  | [] => Fail UB
  | (_, _, disc) :: _ =>
      do l0 <- dlist b disc off;
      do l <- get_label disc b off;
      match lookup_label l labels with
      | None => Ok l0
      | Some nm => with_member nm ms (Fail Assert)
                     (fun m => do lm <- dlist b (m_type m) (off + m_off m); Ok (l0 ++ lm))
      end
  end.
Proof.
  destruct b as [f]. destruct ms as [|[[dn do_] disc] cs]; [reflexivity|].
  cbn [dlist].
  match goal with |- bind ?a _ = bind ?a' _ => change a with a'; destruct a' as [l0|]; cbn [bind]; [|reflexivity] end.
  destruct (get_label disc (Blk f) off) as [l|]; cbn [bind]; [|reflexivity].
  destruct (lookup_label l labels) as [y|]; [|reflexivity].
  exact (search_eq y (Fail Assert) (fun mo mt => do lm <- dlist (Blk f) mt (off + mo); Ok (l0 ++ lm)) ((dn, do_, disc) :: cs)).
Qed.

(** ** compare *)
Lemma compare_prim b1 p o1 b2 o2 : compare b1 (TPrim p) o1 b2 o2 =
  do x <- read_bytes b1 o1 (prim_size p); do y <- read_bytes b2 o2 (prim_size p); Ok (prim_eq p x y).
Proof. destruct b1; reflexivity. Qed.
Lemma compare_enum b1 nm sz vals o1 b2 o2 : compare b1 (TEnum nm sz vals) o1 b2 o2 = memcmp_eq b1 o1 b2 o2 sz.
Proof. destruct b1; reflexivity. Qed.
Lemma compare_str b1 k bd o1 b2 o2 : compare b1 (TStr k bd) o1 b2 o2 =
  match at_ b1 o1, at_ b2 o2 with
  | CStr k1 s1, CStr k2 s2 =>
      if skind_eqb k k1 && skind_eqb k k2 && intact b1 o1 SZ_STRING && intact b2 o2 SZ_STRING
      then Ok (bytes_eqb s1 s2) else Fail UB
  | _, _ => Fail UB
  end.
Proof. destruct b1; reflexivity. Qed.
Lemma compare_arr b1 nm c n o1 b2 o2 : compare b1 (TArr nm c n) o1 b2 o2 =
  if is_constructed_type c
  then alland n (fun i => compare b1 c (o1 + i * msize c) b2 (o2 + i * msize c))
  else memcmp_eq b1 o1 b2 o2 (n * msize c).
Proof. destruct b1; reflexivity. Qed.
Lemma compare_seq b1 c0 bd o1 b2 o2 : compare b1 (TSeq c0 bd) o1 b2 o2 =
  match at_ b1 o1, at_ b2 o2 with
  | CSeq c _ size1 m1, CSeq _ _ size2 m2 =>
      if intact b1 o1 SZ_SEQ && intact b2 o2 SZ_SEQ then
        if negb (size1 =? size2) then Ok false
        else if is_constructed_type c
        then alland size1 (fun i => compare m1 c (wrap32 (i * wrap32 (msize c)))
                                            m2 (wrap32 (i * wrap32 (msize c))))
        else memcmp_eq m1 0 m2 0 (wrap32 (size1 * wrap32 (msize c)))
      else Fail UB
  | _, _ => Fail UB
  end.
Proof. destruct b1; reflexivity. Qed.
Lemma compare_map b1 k0 v0 bd o1 b2 o2 : compare b1 (TMap k0 v0 bd) o1 b2 o2 =
  match at_ b1 o1, at_ b2 o2 with
  | CMap k v _ size1 m1, CMap _ _ _ size2 m2 =>
      if intact b1 o1 SZ_MAP && intact b2 o2 SZ_MAP then
        if negb (size1 =? size2) then Ok false
        else if is_constructed_type k || is_constructed_type v
        then alland size1 (fun i => compare m1 (TPair k v) (wrap32 (i * wrap32 (msize k + msize v)))
                                            m2 (wrap32 (i * wrap32 (msize k + msize v))))
        else memcmp_eq m1 0 m2 0 (wrap32 (size1 * wrap32 (msize k + msize v)))
      else Fail UB
  | _, _ => Fail UB
  end.
Proof. destruct b1; reflexivity. Qed.
Lemma compare_pair b1 x y o1 b2 o2 : compare b1 (TPair x y) o1 b2 o2 =
  do c1 <- compare b1 x o1 b2 o2;
  if c1 then compare b1 y (o1 + msize x) b2 (o2 + msize x) else Ok false.
Proof. destruct b1; reflexivity. Qed.
Lemma compare_alias b1 nm a o1 b2 o2 : compare b1 (TAlias nm a) o1 b2 o2 = compare b1 a o1 b2 o2.
Proof. destruct b1; reflexivity. Qed.
Lemma compare_struct b1 nm s ms o1 b2 o2 : compare b1 (TStruct nm s ms) o1 b2 o2 =
  mall (fun m => compare b1 (m_type m) (o1 + m_off m) b2 (o2 + m_off m)) ms.
Proof.
  destruct b1 as [f]. cbn [compare]. induction ms as [|[[n o] t] r IH]; [reflexivity|].
  cbn [mall m_type m_off fst snd]. rewrite <- IH. reflexivity.
Qed.
Lemma compare_union b1 nm s ms labels dv iv df o1 b2 o2 : compare b1 (TUnion nm s ms labels dv iv df) o1 b2 o2 =
  match ms with
  | [] => Fail UB
  | (_, _, disc) :: _ =>
      do c <- compare b1 disc o1 b2 o2;
      if c then
        do l <- get_label disc b1 o1;
        match lookup_label l labels with
        | None => Ok true
        | Some nm => with_member nm ms (Fail Assert)
                       (fun m => compare b1 (m_type m) (o1 + m_off m) b2 (o2 + m_off m))
        end
      else Ok false
  end.
Proof.
  destruct b1 as [f]. destruct ms as [|[[dn do_] disc] cs]; [reflexivity|].
  cbn [compare].
  match goal with |- bind ?a _ = bind ?a' _ => change a with a'; destruct a' as [[|]|]; cbn [bind]; [|reflexivity|reflexivity] end.
  destruct (get_label disc (Blk f) o1) as [l|]; cbn [bind]; [|reflexivity].
  destruct (lookup_label l labels) as [y|]; [|reflexivity].
  exact (search_eq y (Fail Assert) (fun mo mt => compare (Blk f) mt (o1 + mo) b2 (o2 + mo)) ((dn, do_, disc) :: cs)).
Qed.

Lemma strip1_rget t : strip1 t = strip1 (rget t).
Proof. induction t using ty_ind'; try reflexivity. cbn [strip1 rget]. exact IHt. Qed.

Lemma tight_struct nm s ms b off :
  tight (TStruct nm s ms) b off <-> Forall (fun m => tight (m_type m) b (off + m_off m)) ms.
Proof.
  cbn [tight]. induction ms as [|[[n o] t] r IH].
  - split; constructor.
  - split.
    + intros [H1 H2]. constructor; [exact H1|apply IH, H2].
    + intros H. inversion H; subst. split; [assumption|apply IH; assumption].
Qed.
Lemma tight_union nm s ms labels dv iv d b off :
  tight (TUnion nm s ms labels dv iv d) b off =
  match ms with
  | [] => True
  | (_, _, disc) :: _ =>
      match get_label disc b off with
      | Fail _ => True
      | Ok l =>
          match lookup_label l labels with
          | None => clean b (off + msize disc) (s - msize disc)
          | Some nm => with_member nm ms True (fun m =>
              tight (m_type m) b (off + m_off m) /\
              clean b (off + m_off m + msize (m_type m)) (s - m_off m - msize (m_type m)))
          end
      end
  end.
Proof.
  destruct ms as [|[[dn do_] disc] cs]; [reflexivity|]. cbn [tight].
  destruct (get_label disc b off) as [l|]; [|reflexivity].
  destruct (lookup_label l labels) as [y|]; [|reflexivity].
  exact (search_eq y True (fun mo mt => tight mt b (off + mo) /\ clean b (off + mo + msize mt) (s - mo - msize mt)) ((dn, do_, disc) :: cs)).
Qed.
