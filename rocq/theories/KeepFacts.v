(** Nothing the parser does loses a declaration. *)
From Verif Require Import Base Types TypeBuild Compat Mem Hash MapOps Ops Module ModuleSpec ModuleFacts NumSpec IntSpec IntOps IdlLit IdlExpr IdlSpec Peg0 Grammar Peg IdlParse IdlParseFacts KeepRun KeepSpec.
Local Open Scope string_scope.

(** ** The answers are those of IdlParse.v *)
Definition agree {A} (x : run A) (r : res (A * modl)) : Prop := match x with (root, Ok a) => r = Ok (a, root) | (_, Fail e) => r = Fail e end.
Lemma agree_add_members : forall ms t, match add_members_run t ms with (t', Ok _) => add_members t ms = Ok t' | (_, Fail e) => add_members t ms = Fail e end.
Proof.
  induction ms as [|[x mt] ms IH]; intros t; cbn [add_members_run add_members]; [reflexivity|]. destruct (add_member t x mt) as [t' [u|e]]; [apply IH|reflexivity].
Qed.
Lemma agree_store : forall k y t root q r, match t with (t', Ok _) => r = Ok t' | (_, Fail e) => r = Fail e /\ exists root', store_at k y (fst t) root q = Ok root' end ->
  agree (store_run k y t root q) (do t' <- r; do root' <- store_at k y t' root q; Ok (tt, root')).
Proof.
  intros k y [t [[]|e]] root q r H; unfold store_run, agree; cbn [fst snd] in *.
  - subst r. cbn [bind]. destruct (store_at k y t root q); reflexivity.
  - destruct H as [-> [root' ->]]. reflexivity.
Qed.
Lemma lookup_entry : forall n k root p x q y t, lookup n k root p x = Ok (q, y, t) -> entry root q k y = Some t.
Proof.
  intros n k root p x q y t H. unfold lookup in H. apply bind_ok_iff in H as ([[q' y']|] & _ & H); [|discriminate H].
  unfold entry. destruct (assoc y' (get_table k (tab_at root q'))) as [t'|] eqn:E; [|discriminate H]. injection H as <- <- <-. exact E.
Qed.
Lemma entry_exists : forall root q k y t, entry root q k y = Some t -> exists_module root q = true.
Proof. intros root q k y t H. unfold entry, tab_at, exists_module in *. destruct (mod_at root q); [reflexivity|]. destruct k; discriminate H. Qed.
Lemma store_ok : forall k y t root q, exists_module root q = true -> exists root', store_at k y t root q = Ok root'.
Proof. intros k y t root q H. unfold store_at. destruct (on_tables_ok root q (fun tab => Ok (tt, store k y t tab)) tt _ H eq_refl) as [root' ->]. eexists; reflexivity. Qed.
Lemma agree_store_members : forall n root p x q y t ms, lookup n Structs root p x = Ok (q, y, t) ->
  agree (store_run Structs y (add_members_run t ms) root q) (do t' <- add_members t ms; do root' <- store_at Structs y t' root q; Ok (tt, root')).
Proof.
  intros n root p x q y t ms H. apply agree_store. pose proof (agree_add_members ms t) as A. destruct (add_members_run t ms) as [t' [u|e]]; [exact A|].
  split; [exact A|]. apply store_ok. eapply entry_exists, lookup_entry, H.
Qed.
Definition unit_of (r : res modl) : res (unit * modl) := do root <- r; Ok (tt, root).
Lemma agree_update_ : forall root r, agree (update_ root r) (unit_of r).
Proof. intros root [r|e]; reflexivity. Qed.
Lemma agree_declare : forall n c p x root, agree (declare_struct_run n c p x root) (declare_struct n c root p x).
Proof.
  intros n c p x root. unfold declare_struct_run, declare_struct, query. destruct (resolve_identifier n c root p x true); [|reflexivity]. cbn [bind].
  destruct (call_register _ _ _ _ _) as [[b r]|e]; reflexivity.
Qed.
Lemma agree_struct_parts : forall n c p l name parent ms root,
  match struct_parts_run n c p l name parent ms root with
  | (root', Ok (name', parent', ms')) => struct_parts n c p l (SA root name parent ms) = Ok (SA root' name' parent' ms')
  | (_, Fail e) => struct_parts n c p l (SA root name parent ms) = Fail e
  end.
Proof.
  intros n c p. induction l as [|a l IH]; intros name parent ms root; cbn [struct_parts_run struct_parts]; [reflexivity|].
  destruct (a_orig a); cbn [sa_root sa_name sa_parent sa_ms]; try apply IH.
  - pose proof (agree_declare n c p (a_tok a) root) as A. unfold agree, andthen in *. destruct (declare_struct_run n c p (a_tok a) root) as [root' [nm|e]]; rewrite A; [apply IH|reflexivity].
  - unfold query. destruct (find_in n root p structs (a_tok a)) as [[t|]|e]; [apply IH|reflexivity..].
  - unfold query. destruct (member_def n c root p (a_sub a) None ms) as [ms'|e]; [apply IH|reflexivity].
Qed.
Lemma agree_struct : forall n c p a root, agree (struct_run n c p a root) (unit_of (struct_def n c p a root)).
Proof.
  intros n c p a root. unfold struct_run, struct_def. pose proof (agree_struct_parts n c p (a_sub a) "" "" [] root) as A.
  destruct (struct_parts_run n c p (a_sub a) "" "" [] root) as [root1 [[[name parent] ms]|e]]; cbn [andthen]; rewrite A; [|reflexivity]. cbn [bind sa_name sa_root sa_parent sa_ms].
  assert (H : forall name root, agree (query root (lookup n Structs root p name) (fun e =>
  let '(q, y, t) := e in
  match members_of t with
  | _ :: _ => if ignore_redefinition c then (root, Ok tt) else (root, Fail Throw)
  | [] =>
      if String.eqb parent "" then store_run Structs y (add_members_run t ms) root q
      else
        query root (lookup n Structs root p parent) (fun b =>
        query root (struct_new name (Some (snd b))) (fun t' =>
        andthen (update root (call_register Structs t' true root p)) (fun _ root =>
        query root (lookup n Structs root p name) (fun e =>
        store_run Structs (snd (fst e)) (add_members_run (snd e) ms) root (fst (fst e))))))
  end)) (unit_of (do e <- lookup n Structs root p name;
  let '(q, y, t) := e in
  match members_of t with
  | _ :: _ => if ignore_redefinition c then Ok root else Fail Throw
  | [] =>
      do d <- (if String.eqb parent "" then Ok (root, q, y, t)
               else do b <- lookup n Structs root p parent;
                    do t' <- struct_new name (Some (snd b));
                    do r <- call_register Structs t' true root p;
                    do e <- lookup n Structs (snd r) p name;
                    Ok (snd r, fst (fst e), snd (fst e), snd e));
      let '(root, q, y, t) := d in
      do t <- add_members t ms;
      store_at Structs y t root q
  end))).
  { clear. intros name root. unfold query at 1. destruct (lookup n Structs root p name) as [[[q y] t]|e] eqn:L; [|reflexivity]. cbn [bind]. destruct (members_of t) as [|m0 mr].
    2:{ destruct (ignore_redefinition c); reflexivity. }
    destruct (String.eqb parent "").
    - cbn [bind]. pose proof (agree_store_members _ _ _ _ _ _ _ ms L) as A. unfold unit_of. destruct (add_members t ms) as [t'|e]; exact A.
    - unfold query at 1. destruct (lookup n Structs root p parent) as [b|e]; [|reflexivity]. cbn [bind]. unfold query at 1. destruct (struct_new name (Some (snd b))) as [t'|e]; [|reflexivity]. cbn [bind].
      destruct (call_register Structs t' true root p) as [[b' root']|e]; [|reflexivity]. cbn [update andthen bind snd]. unfold query at 1.
      destruct (lookup n Structs root' p name) as [[[q' y'] t2]|e] eqn:L'; [|reflexivity]. cbn [bind fst snd].
      pose proof (agree_store_members _ _ _ _ _ _ _ ms L') as A. unfold unit_of. destruct (add_members t2 ms) as [t3|e]; exact A. }
  destruct (String.eqb name "" && rule_eqb (a_tag a) R_IDENTIFIER).
  - pose proof (agree_declare n c p (a_tok a) root1) as D. unfold agree in D. destruct (declare_struct_run n c p (a_tok a) root1) as [root' [nm|e]]; rewrite D; [|reflexivity].
    cbn [bind andthen fst snd sa_name sa_root sa_parent sa_ms]. apply H.
  - cbn [andthen bind sa_name sa_root sa_parent sa_ms]. apply H.
Qed.
Section Values.
  Variable fc : prim -> prim -> list N -> list N.
  Variable flt : arith -> prim -> list N -> list N -> list N.
  Variable flit : prim -> string -> res (list N).
  Lemma agree_enumerators : forall l p e root, agree (enumerators_run fc l p e root) (enumerators fc l p e root).
  Proof.
    induction l as [|a l IH]; intros p e root; cbn [enumerators_run enumerators]; [reflexivity|]. destruct (add_enumerator_next e (a_tok a)) as [e' [u|er]]; [|reflexivity].
    unfold query. destruct (enum_value (es_vals e') (a_tok a)) as [v|er]; [|reflexivity]. cbn [bind]. destruct (result fc PU32 (int_bytes PU32 (Z.of_N v))) as [d|er]; [|reflexivity]. cbn [bind].
    destruct (call_create_constant fc (es_name e ++ "::" ++ a_tok a) d false true root p) as [[b root1]|er]; [|reflexivity]. cbn [update andthen bind snd].
    destruct (call_create_constant fc (a_tok a) d false true root1 p) as [[b2 root2]|er]; [|reflexivity]. cbn [update andthen bind snd]. apply IH.
  Qed.
  Lemma agree_enum : forall p a root, agree (enum_run fc p a root) (unit_of (enum_dcl fc p a root)).
  Proof.
    intros p a root. unfold enum_run, enum_dcl. destruct (a_sub a) as [|i r]; [reflexivity|]. pose proof (agree_enumerators r p (enum_new (a_tok i) 4) root) as A. unfold agree in A.
    destruct (enumerators_run fc r p (enum_new (a_tok i) 4) root) as [root1 [e|er]]; rewrite A; [|reflexivity]. cbn [andthen bind fst snd].
    destruct (call_register _ _ _ _ _) as [[b r']|er]; reflexivity.
  Qed.
  Lemma agree_add_case : forall t ls x mt, match add_case_run t ls x mt with (t', Ok _) => add_case_strings t ls x mt = Ok t' | (_, Fail e) => add_case_strings t ls x mt = Fail e end.
  Proof.
    intros t ls x mt. unfold add_case_run, add_case_strings. destruct t as [| | | | | | | |un us ums ul ud ui uv|]; try reflexivity. destruct ums as [|[[a o] disc] ums]; [reflexivity|].
    destruct (parse_labels disc ls false []) as [r|e]; [|reflexivity]. cbn [bind]. destruct (add_case_member _ _ _ _ _) as [t' [u|e]]; reflexivity.
  Qed.
  Lemma agree_add_cases : forall cs t, match add_cases_run t cs with (t', Ok _) => add_cases t cs = Ok t' | (_, Fail e) => add_cases t cs = Fail e end.
  Proof.
    induction cs as [|[ls [x mt]] cs IH]; intros t; cbn [add_cases_run add_cases]; [reflexivity|]. pose proof (agree_add_case t ls x mt) as A. destruct (add_case_run t ls x mt) as [t' [u|e]]; rewrite A; [apply IH|reflexivity].
  Qed.
  Lemma agree_union_parts : forall n c p l name cs root,
    match union_parts_run n c p l name cs root with
    | (root', Ok (name', cs')) => union_parts n c p l root name cs = Ok (root', name', cs')
    | (_, Fail e) => union_parts n c p l root name cs = Fail e
    end.
  Proof.
    intros n c p. induction l as [|a l IH]; intros name cs root; cbn [union_parts_run union_parts]; [reflexivity|].
    assert (S : match query root (type_spec n c root p a) (fun t => query root (union_new name t) (fun u =>
            andthen (update root (call_register Unions u false root p)) (fun _ root => union_parts_run n c p l name cs root))) with
      | (root', Ok (name', cs')) => (do t <- type_spec n c root p a; do u <- union_new name t; do x <- call_register Unions u false root p; union_parts n c p l (snd x) name cs) = Ok (root', name', cs')
      | (_, Fail e) => (do t <- type_spec n c root p a; do u <- union_new name t; do x <- call_register Unions u false root p; union_parts n c p l (snd x) name cs) = Fail e end).
    { unfold query. destruct (type_spec n c root p a) as [t|e]; [|reflexivity]. cbn [bind]. destruct (union_new name t) as [u|e]; [|reflexivity]. cbn [bind].
      destruct (call_register Unions u false root p) as [[b root']|e]; [|reflexivity]. cbn [update andthen bind snd]. apply IH. }
    destruct (a_orig a); try apply IH; try exact S; unfold query.
    - destruct (resolve_identifier n c root p (a_tok a) true) as [x|e]; [apply IH|reflexivity].
    - destruct (switch_body n c root p (a_sub a) cs) as [x|e]; [apply IH|reflexivity].
  Qed.
  Lemma agree_union : forall n c p a root, agree (union_run n c p a root) (unit_of (union_def n c p a root)).
  Proof.
    intros n c p a root. unfold union_run, union_def. pose proof (agree_union_parts n c p (a_sub a) "" [] root) as A.
    destruct (union_parts_run n c p (a_sub a) "" [] root) as [root1 [[name cs]|e]]; rewrite A; [|reflexivity]. cbn [andthen bind fst snd]. unfold query.
    destruct (lookup n Unions root1 p name) as [[[q y] t]|e] eqn:L; [|reflexivity]. cbn [bind].
    assert (S : agree (store_run Unions y (add_cases_run t cs) root1 q) (unit_of (do t0 <- add_cases t cs; store_at Unions y t0 root1 q))).
    { assert (S : agree (store_run Unions y (add_cases_run t cs) root1 q) (do t0 <- add_cases t cs; do r <- store_at Unions y t0 root1 q; Ok (tt, r))).
      { apply agree_store. pose proof (agree_add_cases cs t) as B. destruct (add_cases_run t cs) as [t' [u|e]]; [exact B|].
        split; [exact B|]. apply store_ok. eapply entry_exists, lookup_entry, L. }
      unfold unit_of. destruct (add_cases t cs); exact S. }
    destruct (members_of t) as [|m1 [|m2 mr]]; try exact S. destruct (ignore_redefinition c); reflexivity.
  Qed.
  Lemma agree_then : forall A B (x : run A) r (f : A -> modl -> run B) (g : A * modl -> res (B * modl)), agree x r -> (forall a root, agree (f a root) (g (a, root))) -> agree (andthen x f) (do y <- r; g y).
  Proof. intros A B [root [a|e]] r f g H K; cbn [agree andthen] in *; subst r; [apply K|reflexivity]. Qed.
  Lemma agree_query : forall A B root (r : res A) (f : A -> run B) (g : A -> res (B * modl)), (forall a, agree (f a) (g a)) -> agree (query root r f) (do a <- r; g a).
  Proof. intros A B root [a|e] f g H; cbn [query bind]; [apply H|reflexivity]. Qed.
  Lemma bind_assoc : forall A B C (r : res A) (f : A -> res B) (g : B -> res C), (do y <- (do x <- r; f x); g y) = (do x <- r; do y <- f x; g y).
  Proof. intros A B C [a|e] f g; reflexivity. Qed.
  Lemma agree_build : forall n c a p root, agree (build_run fc flt flit n c p a root) (unit_of (build fc flt flit n c p a root)).
  Proof.
    intros n c. induction a as [o t k l IH] using ast_rect'; intros p root.
    destruct t; cbn [build_run build]; try solve [apply agree_struct|apply agree_union|apply agree_enum|apply agree_update_|reflexivity];
      try solve [revert root; induction IH as [|a l Ha Hl IHl]; intros root; [reflexivity|];
        unfold unit_of; rewrite bind_assoc; specialize (Ha p root); unfold agree in Ha; unfold andthen;
        destruct (build_run fc flt flit n c p a root) as [root' [[]|e]]; unfold unit_of in Ha; destruct (build fc flt flit n c p a root) as [r0|e0]; cbn [bind] in Ha |- *; inversion Ha; subst; [apply IHl|reflexivity]].
    generalize (@None place) as sc. revert root. induction IH as [|a l Ha Hl IHl]; intros root sc; [reflexivity|].
    assert (NEXT : forall q, agree (andthen (build_run fc flt flit n c q a root) (fun _ root => (fix go (l : list ast) (sc : option place) (root : modl) {struct l} : run unit :=
               match l with
               | [] => (root, Ok tt)
               | a :: r =>
                   match a_tag a with
                   | R_IDENTIFIER =>
                       if rule_eqb (a_orig a) R_IDENTIFIER then
                         query root (resolve_identifier n c root p (a_tok a) true) (fun x =>
                         andthen (if has_submodule root p x then (root, Ok tt) else update_ root (call_create_submodule x root p)) (fun _ root =>
                         andthen (update root (call_submodule x root p)) (fun b root =>
                         if b : bool then go r (Some (x :: p)) root else (root, Fail UB))))
                       else match sc with
                            | Some q => andthen (struct_run n c q a root) (fun _ root => go r sc root)
                            | None => (root, Fail UB)
                            end
                   | _ => andthen (build_run fc flt flit n c (match sc with Some q => q | None => [] end) a root) (fun _ root => go r sc root)
                   end
               end) l sc root)) (unit_of (do root <- build fc flt flit n c q a root; (fix go (l : list ast) (sc : option place) (root : modl) {struct l} : res modl :=
               match l with
               | [] => Ok root
               | a :: r =>
                   match a_tag a with
                   | R_IDENTIFIER =>
                       if rule_eqb (a_orig a) R_IDENTIFIER then
                         do x <- resolve_identifier n c root p (a_tok a) true;
                         do root <- (if has_submodule root p x then Ok root else call_create_submodule x root p);
                         do s <- call_submodule x root p;
                         if fst s then go r (Some (x :: p)) (snd s) else Fail UB
                       else match sc with
                            | Some q => do root <- struct_def n c q a root; go r sc root
                            | None => Fail UB
                            end
                   | _ => do root <- build fc flt flit n c (match sc with Some q => q | None => [] end) a root; go r sc root
                   end
               end) l sc root))).
    { intros q. specialize (Ha q root). unfold unit_of in *. destruct (build fc flt flit n c q a root) as [r0|e0], (build_run fc flt flit n c q a root) as [root' [[]|e]]; cbn [agree bind andthen] in Ha |- *; inversion Ha; subst; [apply IHl|reflexivity]. }
    destruct (a_tag a); try apply NEXT. clear NEXT. destruct (rule_eqb (a_orig a) R_IDENTIFIER).
    - unfold unit_of. rewrite bind_assoc. apply agree_query. intros x. destruct (has_submodule root p x).
      + cbn [andthen bind]. rewrite bind_assoc. destruct (call_submodule x root p) as [[b r]|e]; [|reflexivity]. cbn [update andthen bind fst snd]. destruct b; [apply IHl|reflexivity].
      + rewrite bind_assoc. destruct (call_create_submodule x root p) as [root1|e]; [|reflexivity]. cbn [update_ andthen bind]. rewrite bind_assoc.
        destruct (call_submodule x root1 p) as [[b r]|e]; [|reflexivity]. cbn [update andthen bind fst snd]. destruct b; [apply IHl|reflexivity].
    - destruct sc as [q|]; [|reflexivity]. pose proof (agree_struct n c q a root) as A. unfold unit_of in *. rewrite bind_assoc.
      destruct (struct_def n c q a root) as [r0|e0], (struct_run n c q a root) as [root' [[]|e]]; cbn [agree bind andthen] in A |- *; inversion A; subst; [apply IHl|reflexivity].
  Qed.
  Lemma agree_parse : forall n c text root, agree (parse_run fc flt flit n c text root) (parse_idl fc flt flit n c text root).
  Proof.
    intros n c text root. unfold parse_run, parse_idl. destruct (parse_document n text) as [[a|]|]; [|reflexivity..]. pose proof (agree_build n c a [] root) as A. unfold unit_of in A.
    destruct (build fc flt flit n c [] a root) as [r0|e0], (build_run fc flt flit n c [] a root) as [root' [[]|e]]; cbn [agree bind andthen] in A |- *; inversion A; subst; reflexivity.
  Qed.
End Values.

(** ** Nothing is lost *)
Lemma keeps_refl : forall root, keeps root root.
Proof. intros root. split; [auto|]. split; [|auto]. intros q k y t H. exists t. auto. Qed.
Lemma keeps_trans : forall a b c, keeps a b -> keeps b c -> keeps a c.
Proof.
  intros a b c (M1 & T1 & C1) (M2 & T2 & C2). split; [auto|]. split; [|auto]. intros q k y t H. destruct (T1 _ _ _ _ H) as (t1 & H1 & S1).
  destruct (T2 _ _ _ _ H1) as (t2 & H2 & S2). exists t2. split; [exact H2|]. intros S. specialize (S1 S). subst t1. auto.
Qed.
Definition tables_keep (a b : tables) : Prop :=
  (forall k y t, assoc y (get_table k a) = Some t -> exists t', assoc y (get_table k b) = Some t' /\ (settled k t -> t' = t)) /\
  (forall y d, assoc y (consts a) = Some d -> assoc y (consts b) = Some d).
Lemma tables_keep_refl : forall a, tables_keep a a.
Proof. intros a. split; [|auto]. intros k y t H. exists t. auto. Qed.
Lemma keeps_on_tables : forall A root p (f : tables -> res (A * tables)) a root', on_tables root p f = Ok (a, root') ->
  (forall tab', f (tab_at root p) = Ok (a, tab') -> tables_keep (tab_at root p) tab') -> keeps root root'.
Proof.
  intros A root p f a root' H K. destruct (on_tables_spec _ _ _ _ _ H) as (EX & tab' & F & RT). specialize (K _ F). destruct K as [K1 K2].
  split; [intros q Q; rewrite (retabled_exists _ _ _ _ _ RT); exact Q|]. unfold entry, const_entry.
  split; intros q; rewrite (retabled_tab _ _ _ _ q EX RT); destruct (list_eq_dec string_dec q p) as [->|]; [apply K1|intros k y t Q; exists t; auto|apply K2|auto].
Qed.
Lemma get_set_table : forall k k' v t, get_table k' (set_table k v t) = if match k, k' with Structs, Structs | Unions, Unions | Enums, Enums | Aliases, Aliases => true | _, _ => false end then v else get_table k' t.
Proof. intros [] [] v t; reflexivity. Qed.
Lemma consts_set_table : forall k v t, consts (set_table k v t) = consts t.
Proof. intros [] v t; reflexivity. Qed.
Lemma emplaced_keep : forall k x t tab, tables_keep tab (set_table k (emplace x t (get_table k tab)) tab).
Proof.
  intros k x t tab. split; [|rewrite consts_set_table; auto]. intros k' y u H. exists u. split; [|auto]. rewrite get_set_table.
  destruct k, k'; cbn [get_table] in *; try exact H; rewrite emplace_assoc; destruct (String.eqb y x) eqn:E; try exact H; apply String.eqb_eq in E; subst; rewrite H; reflexivity.
Qed.
Lemma keeps_register : forall k t root p b root', call_register k t false root p = Ok (b, root') -> keeps root root'.
Proof.
  intros k t root p b root' H. apply (keeps_on_tables _ _ _ _ _ _ H). intros tab' E. unfold register in E. destruct (split_scope (tname t)).
  - injection E as _ <-. apply tables_keep_refl.
  - injection E as _ <-. apply emplaced_keep.
Qed.
Lemma keeps_create_alias : forall r t x root p b root', call_create_alias r t x root p = Ok (b, root') -> keeps root root'.
Proof.
  intros r t x root p b root' H. apply (keeps_on_tables _ _ _ _ _ _ H). intros tab' E. unfold create_alias in E. destruct (split_scope x); [injection E as _ <-; apply tables_keep_refl|].
  destruct (found root aliases r); injection E as _ <-; [apply tables_keep_refl|apply (emplaced_keep Aliases)].
Qed.
Lemma keeps_create_constant : forall fc x v fe root p b root', call_create_constant fc x v false fe root p = Ok (b, root') -> keeps root root'.
Proof.
  intros fc x v fe root p b root' H. apply (keeps_on_tables _ _ _ _ _ _ H). intros tab' E. unfold create_constant in E. destruct (split_scope x); [injection E as _ <-; apply tables_keep_refl|].
  cbn [andb bind] in E. destruct (mem x (const_types _)); [injection E as _ <-; apply tables_keep_refl|]. apply bind_ok_iff in E as (temp & _ & E). apply bind_ok_iff in E as (temp1 & _ & E).
  destruct (mem x (consts _)) eqn:M.
  - injection E as _ <-. split; [|auto]. intros k y t Q. exists t. split; [|auto]. destruct k; exact Q.
  - apply bind_ok_iff in E as (c & _ & E). injection E as _ <-. split; [intros k y t Q; exists t; split; [|auto]; destruct k; exact Q|]. cbn [consts]. intros y d Q. rewrite emplace_assoc.
    destruct (String.eqb y x) eqn:Y; [|exact Q]. apply String.eqb_eq in Y. subst. rewrite Q. reflexivity.
Qed.

(** Only the entry [y] of one table of the module at [q] may differ. *)
Definition touched (root root' : modl) (q : place) (k : table) (y : string) : Prop :=
  (forall q', exists_module root q' = true -> exists_module root' q' = true) /\
  (forall q' k' y', ~ (q' = q /\ k' = k /\ y' = y) -> entry root' q' k' y' = entry root q' k' y') /\
  (entry root q k y <> None -> entry root' q k y <> None) /\
  (forall q' y', const_entry root' q' y' = const_entry root q' y').
Lemma touched_trans : forall a b c q k y, touched a b q k y -> touched b c q k y -> touched a c q k y.
Proof.
  intros a b c q k y (M1 & T1 & S1 & C1) (M2 & T2 & S2 & C2). split; [auto|]. split; [|split; [auto|]].
  - intros q' k' y' N. rewrite (T2 _ _ _ N). auto.
  - intros q' y'. rewrite C2. auto.
Qed.
Lemma table_dec : forall a b : table, {a = b} + {a <> b}.
Proof. decide equality. Qed.
Lemma touched_keeps : forall root root' q k y, touched root root' q k y -> (forall t, entry root q k y = Some t -> ~ settled k t) -> keeps root root'.
Proof.
  intros root root' q k y (M & T & S & C) U. split; [exact M|]. split; [|intros q' y' d H; rewrite C; exact H]. intros q' k' y' t H.
  destruct (list_eq_dec string_dec q' q) as [->|]; [destruct (table_dec k' k) as [->|]; [destruct (string_dec y' y) as [->|]|]|].
  - assert (N : entry root q k y <> None) by congruence. specialize (S N). destruct (entry root' q k y) as [t'|]; [|congruence]. exists t'. split; [reflexivity|]. intros Q. destruct (U t H Q).
  - exists t. split; [|auto]. rewrite T; [exact H|tauto].
  - exists t. split; [|auto]. rewrite T; [exact H|tauto].
  - exists t. split; [|auto]. rewrite T; [exact H|tauto].
Qed.
Lemma touched_on_tables : forall A root p (f : tables -> res (A * tables)) a root' k y, on_tables root p f = Ok (a, root') ->
  (forall tab', f (tab_at root p) = Ok (a, tab') -> (forall k' y', ~ (k' = k /\ y' = y) -> assoc y' (get_table k' tab') = assoc y' (get_table k' (tab_at root p))) /\
     (assoc y (get_table k (tab_at root p)) <> None -> assoc y (get_table k tab') <> None) /\ consts tab' = consts (tab_at root p)) -> touched root root' p k y.
Proof.
  intros A root p f a root' k y H K. destruct (on_tables_spec _ _ _ _ _ H) as (EX & tab' & F & RT). destruct (K _ F) as (K1 & K2 & K3). clear K F H.
  split; [intros q Q; rewrite (retabled_exists _ _ _ _ _ RT); exact Q|]. unfold entry, const_entry. split; [|split].
  - intros q' k' y' N. rewrite (retabled_tab _ _ _ _ q' EX RT). destruct (list_eq_dec string_dec q' p) as [->|]; [|reflexivity]. apply K1. tauto.
  - rewrite (retabled_tab _ _ _ _ p EX RT). destruct (list_eq_dec string_dec p p); [exact K2|congruence].
  - intros q' y'. rewrite (retabled_tab _ _ _ _ q' EX RT). destruct (list_eq_dec string_dec q' p) as [->|]; [rewrite K3; reflexivity|reflexivity].
Qed.
Lemma assoc_store : forall (l : list (string * ty)) x t y, assoc y (map (fun e => if String.eqb x (fst e) then (fst e, t) else e) l) =
  if String.eqb y x then option_map (fun _ => t) (assoc x l) else assoc y l.
Proof.
  induction l as [|[k v] l IH]; intros x t y; cbn [map assoc fst]; [destruct (String.eqb y x); reflexivity|]. destruct (String.eqb x k) eqn:X; cbn [assoc].
  - apply String.eqb_eq in X. subst k. destruct (String.eqb y x) eqn:Y; [reflexivity|]. rewrite IH, Y. reflexivity.
  - destruct (String.eqb y k) eqn:Y.
    + apply String.eqb_eq in Y. subst k. rewrite String.eqb_sym, X. reflexivity.
    + apply IH.
Qed.
Lemma touched_store : forall k y t root q root', store_at k y t root q = Ok root' -> touched root root' q k y.
Proof.
  intros k y t root q root' H. unfold store_at in H. apply bind_ok_iff in H as ([[] r] & H & E). injection E as <-. apply (touched_on_tables _ _ _ _ _ _ _ _ H). intros tab' E. injection E as <-.
  unfold store. split; [|split; [|apply consts_set_table]].
  - intros k' y' N. rewrite get_set_table. destruct k, k'; try reflexivity; rewrite assoc_store; destruct (String.eqb y' y) eqn:Y; try reflexivity; apply String.eqb_eq in Y; subst; destruct N; auto.
  - rewrite get_set_table. destruct k; rewrite assoc_store, String.eqb_refl; destruct (assoc y _); cbn [option_map]; congruence.
Qed.
Lemma touched_replace : forall k t root p b root', call_register k t true root p = Ok (b, root') -> touched root root' p k (tname t).
Proof.
  intros k t root p b root' H. apply (touched_on_tables _ _ _ _ _ _ _ _ H). intros tab' E. unfold register in E. destruct (split_scope (tname t)).
  - injection E as _ <-. auto.
  - injection E as _ <-. split; [|split; [|apply consts_set_table]].
    + intros k' y' N. rewrite get_set_table. destruct k, k'; try reflexivity; rewrite emplace_assoc, !remove_name_assoc; destruct (String.eqb y' (tname t)) eqn:Y; try reflexivity; apply String.eqb_eq in Y; subst; destruct N; auto.
    + intros _. rewrite get_set_table. destruct k; rewrite emplace_assoc, !remove_name_assoc, String.eqb_refl; discriminate.
Qed.
(** A scoped name is not registered: the tables stay. *)
Lemma resolve_same : forall root root', (forall q, match mod_at root q, mod_at root' q with
   | Some x, Some y => m_name_ x = m_name_ y /\ m_tab x = m_tab y /\ same_names (m_inner x) (m_inner y) | None, None => True | _, _ => False end) ->
  forall n p sym orig first, resolve_scope n root' p sym orig first = resolve_scope n root p sym orig first.
Proof.
  intros root root' S. induction n as [|n IH]; intros p sym orig first; cbn [resolve_scope]; [reflexivity|]. pose proof (S p) as P.
  destruct (mod_at root p) as [m|], (mod_at root' p) as [m'|]; try tauto. destruct P as (P1 & P2 & P3). rewrite <- P1.
  assert (I : forall c, mem c (m_inner m') = mem c (m_inner m)) by (intros; apply same_names_mem, P3).
  assert (H : has_symbol_here m' sym = has_symbol_here m sym) by (unfold has_symbol_here; rewrite P2, I; reflexivity). rewrite H. destruct (negb first && String.eqb sym orig); [reflexivity|].
  destruct (split_scope sym) as [[sc rest]|].
  - destruct (String.eqb sc ""); [destruct p; apply IH|]. rewrite I. rewrite !IH. destruct (if String.eqb sc (m_name_ m) && mem sc (m_inner m) then _ else _) as [[r|]|e]; cbn [bind]; [reflexivity| |reflexivity].
    destruct (mem sc (m_inner m)); [reflexivity|]. destruct p; [reflexivity|]. destruct first; [apply IH|reflexivity].
  - destruct (has_symbol_here m sym); [reflexivity|]. destruct p; [reflexivity|apply IH].
Qed.
Lemma retabled_same_lookup : forall k t b root p root' n x, split_scope (tname t) <> None -> call_register k t true root p = Ok (b, root') -> forall k', lookup n k' root' p x = lookup n k' root p x.
Proof.
  intros k t b root p root' n x SP H k'. unfold call_register in H. destruct (on_tables_spec _ _ _ _ _ H) as (EX & tab' & F & RT). unfold register in F. destruct (split_scope (tname t)); [|congruence]. injection F as _ <-.
  assert (TB : forall q, tab_at root' q = tab_at root q) by (intros q; rewrite (retabled_tab _ _ _ _ q EX RT); destruct (list_eq_dec string_dec q p) as [->|]; reflexivity).
  unfold lookup, resolve. rewrite (resolve_same root root'). { destruct (resolve_scope n root p x x true) as [[[q y]|]|e]; cbn [bind]; rewrite ?TB; reflexivity. }
  intros q. specialize (RT q). unfold tab_at in RT, TB. specialize (TB q). destruct (mod_at root q) as [m|], (mod_at root' q) as [m'|]; try tauto. destruct RT as (R1 & _ & R3). auto.
Qed.
Lemma resolve_plain : forall n root p x orig r, split_scope x = None -> resolve_scope n root p x orig true = Ok r ->
  match r with Some (q, y) => y = x /\ (q = p \/ declares root x p = false) | None => True end.
Proof.
  induction n as [|n IH]; intros root p x orig r SP H; cbn [resolve_scope] in H; [discriminate H|]. destruct (mod_at root p) as [m|] eqn:M; [|discriminate H]. cbn [negb andb] in H. rewrite SP in H.
  destruct (has_symbol_here m x) eqn:HS; [injection H as <-; auto|]. destruct p as [|c o]; [injection H as <-; exact I|]. specialize (IH _ _ _ _ _ SP H). destruct r as [[q y]|]; [|exact I].
  split; [apply IH|]. right. unfold declares. rewrite M. exact HS.
Qed.
Lemma declares_entry : forall root p x k t, entry root p k x = Some t -> declares root x p = true.
Proof.
  intros root p x k t H. unfold entry, declares, tab_at, has_symbol_here, mem in *. destruct (mod_at root p) as [m|]; [|destruct k; discriminate H].
  destruct k; cbn [get_table] in H; rewrite H; rewrite ?orb_true_r; reflexivity.
Qed.
Lemma lookup_plain : forall n k root p x q y t, split_scope x = None -> lookup n k root p x = Ok (q, y, t) -> y = x /\ (q = p \/ forall k', entry root p k' x = None).
Proof.
  intros n k root p x q y t SP H. unfold lookup, resolve in H. apply bind_ok_iff in H as (r & R & H). pose proof (resolve_plain _ _ _ _ _ _ SP R) as P. destruct r as [[q' y']|]; [|discriminate H].
  destruct (assoc y' _); [|discriminate H]. injection H as <- <- _. destruct P as [-> P]. split; [reflexivity|]. destruct P as [P|P]; [auto|right]. intros k'. destruct (entry root p k' x) as [t'|] eqn:E; [|reflexivity].
  rewrite (declares_entry _ _ _ _ _ E) in P. discriminate P.
Qed.

(** ** The functions of the parser *)
Definition safe {A} (root : modl) (x : run A) : Prop := keeps root (fst x).
Lemma safe_then : forall A B root (x : run A) (f : A -> modl -> run B), safe root x -> (forall a r, x = (r, Ok a) -> safe r (f a r)) -> safe root (andthen x f).
Proof. intros A B root [r [a|e]] f H K; unfold safe in *; cbn [andthen fst] in *; [|exact H]. eapply keeps_trans; [exact H|apply (K a r eq_refl)]. Qed.
Lemma safe_query : forall A B root (r : res A) (f : A -> run B), (forall a, r = Ok a -> safe root (f a)) -> safe root (query root r f).
Proof. intros A B root [a|e] f H; cbn [query]; [apply H; reflexivity|apply keeps_refl]. Qed.
Lemma safe_here : forall A root (r : res A), safe root (root, r).
Proof. intros. apply keeps_refl. Qed.
Lemma safe_update : forall A root (r : res (A * modl)), (forall a root', r = Ok (a, root') -> keeps root root') -> safe root (update root r).
Proof. intros A root [[a r]|e] H; unfold safe; cbn [update fst]; [apply (H a r eq_refl)|apply keeps_refl]. Qed.
Lemma safe_update_ : forall root (r : res modl), (forall root', r = Ok root' -> keeps root root') -> safe root (update_ root r).
Proof. intros root [r|e] H; unfold safe; cbn [update_ fst]; [apply (H r eq_refl)|apply keeps_refl]. Qed.
Ltac safely := repeat match goal with
  | |- safe _ (_, _) => apply safe_here
  | |- safe _ (query _ _ _) => apply safe_query; intros ? ?
  | |- safe _ (andthen _ _) => apply safe_then; [|intros ? ? ?]
  | |- safe _ (update _ _) => apply safe_update; intros ? ? ?
  end.
Lemma safe_declare : forall n c p x root, safe root (declare_struct_run n c p x root).
Proof. intros. unfold declare_struct_run. safely. eapply keeps_register; eassumption. Qed.
Lemma safe_struct_parts : forall n c p l name parent ms root, safe root (struct_parts_run n c p l name parent ms root).
Proof.
  intros n c p. induction l as [|a l IH]; intros name parent ms root; cbn [struct_parts_run]; [safely|]. destruct (a_orig a); try apply IH.
  - apply safe_then; [apply safe_declare|intros; apply IH].
  - apply safe_query. intros [t|] _; [apply IH|safely].
  - apply safe_query. intros; apply IH.
Qed.
Lemma store_run_touched : forall k y t root q, exists_module root q = true -> touched root (fst (store_run k y t root q)) q k y.
Proof.
  intros k y t root q EX. destruct (store_ok k y (fst t) root q EX) as [root' H]. unfold store_run. rewrite H. cbn [update_ andthen fst]. eapply touched_store, H.
Qed.
Lemma struct_new_name : forall x b t, struct_new x b = Ok t -> tname t = x.
Proof. intros x b t H. unfold struct_new in H. destruct b as [b|]; [destruct b; try discriminate H|]; injection H as <-; reflexivity. Qed.
Lemma safe_struct : forall n c p a root, safe root (struct_run n c p a root).
Proof.
  intros n c p a root. unfold struct_run. apply safe_then; [apply safe_struct_parts|]. intros [[name0 parent] ms] root1 _. apply safe_then; [destruct (_ && _); [apply safe_declare|safely]|]. intros name root2 _. clear root root1 name0.
  apply safe_query. intros [[q y] t] L. pose proof (lookup_entry _ _ _ _ _ _ _ _ L) as E. destruct (members_of t) as [|m0 mr] eqn:M; [|destruct (ignore_redefinition c); safely].
  assert (U : forall t0, entry root2 q Structs y = Some t0 -> ~ settled Structs t0) by (intros t0 E0; rewrite E in E0; injection E0 as <-; cbn [settled]; rewrite M; auto).
  destruct (String.eqb parent "").
  - unfold safe. eapply touched_keeps; [apply store_run_touched; eapply entry_exists, E|exact U].
  - apply safe_query. intros b _. apply safe_query. intros t' N. pose proof (struct_new_name _ _ _ N) as TN. destruct (call_register Structs t' true root2 p) as [[b' root3]|e] eqn:R; [|apply safe_here]. cbn [update andthen].
    pose proof (touched_replace _ _ _ _ _ _ R) as T. rewrite TN in T.
    assert (UP : forall t0, entry root2 p Structs name = Some t0 -> ~ settled Structs t0 \/ split_scope name <> None).
    { intros t0 E0. destruct (split_scope name) eqn:SP; [right; discriminate|left]. destruct (lookup_plain _ _ _ _ _ _ _ _ SP L) as [-> [->|NE]]; [apply U, E0|]. rewrite NE in E0. discriminate E0. }
    assert (K : keeps root2 root3).
    { destruct (split_scope name) eqn:SP.
      - apply (keeps_on_tables _ _ _ _ _ _ R). intros tab' F. unfold register in F. rewrite TN, SP in F. injection F as _ <-. apply tables_keep_refl.
      - eapply touched_keeps; [exact T|]. intros t0 E0. destruct (UP t0 E0) as [S|S]; [exact S|congruence]. }
    unfold query. destruct (lookup n Structs root3 p name) as [[[q' y'] t2]|e] eqn:L'; [|exact K]. cbn [fst snd]. pose proof (lookup_entry _ _ _ _ _ _ _ _ L') as E'.
    pose proof (store_run_touched Structs y' (add_members_run t2 ms) root3 q' (entry_exists _ _ _ _ _ E')) as T'. unfold safe.
    destruct (split_scope name) eqn:SP.
    + eapply keeps_trans; [exact K|]. eapply touched_keeps; [exact T'|]. assert (L2 : lookup n Structs root3 p name = lookup n Structs root2 p name) by (eapply retabled_same_lookup; [|exact R]; rewrite TN, SP; discriminate).
      rewrite L2, L in L'. injection L' as <- <- <-. intros t0 E0. rewrite E' in E0. injection E0 as <-. cbn [settled]. rewrite M. auto.
    + destruct (lookup_plain _ _ _ _ _ _ _ _ SP L') as [-> [->|NE]].
      * eapply touched_keeps; [eapply touched_trans; [exact T|exact T']|]. intros t0 E0. destruct (UP t0 E0) as [S|S]; [exact S|congruence].
      * exfalso. unfold call_register in R. destruct (on_tables_spec _ _ _ _ _ R) as (EX & tab' & F & RT). unfold register in F. rewrite TN, SP in F. injection F as _ <-. specialize (NE Structs). unfold entry in NE.
        rewrite (retabled_tab _ _ _ _ p EX RT) in NE. destruct (list_eq_dec string_dec p p); [|congruence]. unfold set_table, set_structs in NE. cbn [get_table structs] in NE. rewrite emplace_assoc, !remove_name_assoc, String.eqb_refl in NE. discriminate NE.
Qed.
Section Values2.
  Variable fc : prim -> prim -> list N -> list N.
  Variable flt : arith -> prim -> list N -> list N -> list N.
  Variable flit : prim -> string -> res (list N).
  Lemma safe_enumerators : forall l p e root, safe root (enumerators_run fc l p e root).
  Proof.
    induction l as [|a l IH]; intros p e root; cbn [enumerators_run]; [safely|]. destruct (add_enumerator_next e (a_tok a)) as [e' [u|er]]; [|safely].
    safely; [eapply keeps_create_constant; eassumption..|apply IH].
  Qed.
  Lemma safe_enum : forall p a root, safe root (enum_run fc p a root).
  Proof.
    intros p a root. unfold enum_run. destruct (a_sub a) as [|i r]; [safely|]. apply safe_then; [apply safe_enumerators|]. intros e root1 _. safely. eapply keeps_register; eassumption.
  Qed.
  Lemma safe_union_parts : forall n c p l name cs root, safe root (union_parts_run n c p l name cs root).
  Proof.
    intros n c p. induction l as [|a l IH]; intros name cs root; cbn [union_parts_run]; [safely|].
    destruct (a_orig a); try apply IH; safely; try apply IH; eapply keeps_register; eassumption.
  Qed.
  Lemma safe_union : forall n c p a root, safe root (union_run n c p a root).
  Proof.
    intros n c p a root. unfold union_run. apply safe_then; [apply safe_union_parts|]. intros [name cs] root1 _. apply safe_query. intros [[q y] t] L. pose proof (lookup_entry _ _ _ _ _ _ _ _ L) as E. cbn [fst snd] in *.
    assert (S : (List.length (members_of t) < 2)%nat -> safe root1 (store_run Unions y (add_cases_run t cs) root1 q)).
    { intros LT. unfold safe. eapply touched_keeps; [apply store_run_touched; eapply entry_exists, E|]. intros t0 E0. rewrite E in E0. injection E0 as <-. cbn [settled]. intros Q. exact (Nat.lt_irrefl _ (Nat.lt_le_trans _ _ _ LT Q)). }
    destruct (members_of t) as [|m1 [|m2 mr]]; cbn [List.length] in S; [apply S; repeat constructor..|]. destruct (ignore_redefinition c); safely.
  Qed.
  Lemma keeps_forward : forall n c p a root root', forward_dcl n c p a root = Ok root' -> keeps root root'.
  Proof.
    intros n c p a root root' H. unfold forward_dcl in H. apply bind_ok_iff in H as (x & _ & H). destruct (mod_at root p) as [m|]; [|discriminate H]. destruct (has_symbol_here m x); [discriminate H|].
    apply bind_ok_iff in H as ([b r] & H & E). injection E as <-. eapply keeps_register, H.
  Qed.
  Lemma keeps_alias : forall n c p a root root', alias_dcl n c p a root = Ok root' -> keeps root root'.
  Proof.
    intros n c p a root root' H. unfold alias_dcl in H. destruct (a_sub a) as [|x [|y l]]; try discriminate H. apply bind_ok_iff in H as (t & _ & H). apply bind_ok_iff in H as (r & _ & H).
    apply bind_ok_iff in H as (k & _ & H). apply bind_ok_iff in H as ([b r'] & H & E). injection E as <-. eapply keeps_create_alias, H.
  Qed.
  Lemma keeps_const : forall n c p a root root', const_dcl fc flt flit n c p a root = Ok root' -> keeps root root'.
  Proof.
    intros n c p a root root' H. unfold const_dcl in H. destruct (a_sub a) as [|x [|y [|z l]]]; try discriminate H.
    do 5 (apply bind_ok_iff in H as (? & _ & H)). apply bind_ok_iff in H as ([b r'] & H & E). injection E as <-. eapply keeps_create_constant, H.
  Qed.
  Lemma keeps_check_names : forall n c p l root root', check_names n c p l root = Ok root' -> keeps root root'.
  Proof.
    intros n c p. induction l as [|a l IH]; intros root root' H; cbn [check_names] in H; [injection H as <-; apply keeps_refl|].
    destruct (a_orig a); try (eapply IH, H). apply bind_ok_iff in H as (x & _ & H). eapply IH, H.
  Qed.
  Lemma keeps_at_module : forall f root p root', at_module (rev p) f root = Ok root' ->
    (forall a b, f a = Ok b -> m_tab b = m_tab a /\ forall c z, assoc c (m_inner a) = Some (Some z) -> assoc c (m_inner b) = Some (Some z)) -> keeps root root'.
  Proof.
    intros f root p root' H F. destruct (at_module_spec _ _ _ _ H) as [(a & b & Ha & Hab & Hb) Hrest]. destruct (F _ _ Hab) as [FT FI].
    assert (K : forall q m, mod_at root q = Some m -> exists m', mod_at root' q = Some m' /\ m_tab m' = m_tab m).
    { intros q m Q. rewrite mod_at_walk in *. destruct (list_eq_dec string_dec (firstn (List.length (rev p)) (rev q)) (rev p)) as [Hpre|Hpre].
      - rewrite <- (firstn_skipn (List.length (rev p)) (rev q)), Hpre, walk_app in Q |- *. rewrite Ha in Q. rewrite Hb.
        destruct (skipn (List.length (rev p)) (rev q)) as [|c l]; cbn [walk] in *; [injection Q as <-; eauto|]. destruct (assoc c (m_inner a)) as [[z|]|] eqn:A; try discriminate Q. rewrite (FI _ _ A). eauto.
      - specialize (Hrest (rev q)). rewrite Q in Hrest. destruct (walk (rev q) root') as [m'|]; [|destruct Hrest; intros s E; apply Hpre; rewrite E, firstn_app, Nat.sub_diag; cbn [firstn]; rewrite firstn_all, app_nil_r; reflexivity].
        exists m'. split; [reflexivity|]. destruct Hrest as (_ & R & _); [intros s E; apply Hpre; rewrite E, firstn_app, Nat.sub_diag; cbn [firstn]; rewrite firstn_all, app_nil_r; reflexivity|]. symmetry. exact R. }
    unfold keeps, exists_module, entry, const_entry, tab_at. split; [|split].
    - intros q Q. destruct (mod_at root q) as [m|] eqn:M; [|discriminate Q]. destruct (K _ _ M) as (m' & -> & _). reflexivity.
    - intros q k y t Q. destruct (mod_at root q) as [m|] eqn:M; [|destruct k; discriminate Q]. destruct (K _ _ M) as (m' & -> & E). rewrite E. eauto.
    - intros q y d Q. destruct (mod_at root q) as [m|] eqn:M; [|discriminate Q]. destruct (K _ _ M) as (m' & -> & E). rewrite E. exact Q.
  Qed.
  Lemma keeps_create_submodule : forall x root p root', call_create_submodule x root p = Ok root' -> keeps root root'.
  Proof.
    intros x root p root' H. apply (keeps_at_module _ _ _ _ H). intros a b E. unfold create_submodule in E. destruct (assoc x (m_inner a)) as [[z|]|] eqn:A; [injection E as <-; auto|discriminate E|]. injection E as <-.
    split; [reflexivity|]. cbn [m_inner]. intros c z C. rewrite emplace_assoc. destruct (String.eqb c x) eqn:CX; [apply String.eqb_eq in CX; subst; congruence|exact C].
  Qed.
  Lemma keeps_submodule : forall x root p b root', call_submodule x root p = Ok (b, root') -> keeps root root'.
  Proof.
    intros x root p b root' H. unfold call_submodule in H. destruct (mod_at root p) as [m|] eqn:M; [|discriminate H]. apply bind_ok_iff in H as (r & H & E). injection E as _ <-.
    apply (keeps_at_module _ _ _ _ H). intros a b' E. injection E as <-. unfold submodule. destruct (assoc x (m_inner a)) as [[z|]|] eqn:A; cbn [fst]; [auto..|].
    split; [reflexivity|]. cbn [m_inner]. intros c z C. rewrite emplace_assoc. destruct (String.eqb c x) eqn:CX; [apply String.eqb_eq in CX; subst; congruence|exact C].
  Qed.
  Lemma safe_build : forall n c a p root, safe root (build_run fc flt flit n c p a root).
  Proof.
    intros n c. induction a as [o t k l IH] using ast_rect'; intros p root.
    destruct t; cbn [build_run]; try solve [apply safe_struct|apply safe_union|apply safe_enum|apply safe_here|apply safe_update_; intros r R; (eapply keeps_const, R || eapply keeps_forward, R || eapply keeps_alias, R || eapply keeps_check_names, R)];
      try solve [revert root; induction IH as [|a l Ha Hl IHl]; intros root; [apply safe_here|]; apply safe_then; [apply Ha|intros [] r _; apply IHl]].
    generalize (@None place) as sc. revert root. induction IH as [|a l Ha Hl IHl]; intros root sc; [apply safe_here|].
    destruct (a_tag a); try (apply safe_then; [apply Ha|intros [] r _; apply IHl]). destruct (rule_eqb (a_orig a) R_IDENTIFIER).
    - apply safe_query. intros x _. apply safe_then; [destruct (has_submodule root p x); [apply safe_here|apply safe_update_; intros r R; eapply keeps_create_submodule, R]|]. intros [] r _.
      apply safe_then; [apply safe_update; intros b r' R; eapply keeps_submodule, R|]. intros b r' _. destruct b; [apply IHl|apply safe_here].
    - destruct sc as [q|]; [|apply safe_here]. apply safe_then; [apply safe_struct|intros [] r _; apply IHl].
  Qed.
  Lemma safe_parse : forall n c text root, keeps root (fst (parse_run fc flt flit n c text root)).
  Proof.
    intros n c text root. unfold parse_run. destruct (parse_document n text) as [[a|]|]; [|apply keeps_refl..]. apply (safe_then _ _ root); [apply safe_build|intros; apply safe_here].
  Qed.
End Values2.
