(** Theorems about as_vector() and items(): C58. *)
From Verif Require Import Base Types TypeBuild TypeSpec Compat CompatFacts Mem MemSpec TyInd Layout CompatFacts2 MemEqns MemFacts
  EnumFacts ConstructFacts CopyFacts CompareFacts Ops OpsSpec UnionFacts SeqFacts CollectFacts ValueSpec ValueFacts NumSpec NumFacts DataSpec DataFacts VectorOps PropData.

(** [T] is the C++ type for elements of type [c]. *)
Inductive elements_are : ty -> scalar_ty -> Prop :=
| ea_prim p : elements_are (TPrim p) (StPrim p)
| ea_str k bd : elements_are (TStr k bd) (StStr k).
(** The value of an element of the vector. *)
Definition element (s : scalar) : value := match s with ScPrim _ bs => VBytes bs | ScStr _ s => VStr s end.
(** [r] : std::vector<T> lists the values [l]. *)
Definition lists (x : scalar_ty) (r : list scalar) (l : list value) : Prop := map element r = l /\ Forall (fun s => scalar_type s = x) r.

Lemma content_is_iff c x : content_is c x = true <-> elements_are c x.
Proof.
  split.
  - destruct c, x; cbn; try discriminate; intros H; [apply prim_eqb_eq in H; subst; constructor|destruct k, k0; try discriminate H; constructor].
  - intros [p|k bd]; cbn; [apply prim_eqb_eq; reflexivity|destruct k; reflexivity].
Qed.
Lemma read_object_ok c x b off v : elements_are c x -> read c b off = Ok v -> exists s, read_object x b off = Ok s /\ element s = v /\ scalar_type s = x.
Proof.
  intros [p|k bd] R; cbn [read read_object] in *.
  - apply bind_ok in R as (bs & E & R). injection R as <-. rewrite E. eexists. split; [reflexivity|]. split; reflexivity.
  - destruct (at_ b off); try discriminate R. destruct (skind_eqb k k0 && intact b off SZ_STRING); [|discriminate R]. injection R as <-. eexists. split; [reflexivity|]. split; reflexivity.
Qed.
Lemma sizeof_elements c x : elements_are c x -> sizeof x = msize c. Proof. intros [p|k bd]; reflexivity. Qed.
Lemma read_objects_ok c x b : elements_are c x -> forall n i off l, collect n i (fun i => read c b (off + i * msize c)) = Ok l ->
  exists r, read_objects n x b (off + i * msize c) = Ok r /\ lists x r l.
Proof.
  intros E n. induction n as [|n IH]; intros i off l H; cbn [collect read_objects] in *.
  - injection H as <-. exists []. split; [reflexivity|]. split; [reflexivity|constructor].
  - apply bind_ok in H as (v & R & H). apply bind_ok in H as (l' & C & H). injection H as <-. destruct (read_object_ok c x b _ v E R) as (s & Rs & Es & Ts). destruct (IH _ _ _ C) as (r & Rr & Er & Tr).
    rewrite Rs. cbn [bind]. rewrite (sizeof_elements c x E). replace (off + i * msize c + msize c) with (off + (i + 1) * msize c) by lia. rewrite Rr. eexists. split; [reflexivity|]. split; [cbn [map]; congruence|constructor; assumption].
Qed.
(** as_vector<T>() of an array of primitive or string elements: its elements, in order. *)
Theorem C58_array : forall nm c n x b off l, elements_are c x -> read (TArr nm c n) b off = Ok (VNode l) -> exists r, as_vector x (TArr nm c n) b off = Ok r /\ lists x r l.
Proof.
  intros nm c n x b off l E R. cbn [read] in R. apply bind_ok in R as (l' & C & R). injection R as <-. unfold as_vector. cbn [rget]. rewrite (proj2 (content_is_iff c x) E).
  destruct (read_objects_ok c x b E _ _ _ _ C) as (r & Rr & H). rewrite N.mul_0_l, N.add_0_r in Rr. eauto.
Qed.
(** The same for a sequence that is not empty. *)
Theorem C58_sequence_partial : forall c bd x b off l, elements_are c x -> read (TSeq c bd) b off = Ok (VNode l) -> l <> [] -> exists r, as_vector x (TSeq c bd) b off = Ok r /\ lists x r l.
Proof.
  intros c bd x b off l E R NE. cbn [read] in R. unfold as_vector. cbn [rget]. rewrite (proj2 (content_is_iff c x) E). destruct (at_ b off) as [| | | |c' cap size m| |]; try discriminate R. destruct (intact b off SZ_SEQ); [|discriminate R].
  apply bind_ok in R as (l' & C & R). injection R as <-. destruct (collect_nth _ _ _ _ C) as [HL _].
  rewrite (proj2 (N.ltb_lt 0 size)) by (destruct l'; [congruence|cbn in HL; lia]). destruct (read_objects_ok c x m E (N.to_nat size) 0 0 l') as (r & Rr & H); [rewrite <- C; apply collect_ext; intros; f_equal; lia|]. rewrite N.mul_0_l, N.add_0_r in Rr. eauto.
Qed.
(** as_vector() of an empty sequence: the check of the element 0 fails. *)
Theorem C58_sequence_refuted : forall c bd x b off, elements_are c x -> read (TSeq c bd) b off = Ok (VNode []) -> as_vector x (TSeq c bd) b off = Fail Assert.
Proof.
  intros c bd x b off E R. cbn [read] in R. unfold as_vector. cbn [rget]. rewrite (proj2 (content_is_iff c x) E). destruct (at_ b off) as [| | | |c' cap size m| |]; try discriminate R. destruct (intact b off SZ_SEQ); [|discriminate R].
  apply bind_ok in R as (l' & C & R). injection R as ->. destruct (collect_nth _ _ _ _ C) as [HL _]. cbn in HL. replace size with 0 by lia. reflexivity.
Qed.
(** as_vector<char>() of a string: the codes of its characters, as many bytes each as the character type has. *)
Theorem C58_string : forall k bd b off s, read (TStr k bd) b off = Ok (VStr s) -> exists r, as_vector (StPrim (char_of k)) (TStr k bd) b off = Ok r /\
  Forall (fun x => scalar_type x = StPrim (char_of k)) r /\
  Forall2 (fun x c => exists bs, x = ScPrim (char_of k) bs /\ N.of_nat (List.length bs) = prim_size (char_of k) /\ (c < 256 ^ prim_size (char_of k) -> le_decode bs = c)) r s.
Proof.
  intros k bd b off s R. cbn [read] in R. unfold as_vector. cbn [rget]. assert (Q : content_is (TPrim (char_of k)) (StPrim (char_of k)) = true) by (apply content_is_iff; constructor). rewrite Q.
  destruct (at_ b off) as [| | |k' s'| | |]; try discriminate R. destruct (skind_eqb k k' && intact b off SZ_STRING); [|discriminate R]. injection R as ->. eexists. split; [reflexivity|]. split.
  - apply Forall_map. apply Forall_forall. intros; reflexivity.
  - induction s as [|c s IH]; constructor; [|exact IH]. eexists. split; [reflexivity|]. rewrite le_encode_length, N2Nat.id. split; [reflexivity|]. intros H. rewrite le_decode_encode, N2Nat.id. apply N.mod_small, H.
Qed.
(** Everything else is rejected: other types, and collections of other elements than T. *)
Theorem C58_checked : forall x t b off,
  match rget t with TArr _ c _ | TSeq c _ => ~ elements_are c x | TStr k _ => x <> StPrim (char_of k) | _ => True end -> as_vector x t b off = Fail Assert.
Proof.
  intros x t b off H. unfold as_vector. destruct (rget t); try reflexivity.
  - destruct (content_is (TPrim (char_of k)) x) eqn:E; [|reflexivity]. apply content_is_iff in E. inversion E; subst. congruence.
  - destruct (content_is t0 x) eqn:E; [apply content_is_iff in E; contradiction|reflexivity].
  - destruct (content_is t0 x) eqn:E; [apply content_is_iff in E; contradiction|reflexivity].
Qed.
(** An array of an alias of a primitive type holds such values but has no as_vector(). *)
Theorem C58_alias_refuted : forall x b off l, read (TArr "array_2_I" (TAlias "I" (TPrim PI32)) 2) b off = Ok (VNode l) -> as_vector x (TArr "array_2_I" (TAlias "I" (TPrim PI32)) 2) b off = Fail Assert.
Proof. intros x b off l _. apply C58_checked. cbn. intros H. inversion H. Qed.

(** ** items() *)
Lemma mmap_both {A B} (f : A -> res B) l r : mmap f l = Ok r -> Forall2 (fun a b => f a = Ok b) l r.
Proof. revert r. induction l as [|a l IH]; cbn [mmap]; intros r H; [injection H as <-; constructor|]. apply bind_ok in H as (x & E & H). apply bind_ok in H as (y & E' & H). injection H as <-. constructor; [exact E|apply IH, E']. Qed.
(** items() of a struct: its members, in order, each with its name and a reference to its value. *)
Theorem C58_items : forall nm s ms b off l, live (TStruct nm s ms) b off -> read (TStruct nm s ms) b off = Ok (VNode l) ->
  exists r, items (TStruct nm s ms) b off = Ok r /\ map fst r = map m_name ms /\
    Forall2 (fun '(_, (T, b', o)) '(m, w) => T = rget (m_type m) /\ live T b' o /\ read T b' o = Ok w) r (combine ms l) /\ List.length ms = List.length l.
Proof.
  intros nm s ms b off l L R. rewrite live_struct in L. rewrite read_struct in R. apply bind_ok in R as (l' & M & R). injection R as <-. apply mmap_both in M.
  eexists. split; [reflexivity|]. split; [rewrite map_map; apply map_ext; reflexivity|]. split; [|clear - M; induction M; cbn; congruence].
  induction M as [|m w ms l E _ IH]; [constructor|]. inversion L; subst. cbn [map combine]. constructor; [|apply IH; assumption]. split; [reflexivity|]. rewrite <- live_rget, <- read_rget. split; assumption.
Qed.
(** items() of a union lists the discriminator and all cases, not only the active one: the reference to another case leads
    to memory that holds no value of its type. *)
Theorem C58_items_refuted : exists d v r b o, new_data exd_union = Ok d /\ holds d v /\ items (d_type d) (d_mem d) 0 = Ok r /\ In ("x"%string, (TStr SK8 4, b, o)) r /\ ~ live (TStr SK8 4) b o /\ read (TStr SK8 4) b o = Fail UB.
Proof.
  assert (K : ok_ty exd_union) by (vm_compute; repeat split; congruence). destruct (new_holds exd_union (at_union _ exd_union_built) K) as (d & E & T & H & _).
  exists d. eexists. eexists. exists (d_mem d), 4. split; [exact E|]. split; [exact H|]. split; [rewrite T; vm_compute; reflexivity|]. split; [right; left; reflexivity|].
  assert (A : read (TStr SK8 4) (d_mem d) 4 = Fail UB) by (pose proof E as E'; vm_compute in E'; injection E' as <-; vm_compute; reflexivity). split; [|exact A].
  intros (s & [O1 O2] & _). cbn [read] in A. rewrite O1, O2 in A. discriminate A.
Qed.
(** A struct with a sequence of two strings and an array. *)
Example C58_nontrivial : exists d s b o, new_data (TSeq (TStr SK8 4) 3) = Ok d /\ push_scalar fc0 (ScStr SK8 [97; 98]) (d_type d) (d_mem d) 0 = Ok s /\
  read (TSeq (TStr SK8 4) 3) s 0 = Ok (VNode [VStr [97; 98]]) /\ as_vector (StStr SK8) (TSeq (TStr SK8 4) 3) s 0 = Ok [ScStr SK8 [97; 98]] /\ elements_are (TStr SK8 4) (StStr SK8) /\
  live exd_type b o /\ (exists l, read exd_type b o = Ok (VNode l)) /\ exists r, items exd_type b o = Ok r /\ map fst r = ["n"; "q"; "a"; "u"]%string.
Proof.
  destruct (new_holds exd_type (at_struct _ exd_built) exd_ok) as (e & E & T & H & _). destruct (new_holds (TSeq (TStr SK8 4) 3)) as (d & E' & T' & H' & _); [apply at_seq; [apply at_str|]; reflexivity|vm_compute; repeat split; congruence|].
  pose proof E' as E2. vm_compute in E2. injection E2 as <-. eexists. eexists. exists (d_mem e), 0. split; [exact E'|]. split; [vm_compute; reflexivity|]. split; [vm_compute; reflexivity|]. split; [vm_compute; reflexivity|]. split; [constructor|].
  destruct H as (_ & _ & _ & L & R). rewrite T in L, R. split; [exact L|]. split; [exists match default_value exd_type with VNode l => l | _ => [] end; exact R|]. eexists. split; reflexivity.
Qed.

Print Assumptions C58_array.
Print Assumptions C58_sequence_partial.
Print Assumptions C58_sequence_refuted.
Print Assumptions C58_string.
Print Assumptions C58_checked.
Print Assumptions C58_alias_refuted.
Print Assumptions C58_items.
Print Assumptions C58_items_refuted.
