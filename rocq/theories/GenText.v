(** The texts of generator.hpp are the texts the parser facts are about. *)
From Verif Require Import Base Types TypeBuild Mem Hash MapOps Ops IntOps ModuleSpec ModuleFacts Module DepTree Peg0 Grammar Peg PegRules IdlParse GenIdl GenSpec TypeText StructText StructRead IdlLitFacts IdlLit AliasText EnumText.
Local Open Scope string_scope.

(** How a named type is written. *)
Definition gname (g : gnode) (scoped : bool) (t : ty) : string := type_idl g scoped t.
Definition is_leaf (t : ty) : bool := match t with TArr _ _ _ | TSeq _ _ | TMap _ _ _ => false | _ => true end.
Lemma type_idl_false : forall g t, type_idl g false t = type_text (gname g false) t.
Proof.
  intros g t. induction t as [pr|nm sz vals|k b|nm c IHc b|c IHc b|k IHk v IHv b|k IHk v IHv|nm sz ms|nm sz ms ls dv iv d|nm a IHa]; cbn [type_idl type_text]; try reflexivity.
  - exact IHc.
  - rewrite IHc. reflexivity.
  - rewrite IHk, IHv. reflexivity.
Qed.
Definition member_name (g : gnode) (t : ty) : ty -> string := gname g (is_leaf t).
Definition case_name (g : gnode) (t : ty) : ty -> string := gname g false.
Lemma type_idl_member : forall g t, is_array t = false -> type_idl g true t = type_text (member_name g t) t.
Proof.
  intros g [pr|nm sz vals|k b|nm c b|c b|k v b|k v|nm sz ms|nm sz ms ls dv iv d|nm a] A; try discriminate A; unfold member_name; cbn [is_leaf]; try reflexivity; cbn [type_idl type_text]; rewrite !type_idl_false; reflexivity.
Qed.
Lemma type_text_base : forall name t, type_text name (array_base t) = type_text name t.
Proof. intros name t. induction t; try reflexivity. exact IHt1 || exact IHt. Qed.
Lemma member_idl_core : forall g x t, member_idl g true x t = member_core (member_name g t) x t ++ NL.
Proof.
  intros g x t. unfold member_idl, member_core. f_equal. rewrite type_text_base. destruct (is_array t) eqn:A.
  - destruct t as [| | |nm c b| | | | | |]; try discriminate A. rewrite type_idl_false. unfold member_name. cbn [is_leaf]. rewrite ?app_assoc_s. reflexivity.
  - destruct (array_dims_nil t A) as [-> _]. rewrite <- (type_idl_member g t A). destruct t; try discriminate A; reflexivity.
Qed.
Lemma case_idl_core : forall g x t, member_idl g false x t = member_core (case_name g t) x t ++ NL.
Proof.
  intros g x t. unfold member_idl, member_core. f_equal. rewrite type_text_base. unfold case_name. rewrite <- type_idl_false. destruct (is_array t) eqn:A.
  - destruct t as [| | |nm c b| | | | | |]; try discriminate A. rewrite ?app_assoc_s. reflexivity.
  - destruct (array_dims_nil t A) as [-> _]. destruct t; try discriminate A; reflexivity.
Qed.
Definition plain_members (ms : list (string * N * ty)) : list (string * ty) := map (fun m => (m_name m, m_type m)) ms.
Lemma members_idl_text : forall g tabs ms, members_idl g tabs ms = members_text (member_name g) tabs (plain_members ms).
Proof.
  intros g tabs ms. induction ms as [|[[x o] t] ms IH]; [reflexivity|]. cbn [members_idl plain_members map members_text m_name m_type fst snd]. rewrite member_idl_core, IH, !app_assoc_s. reflexivity.
Qed.
Lemma add_members_list : forall ms nm s l t, add_members (TStruct nm s l) ms = Ok t -> exists s' l', t = TStruct nm s' (l ++ l') /\ plain_members l' = ms.
Proof.
  induction ms as [|[x mt] ms IH]; intros nm s l t H.
  - injection H as <-. exists s, []. rewrite app_nil_r. split; reflexivity.
  - cbn [add_members add_member] in H. destruct (has_member x l); [discriminate H|]. apply IH in H as (s' & l' & -> & <-). exists s', ((x, s, mt) :: l'). rewrite <- app_assoc. split; reflexivity.
Qed.
Lemma struct_of_members : forall x bt ms t, struct_of x bt ms = Ok t -> tname t = x /\
  plain_members (skipn (match bt with Some b => List.length (members_of b) | None => O end) (members_of t)) = ms.
Proof.
  intros x bt ms t H. unfold struct_of in H. destruct bt as [[]|]; cbn [struct_new bind] in H; try discriminate H; apply add_members_list in H as (s' & l' & -> & <-); split; try reflexivity.
  cbn [members_of]. rewrite skipn_app, skipn_all, Nat.sub_diag. reflexivity.
Qed.
Lemma struct_idl_text : forall g tabs x y bt ms t, struct_of y bt ms = Ok t ->
  struct_idl g tabs x bt t = indent tabs ++ struct_core (member_name g) tabs x (option_map (fun b => g_scope g b ++ tname b) bt) ms ++ ";" ++ NL.
Proof.
  intros g tabs x y bt ms t H. destruct (struct_of_members _ _ _ _ H) as [_ M]. unfold struct_idl, struct_core. rewrite members_idl_text.
  rewrite M. destruct bt as [b|]; cbn [option_map inherit_text]; rewrite ?app_assoc_s; reflexivity.
Qed.
Lemma alias_idl_text : forall g tabs x t, alias_idl g tabs x t = indent tabs ++ alias_core (gname g false) x t ++ ";" ++ NL.
Proof. intros g tabs x t. unfold alias_idl, alias_core. rewrite type_text_base, <- type_idl_false, !app_assoc_s. reflexivity. Qed.
Lemma enum_idl_text : forall tabs x vals, enum_idl tabs x vals = indent tabs ++ enum_core tabs x (sort_by_value vals) ++ ";" ++ NL.
Proof. intros tabs x vals. unfold enum_idl, enum_core. rewrite !app_assoc_s. reflexivity. Qed.
