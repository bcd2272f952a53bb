(** C38 conversion of strings. *)
From Verif Require Import Base Codecvt CodecvtFacts.

(** ** Specification: a text is a list of Unicode scalar values [cs]; flat_map utf8 cs and flat_map utf16 cs are its encodings.
    [straddles enc cs]: in the encoding some character lies across a multiple of 64 units. *)
Definition straddles (enc : N -> list N) (cs : list N) : Prop :=
  exists a c b k, cs = a ++ c :: b /\ let start := List.length (flat_map enc a) in (start < 64 * k)%nat /\ (64 * k < start + List.length (enc c))%nat.
Lemma straddles_aligned enc cs : (forall c, 1 <= List.length (enc c) <= 64)%nat -> straddles enc cs <-> ~ aligned enc cs.
Proof.
  intros Hl. split.
  - intros (a & c & b & k & -> & H1 & H2) Ha. specialize (Ha a c b eq_refl). set (s := List.length (flat_map enc a)) in *. pose proof (Nat.div_mod s 64 ltac:(lia)). pose proof (Nat.mod_upper_bound s 64 ltac:(lia)). pose proof (Hl c).
    assert (s / 64 < k)%nat by nia. nia.
  - intros Hn.
    assert (Hex : forall cs pre, (exists a c b, cs = a ++ c :: b /\ (64 < List.length (flat_map enc (pre ++ a)) mod 64 + List.length (enc c))%nat) \/ forall a c b, cs = a ++ c :: b -> (List.length (flat_map enc (pre ++ a)) mod 64 + List.length (enc c) <= 64)%nat).
    { clear - enc. induction cs as [|c cs IH]; intros pre; [right; intros [] ? ? E; discriminate E|]. destruct (le_lt_dec (List.length (flat_map enc pre) mod 64 + List.length (enc c)) 64) as [H|H].
      - destruct (IH (pre ++ [c])) as [(a & d & b & -> & Hd)|Hd].
        + left. exists (c :: a), d, b. split; [reflexivity|]. rewrite <- app_assoc in Hd. exact Hd.
        + right. intros [|x a] d b E; cbn in E; injection E as <- E; [rewrite app_nil_r; exact H|]. specialize (Hd a d b E). rewrite <- app_assoc in Hd. exact Hd.
      - left. exists [], c, cs. split; [reflexivity|]. rewrite app_nil_r. exact H. }
    destruct (Hex cs []) as [(a & c & b & E & H)|H]; [|destruct Hn; exact H]. cbn [app] in H. exists a, c, b. set (s := List.length (flat_map enc a)) in *. exists (S (s / 64)). split; [exact E|].
    pose proof (Nat.div_mod s 64 ltac:(lia)). pose proof (Nat.mod_upper_bound s 64 ltac:(lia)). cbv zeta. fold s. lia.
Qed.
Lemma utf8_room c : (1 <= List.length (utf8 c) <= 64)%nat.
Proof. pose proof (utf8_len c). lia. Qed.
Lemma utf16_room c : (1 <= List.length (utf16 c) <= 64)%nat.
Proof. pose proof (utf16_len c). lia. Qed.
Lemma one8 c : (1 <= List.length (utf8 c))%nat. Proof. apply utf8_room. Qed.
Lemma one16 c : (1 <= List.length (utf16 c))%nat. Proof. apply utf16_room. Qed.

(** For well-formed input the conversion ends.  It is exact if and only if no character of the output straddles a
    multiple of 64 units: otherwise the output is too long, for all contents of the buffer. *)
Theorem C38_to_utf16_partial : forall cs junk fuel, Forall scalar cs -> List.length junk = 64%nat -> (List.length cs < fuel)%nat ->
  exists r, to_utf16 fuel junk (flat_map utf8 cs) = Ok r /\ (~ straddles utf16 cs -> r = flat_map utf16 cs) /\ (straddles utf16 cs -> (List.length (flat_map utf16 cs) < List.length r)%nat).
Proof.
  intros cs junk fuel Hs Hj Hf. destruct (convert_spec next8 utf8 utf16 CPartial next8_utf8 one8 utf16_room fuel cs junk [] Hs Hj Hf) as (r & E & H1 & H2 & _).
  exists r. split; [exact E|]. rewrite (straddles_aligned utf16 cs utf16_room). cbn [app List.length Nat.add] in *. split; [|exact H2]. intros Hn. apply H1.
  intros a c b Ec. destruct (le_lt_dec (List.length (flat_map utf16 a) mod 64 + List.length (utf16 c)) 64) as [H|H]; [exact H|]. exfalso. apply Hn. intros Ha. specialize (Ha a c b Ec). lia.
Qed.
Theorem C38_to_utf8_partial : forall cs junk fuel, Forall scalar cs -> List.length junk = 64%nat -> (List.length cs < fuel)%nat ->
  exists r, to_utf8 fuel junk (flat_map utf16 cs) = Ok r /\ (~ straddles utf8 cs -> r = flat_map utf8 cs) /\ (straddles utf8 cs -> (List.length (flat_map utf8 cs) < List.length r)%nat).
Proof.
  intros cs junk fuel Hs Hj Hf. destruct (convert_spec next16 utf16 utf8 COk next16_utf16 one16 utf8_room fuel cs junk [] Hs Hj Hf) as (r & E & H1 & H2 & _).
  exists r. split; [exact E|]. rewrite (straddles_aligned utf8 cs utf8_room). cbn [app List.length Nat.add] in *. split; [|exact H2]. intros Hn. apply H1.
  intros a c b Ec. destruct (le_lt_dec (List.length (flat_map utf8 a) mod 64 + List.length (utf8 c)) 64) as [H|H]; [exact H|]. exfalso. apply Hn. intros Ha. specialize (Ha a c b Ec). lia.
Qed.
(** Texts of one unit per character are exact at any length; so are texts of at most 64 units. *)
Theorem C38_short_or_single : forall enc cs, (forall c, 1 <= List.length (enc c) <= 64)%nat -> (forall c, In c cs -> List.length (enc c) = 1%nat) \/ (List.length (flat_map enc cs) <= 64)%nat -> ~ straddles enc cs.
Proof.
  intros enc cs Hl H (a & c & b & k & -> & H1 & H2). cbv zeta in *. destruct H as [H|H].
  - rewrite (H c) in H2 by (apply in_or_app; right; left; reflexivity). lia.
  - rewrite flat_map_app, app_length in H. cbn in H. rewrite app_length in H. assert (k = 1 \/ k = 0 \/ 2 <= k)%nat as [->|[->|Hk]] by lia; lia.
Qed.
(** A text of 63 letters and a character of two units: one unit too many. *)
Theorem C38_straddle_refuted : exists cs, Forall scalar cs /\ forall junk fuel, List.length junk = 64%nat -> (64 < fuel)%nat ->
  (exists r, to_utf16 fuel junk (flat_map utf8 cs) = Ok r /\ r <> flat_map utf16 cs) /\ (exists r, to_utf8 fuel junk (flat_map utf16 cs) = Ok r /\ r <> flat_map utf8 cs).
Proof.
  exists (repeat 65 63 ++ [128512]). assert (Hs : Forall scalar (repeat 65 63 ++ [128512])).
  { apply Forall_app. split; [apply Forall_forall; intros x Hx; apply repeat_spec in Hx; subst; left; lia|]. constructor; [right; lia|constructor]. }
  split; [exact Hs|]. intros junk fuel Hj Hf. split.
  - destruct (C38_to_utf16_partial _ junk fuel Hs Hj) as (r & E & _ & H); [cbn; lia|]. exists r. split; [exact E|]. intros ->. apply (Nat.lt_irrefl _ (H ltac:(exists (repeat 65 63), 128512, [], 1%nat; split; [reflexivity|vm_compute; split; repeat constructor]))).
  - destruct (C38_to_utf8_partial _ junk fuel Hs Hj) as (r & E & _ & H); [cbn; lia|]. exists r. split; [exact E|]. intros ->. apply (Nat.lt_irrefl _ (H ltac:(exists (repeat 65 63), 128512, [], 1%nat; split; [reflexivity|vm_compute; split; repeat constructor]))).
Qed.
(** Input that breaks off within a character: the loop never ends (it appends 64 units per turn). *)
Theorem C38_truncated_refuted : forall cs c a b junk fuel, Forall scalar cs -> scalar c -> a <> [] -> b <> [] -> List.length junk = 64%nat ->
  (utf8 c = a ++ b -> to_utf16 fuel junk (flat_map utf8 cs ++ a) = Fail Loop) /\ (utf16 c = a ++ b -> to_utf8 fuel junk (flat_map utf16 cs ++ a) = Fail Loop).
Proof.
  intros cs c a b junk fuel Hs Hc Ha Hb Hj. split; intros E.
  - apply (convert_never next8 utf8 utf16 CPartial next8_utf8 one8 utf16_room); try assumption; [eapply next8_prefix; eassumption|right; reflexivity].
  - apply (convert_never next16 utf16 utf8 COk next16_utf16 one16 utf8_room); try assumption; [eapply next16_prefix; eassumption|left; reflexivity].
Qed.
(** Ill-formed input is rejected with an exception, wherever it is. *)
Theorem C38_invalid_rejected : forall cs t junk fuel, Forall scalar cs -> t <> [] -> List.length junk = 64%nat -> (List.length cs + 1 < fuel)%nat ->
  (next8 t = Invalid -> to_utf16 fuel junk (flat_map utf8 cs ++ t) = Fail Throw) /\ (next16 t = Invalid -> to_utf8 fuel junk (flat_map utf16 cs ++ t) = Fail Throw).
Proof.
  intros cs t junk fuel Hs Ht Hj Hf. split; intros E.
  - apply (convert_error next8 utf8 utf16 CPartial next8_utf8 one8 utf16_room); assumption.
  - apply (convert_error next16 utf16 utf8 COk next16_utf16 one16 utf8_room); assumption.
Qed.
(** There and back: texts that straddle in neither encoding. *)
Theorem C38_round_trip_partial : forall cs junk fuel, Forall scalar cs -> List.length junk = 64%nat -> (List.length cs < fuel)%nat -> ~ straddles utf8 cs -> ~ straddles utf16 cs ->
  (do u <- to_utf16 fuel junk (flat_map utf8 cs); to_utf8 fuel junk u) = Ok (flat_map utf8 cs).
Proof.
  intros cs junk fuel Hs Hj Hf H8 H16. destruct (C38_to_utf16_partial cs junk fuel Hs Hj Hf) as (r & E & H & _). rewrite E. cbn [bind]. rewrite (H H16). destruct (C38_to_utf8_partial cs junk fuel Hs Hj Hf) as (r' & E' & H' & _). rewrite E', (H' H8). reflexivity.
Qed.
Example C38_nontrivial : let cs := [72; 233; 8364; 128512] ++ repeat 97 200 in Forall scalar cs /\ flat_map utf8 [72; 233; 8364; 128512] = [72; 195; 169; 226; 130; 172; 240; 159; 152; 128] /\
  flat_map utf16 [8364; 128512] = [8364; 55357; 56832] /\ to_utf16 300 (repeat 0 64) (flat_map utf8 cs) = Ok (flat_map utf16 cs).
Proof.
  cbv zeta. split; [|repeat split; vm_compute; reflexivity]. apply Forall_app. split; [apply Forall_forall; intros x Hx; cbn [In] in Hx; unfold scalar; destruct Hx as [<-|[<-|[<-|[<-|[]]]]]; lia|].
  apply Forall_forall. intros x Hx. apply repeat_spec in Hx. subst. left. reflexivity.
Qed.

Print Assumptions C38_to_utf16_partial.
Print Assumptions C38_to_utf8_partial.
Print Assumptions C38_short_or_single.
Print Assumptions C38_straddle_refuted.
Print Assumptions C38_truncated_refuted.
Print Assumptions C38_invalid_rejected.
Print Assumptions C38_round_trip_partial.
