(** Proofs about copying and comparing enumerations and pointers. *)
From Coq Require Import ZArith String List Bool Lia.
From Verif Require Import Base BaseProof EntryModel EntrySpec EntryProof ValueModel ValueSpec ValueProof ValueProof2.
Import ListNotations.
Open Scope Z_scope.
Local Open Scope res_scope.

(** a number at an address after other bytes were set *)
Lemma number_ext : forall n m m' a, (forall x, a <= x < a + Z.of_nat n -> m x = m' x) -> number_at m a n = number_at m' a n.
Proof. intros. rewrite <- !load_number. apply load_ext. auto. Qed.
Definition apart (a b : Z) (n : nat) : Prop := a = b \/ a + Z.of_nat n <= b \/ b + Z.of_nat n <= a.
Lemma number_range : forall m a n, bytes_ok m -> 0 <= number_at m a n < 2 ^ (8 * Z.of_nat n).
Proof. intros. rewrite <- load_number. apply load_range. auto. Qed.
Lemma copied_number : forall m m' a b n x, bytes_ok m -> apart a b n -> bytes_set m m' b n x ->
  x mod 2 ^ (8 * Z.of_nat n) = number_at m a n -> number_at m' a n = number_at m' b n.
Proof.
  intros m m' a b n x B A (S1 & S2) X. destruct A as [->|A]; [reflexivity|]. rewrite S1, X. apply number_ext. intros y Y. apply S2. lia.
Qed.
Lemma signed_mod : forall n x, 0 < n -> 0 <= x < 2 ^ n -> as_signed n x mod 2 ^ n = x.
Proof.
  intros n x P R. unfold as_signed. destruct (x <? 2 ^ (n - 1)).
  - apply Z.mod_small. lia.
  - replace (x - 2 ^ n) with (x + (-1) * 2 ^ n) by lia. rewrite Z_mod_plus_full. apply Z.mod_small. lia.
Qed.
Lemma copied_signed : forall m a z, bytes_ok m -> word z ->
  as_signed (8 * z) (number_at m a (Z.to_nat z)) mod 2 ^ (8 * Z.of_nat (Z.to_nat z)) = number_at m a (Z.to_nat z).
Proof.
  intros m a z B W. assert (0 < z) by (unfold word in W; lia). rewrite Z2Nat.id by lia. apply signed_mod; [lia|].
  pose proof (number_range m a (Z.to_nat z) B) as R. rewrite Z2Nat.id in R by lia. exact R.
Qed.

(** enumerations *)
Lemma equal_enum_ok : forall d n m v1 v2 z1 l1 z2 l2, acyclic d n -> bytes_ok m ->
  enum_type d v1 z1 l1 -> word z1 -> enum_type d v2 z2 l2 -> word z2 ->
  exists r, value_equal_enumeration (n + 3) d m v1 v2 = Ret r /\ (r = 0 \/ r = 1) /\
    (r = 1 <-> as_signed (8 * z1) (number_at m (v_addr v1) (Z.to_nat z1)) = as_signed (8 * z2) (number_at m (v_addr v2) (Z.to_nat z2))).
Proof.
  intros d n m v1 v2 z1 l1 z2 l2 A B T1 W1 T2 W2. unfold value_equal_enumeration.
  rewrite (enum_read d n m v1 z1 l1) by auto. cbn [bind]. rewrite (enum_read d n m v2 z2 l2) by auto. cbn [bind].
  eexists. split; [reflexivity|]. destruct (Z.eqb_spec (as_signed (8 * z1) (number_at m (v_addr v1) (Z.to_nat z1))) (as_signed (8 * z2) (number_at m (v_addr v2) (Z.to_nat z2)))); split; auto; split; auto; try discriminate; try contradiction.
Qed.
Lemma equal_enum_sound : forall n d m v1 v2 r, value_equal_enumeration n d m v1 v2 = Ret r -> 0 <= r ->
  (r = 0 \/ r = 1) /\ (exists z l, enum_type d v1 z l) /\ (exists z l, enum_type d v2 z l).
Proof.
  intros n d m v1 v2 r H P. unfold value_equal_enumeration in H.
  destruct (value_enumeration n d m v1) as [[e1|x]| | |] eqn:E1; try discriminate; cbn [bind] in H.
  - injection H as <-. change (0 <= -14) in P. lia.
  - destruct (value_enumeration n d m v2) as [[e2|y]| | |] eqn:E2; try discriminate; cbn [bind] in H; injection H as <-.
    + change (0 <= -14) in P. lia.
    + split; [destruct (x =? y); auto|]. split; eapply enum_read_sound; eauto.
Qed.
Lemma copy_enum_ok : forall d n m src dst z1 l1 z2 l2, acyclic d n -> bytes_ok m ->
  enum_type d src z1 l1 -> word z1 -> enum_type d dst z2 l2 -> word z2 ->
  exists m', value_copy_enumeration (n + 3) d m src dst = Ret (true, m') /\
    bytes_set m m' (v_addr dst) (Z.to_nat z2) (as_signed (8 * z1) (number_at m (v_addr src) (Z.to_nat z1))).
Proof.
  intros d n m src dst z1 l1 z2 l2 A B T1 W1 T2 W2. unfold value_copy_enumeration.
  rewrite (enum_read d n m src z1 l1) by auto. cbn [bind].
  destruct (enum_write d n m dst z2 l2 (as_signed (8 * z1) (number_at m (v_addr src) (Z.to_nat z1))) A T2 W2) as (m' & E & S').
  rewrite E. cbn [bind fst snd]. exists m'. split; [reflexivity|exact S'].
Qed.
Lemma copy_enum_sound : forall n d m src dst b m', value_copy_enumeration n d m src dst = Ret (b, m') ->
  (b = true -> (exists z l, enum_type d src z l) /\ exists z l, enum_type d dst z l) /\ (b = false -> m' = m).
Proof.
  intros n d m src dst b m' H. unfold value_copy_enumeration in H.
  destruct (value_enumeration n d m src) as [[e1|x]| | |] eqn:E1; try discriminate; cbn [bind] in H.
  - injection H as <- <-. split; [discriminate|auto].
  - destruct (value_set_enumeration n d m dst x) as [[s m2]| | |] eqn:E2; try discriminate; cbn [bind fst snd] in H. injection H as <- <-.
    destruct (enum_write_sound _ _ _ _ _ _ _ E2) as (K1 & K2). split.
    + intros Q. apply Z.eqb_eq in Q. destruct (K1 Q) as (z & l & T & _). split; [eapply enum_read_sound; eauto|eauto].
    + intros Q. apply Z.eqb_neq in Q. auto.
Qed.
Lemma copy_enum_bytes : forall n d m src dst b m', bytes_ok m -> value_copy_enumeration n d m src dst = Ret (b, m') -> bytes_ok m'.
Proof.
  intros n d m src dst b m' B H. unfold value_copy_enumeration in H.
  destruct (value_enumeration n d m src) as [[e1|x]| | |] eqn:E1; try discriminate; cbn [bind] in H.
  - injection H as <- <-. auto.
  - destruct (value_set_enumeration n d m dst x) as [[s m2]| | |] eqn:E2; try discriminate; cbn [bind fst snd] in H. injection H as <- <-.
    eapply set_enum_ok; eauto.
Qed.
Lemma copied_enum_equal : forall d n m src dst z l1 l2 m', acyclic d n -> bytes_ok m ->
  enum_type d src z l1 -> enum_type d dst z l2 -> word z -> apart (v_addr src) (v_addr dst) (Z.to_nat z) ->
  value_copy_enumeration (n + 3) d m src dst = Ret (true, m') -> value_equal_enumeration (n + 3) d m' src dst = Ret 1.
Proof.
  intros d n m src dst z l1 l2 m' A B T1 T2 W Ap H. pose proof (copy_enum_bytes _ _ _ _ _ _ _ B H) as B'.
  destruct (copy_enum_ok d n m src dst z l1 z l2 A B T1 W T2 W) as (m2 & H2 & S'). assert (m2 = m') by congruence. subst m2.
  destruct (equal_enum_ok d n m' src dst z l1 z l2 A B' T1 W T2 W) as (r & E & _ & R). rewrite E. f_equal. apply R. f_equal.
  eapply copied_number; [exact B|exact Ap|exact S'|]. apply copied_signed; auto.
Qed.

(** pointers *)
Lemma equal_ptr_ok : forall d n m v1 v2, acyclic d n -> pointer_type d v1 -> pointer_type d v2 ->
  exists r, value_equal_pointer (n + 3) d m v1 v2 = Ret r /\ (r = 0 \/ r = 1) /\
    (r = 1 <-> number_at m (v_addr v1) 8 = number_at m (v_addr v2) 8).
Proof.
  intros d n m v1 v2 A T1 T2. unfold value_equal_pointer.
  rewrite (pointer_read d n m v1) by auto. cbn [bind]. rewrite (pointer_read d n m v2) by auto. cbn [bind].
  eexists. split; [reflexivity|]. destruct (Z.eqb_spec (number_at m (v_addr v1) 8) (number_at m (v_addr v2) 8)); split; auto; split; auto; try discriminate; try contradiction.
Qed.
Lemma equal_ptr_sound : forall n d m v1 v2 r, value_equal_pointer n d m v1 v2 = Ret r -> 0 <= r ->
  (r = 0 \/ r = 1) /\ pointer_type d v1 /\ pointer_type d v2.
Proof.
  intros n d m v1 v2 r H P. unfold value_equal_pointer in H.
  destruct (value_pointer n d m v1) as [[e1|x]| | |] eqn:E1; try discriminate; cbn [bind] in H.
  - injection H as <-. change (0 <= -14) in P. lia.
  - destruct (value_pointer n d m v2) as [[e2|y]| | |] eqn:E2; try discriminate; cbn [bind] in H; injection H as <-.
    + change (0 <= -14) in P. lia.
    + split; [destruct (x =? y); auto|]. split; eapply (proj1 (pointer_sound n d m _)); eauto.
Qed.
Lemma copy_ptr_ok : forall d n m src dst, acyclic d n -> pointer_type d src -> pointer_type d dst ->
  exists m', value_copy_pointer (n + 3) d m src dst = Ret (true, m') /\ bytes_set m m' (v_addr dst) 8 (number_at m (v_addr src) 8).
Proof.
  intros d n m src dst A T1 T2. unfold value_copy_pointer. rewrite (pointer_read d n m src) by auto. cbn [bind].
  destruct (pointer_write d n m dst (number_at m (v_addr src) 8) A T2) as (m' & E & S'). rewrite E. cbn [bind fst snd]. eauto.
Qed.
Lemma copy_ptr_sound : forall n d m src dst b m', value_copy_pointer n d m src dst = Ret (b, m') ->
  (b = true -> pointer_type d src /\ pointer_type d dst) /\ (b = false -> m' = m).
Proof.
  intros n d m src dst b m' H. unfold value_copy_pointer in H.
  destruct (value_pointer n d m src) as [[e1|x]| | |] eqn:E1; try discriminate; cbn [bind] in H.
  - injection H as <- <-. split; [discriminate|auto].
  - destruct (value_set_pointer n d m dst x) as [[s m2]| | |] eqn:E2; try discriminate; cbn [bind fst snd] in H. injection H as <- <-.
    destruct (proj2 (pointer_sound n d m dst) _ _ _ E2) as (K1 & K2). split.
    + intros Q. apply Z.eqb_eq in Q. split; [eapply (proj1 (pointer_sound n d m _)); eauto|auto].
    + intros Q. apply Z.eqb_neq in Q. auto.
Qed.
Lemma copied_ptr_equal : forall d n m src dst m', acyclic d n -> bytes_ok m -> pointer_type d src -> pointer_type d dst ->
  apart (v_addr src) (v_addr dst) 8 ->
  value_copy_pointer (n + 3) d m src dst = Ret (true, m') -> value_equal_pointer (n + 3) d m' src dst = Ret 1.
Proof.
  intros d n m src dst m' A B T1 T2 Ap H.
  destruct (copy_ptr_ok d n m src dst A T1 T2) as (m2 & H2 & S'). assert (m2 = m') by congruence. subst m2.
  destruct (equal_ptr_ok d n m' src dst A T1 T2) as (r & E & _ & R). rewrite E. f_equal. apply R.
  eapply copied_number; [exact B|exact Ap|exact S'|]. apply Z.mod_small. apply (number_range m (v_addr src) 8 B).
Qed.
