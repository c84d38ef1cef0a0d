(** Property theorems about copying and comparing enumerations and pointers (C48, continued). *)
From Coq Require Import ZArith String List Bool Lia.
From Verif Require Import Base BaseProof EntryModel EntrySpec EntryProof ValueModel ValueSpec ValueProof ValueProof2 ValueProps ScalarProof.
Import ListNotations.
Open Scope Z_scope.

(** C48. Enumerations of any sizes: comparison is that of the signed numbers; a copy puts the number into the
    destination and changes nothing else; a refused copy changes nothing; both sides must be enumerations. *)
Theorem C48_equal_enumeration : forall d n m v1 v2 z1 l1 z2 l2, acyclic d n -> bytes_ok m ->
  enum_type d v1 z1 l1 -> word z1 -> enum_type d v2 z2 l2 -> word z2 ->
  exists r, value_equal_enumeration (n + 3) d m v1 v2 = Ret r /\ (r = 0 \/ r = 1) /\
    (r = 1 <-> as_signed (8 * z1) (number_at m (v_addr v1) (Z.to_nat z1)) = as_signed (8 * z2) (number_at m (v_addr v2) (Z.to_nat z2))).
Proof. exact equal_enum_ok. Qed.
Print Assumptions C48_equal_enumeration.
Theorem C48_equal_enumeration_sound : forall n d m v1 v2 r, value_equal_enumeration n d m v1 v2 = Ret r -> 0 <= r ->
  (r = 0 \/ r = 1) /\ (exists z l, enum_type d v1 z l) /\ (exists z l, enum_type d v2 z l).
Proof. exact equal_enum_sound. Qed.
Print Assumptions C48_equal_enumeration_sound.
Theorem C48_copy_enumeration : forall d n m src dst z1 l1 z2 l2, acyclic d n -> bytes_ok m ->
  enum_type d src z1 l1 -> word z1 -> enum_type d dst z2 l2 -> word z2 ->
  exists m', value_copy_enumeration (n + 3) d m src dst = Ret (true, m') /\
    bytes_set m m' (v_addr dst) (Z.to_nat z2) (as_signed (8 * z1) (number_at m (v_addr src) (Z.to_nat z1))).
Proof. exact copy_enum_ok. Qed.
Print Assumptions C48_copy_enumeration.
Theorem C48_copy_enumeration_sound : forall n d m src dst b m', value_copy_enumeration n d m src dst = Ret (b, m') ->
  (b = true -> (exists z l, enum_type d src z l) /\ exists z l, enum_type d dst z l) /\ (b = false -> m' = m).
Proof. exact copy_enum_sound. Qed.
Print Assumptions C48_copy_enumeration_sound.
(** C48. After a copy between enumerations of one size that do not overlap in part the two are equal. *)
Theorem C48_copied_enumeration : forall d n m src dst z l1 l2 m', acyclic d n -> bytes_ok m ->
  enum_type d src z l1 -> enum_type d dst z l2 -> word z ->
  (v_addr src = v_addr dst \/ v_addr src + Z.of_nat (Z.to_nat z) <= v_addr dst \/ v_addr dst + Z.of_nat (Z.to_nat z) <= v_addr src) ->
  value_copy_enumeration (n + 3) d m src dst = Ret (true, m') -> value_equal_enumeration (n + 3) d m' src dst = Ret 1.
Proof. exact copied_enum_equal. Qed.
Print Assumptions C48_copied_enumeration.

(** C48. The same for pointers: the address itself is compared and copied. *)
Theorem C48_equal_pointer : forall d n m v1 v2, acyclic d n -> pointer_type d v1 -> pointer_type d v2 ->
  exists r, value_equal_pointer (n + 3) d m v1 v2 = Ret r /\ (r = 0 \/ r = 1) /\
    (r = 1 <-> number_at m (v_addr v1) 8 = number_at m (v_addr v2) 8).
Proof. exact equal_ptr_ok. Qed.
Print Assumptions C48_equal_pointer.
Theorem C48_equal_pointer_sound : forall n d m v1 v2 r, value_equal_pointer n d m v1 v2 = Ret r -> 0 <= r ->
  (r = 0 \/ r = 1) /\ pointer_type d v1 /\ pointer_type d v2.
Proof. exact equal_ptr_sound. Qed.
Print Assumptions C48_equal_pointer_sound.
Theorem C48_copy_pointer : forall d n m src dst, acyclic d n -> pointer_type d src -> pointer_type d dst ->
  exists m', value_copy_pointer (n + 3) d m src dst = Ret (true, m') /\ bytes_set m m' (v_addr dst) 8 (number_at m (v_addr src) 8).
Proof. exact copy_ptr_ok. Qed.
Print Assumptions C48_copy_pointer.
Theorem C48_copy_pointer_sound : forall n d m src dst b m', value_copy_pointer n d m src dst = Ret (b, m') ->
  (b = true -> pointer_type d src /\ pointer_type d dst) /\ (b = false -> m' = m).
Proof. exact copy_ptr_sound. Qed.
Print Assumptions C48_copy_pointer_sound.
Theorem C48_copied_pointer : forall d n m src dst m', acyclic d n -> bytes_ok m -> pointer_type d src -> pointer_type d dst ->
  (v_addr src = v_addr dst \/ v_addr src + Z.of_nat 8 <= v_addr dst \/ v_addr dst + Z.of_nat 8 <= v_addr src) ->
  value_copy_pointer (n + 3) d m src dst = Ret (true, m') -> value_equal_pointer (n + 3) d m' src dst = Ret 1.
Proof. exact copied_ptr_equal. Qed.
Print Assumptions C48_copied_pointer.

(** The database and memory of ValueProps: a const enumeration copied to another, a pointer copied to another. *)
Lemma ex_enum_type : enum_type ex_vdb (Build_value (St 8%nat) 100) 4 [(Some "A"%string, 0); (Some "B"%string, 1); (Some "C"%string, 1); (Some "M"%string, 4294967295)].
Proof. exists (St 8%nat). split; [|reflexivity]. exists []. apply res_stop. intros t q K. inversion K. Qed.
Lemma ex_enum_type2 : enum_type ex_vdb (Build_value (St 9%nat) 120) 4 [(Some "A"%string, 0); (Some "B"%string, 1); (Some "C"%string, 1); (Some "M"%string, 4294967295)].
Proof.
  exists (St 8%nat). split; [|reflexivity]. exists [QConst]. apply (res_step ex_vdb (St 9%nat) (Some 8%nat) (Some QConst) []); [constructor|].
  apply res_stop. intros t q K. inversion K.
Qed.
Example C48_enumeration_example : exists m', value_copy_enumeration 6 ex_vdb ex_mem (Build_value (St 9%nat) 120) (Build_value (St 8%nat) 100) = Ret (true, m') /\
  value_equal_enumeration 6 ex_vdb ex_mem (Build_value (St 9%nat) 120) (Build_value (St 8%nat) 100) = Ret 0 /\
  value_equal_enumeration 6 ex_vdb m' (Build_value (St 9%nat) 120) (Build_value (St 8%nat) 100) = Ret 1 /\ m' 104 = ex_mem 104.
Proof.
  assert (B : bytes_ok ex_mem) by (intros a; apply Z.mod_pos_bound; lia). assert (W : word 4) by (unfold word; lia).
  destruct (C48_copy_enumeration ex_vdb 3 ex_mem _ _ _ _ _ _ ex_vdb_acyclic B ex_enum_type2 W ex_enum_type W) as (m' & C & _ & O).
  exists m'. split; [exact C|]. split; [vm_compute; reflexivity|]. split; [|apply O; right; vm_compute; discriminate].
  eapply (C48_copied_enumeration ex_vdb 3 ex_mem); [exact ex_vdb_acyclic|exact B|exact ex_enum_type2|exact ex_enum_type|exact W| |exact C].
  right. right. vm_compute. discriminate.
Qed.
Example C48_pointer_example : exists m', value_copy_pointer 6 ex_vdb ex_mem (Build_value (St 11%nat) 120) (Build_value (St 11%nat) 100) = Ret (true, m') /\
  value_equal_pointer 6 ex_vdb ex_mem (Build_value (St 11%nat) 120) (Build_value (St 11%nat) 100) = Ret 0 /\
  value_equal_pointer 6 ex_vdb m' (Build_value (St 11%nat) 120) (Build_value (St 11%nat) 100) = Ret 1 /\ pointer_type ex_vdb (Build_value (St 11%nat) 100).
Proof.
  eexists. split; [reflexivity|]. split; [vm_compute; reflexivity|]. split; [vm_compute; reflexivity|].
  exists (St 11%nat), (Some 0%nat). split; [|reflexivity]. exists []. apply res_stop. intros t q K. inversion K.
Qed.
