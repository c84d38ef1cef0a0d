(** The bounds on the number of steps. *)
From Coq Require Import ZArith String List Bool Permutation Lia.
From Verif Require Import Base BaseProof EntryModel EntrySpec EntryProof ValueModel ValueSpec DeepModel DeepSpec DeepProof2 DeepProof6 DeepProof8
  CopySpec CopyProof CopyProof2 CopyProof3 CopyProof4 EqualSpec CompleteSpec CompleteProof CompleteProof2 CompleteProof3.
Import ListNotations.
Open Scope Z_scope.
Section Bounds.
Variable E : env.
Variable M : mode.
Variable n0 : nat.
Hypothesis Fi : finite_types (en_db E) n0.
Hypothesis N : en_fuel E = (n0 + 3)%nat.
Hypothesis T : tame E.
Hypothesis Fc : finite_calls E.
Lemma map_total : exists k0, forall k, (k0 <= k)%nat -> forall m v, bytes_ok m -> visible E M m v -> exists mm, new_memory_map E M k m v = Ret (Some mm).
Proof.
  destruct (deep_terminates E M n0 Fi N T Fc) as [k0 K]. exists k0. intros k Le m v B Vi.
  destruct (map_goes E M n0 (finite_acyclic _ _ Fi) N k m v Vi) as [Q|Q]; [destruct (K k Le m v B Q)|exact Q].
Qed.
Lemma equal_goes' : forall feq, exists k0, forall k, (k0 <= k)%nat -> forall m v1 v2, bytes_ok m -> visible E M m v1 -> visible E M m v2 -> readable E M m v1 -> readable E M m v2 ->
    exists r, equal_ex E M feq k m v1 v2 = Ret r /\ (r = 0 \/ r = 1 \/ r = - EFAULT) /\ (same_types E M m v1 v2 -> r = 0 \/ r = 1).
Proof.
  intros feq. destruct (deep_terminates E M n0 Fi N T Fc) as [k0 K]. exists k0. intros k Le m v1 v2 B V1 V2 R1 R2.
  exact (equal_total E M n0 (finite_acyclic _ _ Fi) N feq m B v1 v2 R1 R2 k V1 V2 (K k Le m v1 B) (K k Le m v2 B)).
Qed.
End Bounds.
Lemma equal_goes : forall E M feq n0, finite_types (en_db E) n0 -> en_fuel E = (n0 + 3)%nat -> tame E -> finite_calls E ->
  exists k0, forall k, (k0 <= k)%nat -> forall m v1 v2, bytes_ok m -> visible E M m v1 -> visible E M m v2 -> readable E M m v1 -> readable E M m v2 ->
    exists r, equal_ex E M feq k m v1 v2 = Ret r /\ (r = 0 \/ r = 1 \/ r = - EFAULT) /\ (same_types E M m v1 v2 -> r = 0 \/ r = 1).
Proof. intros E M feq n0 Fi N T Fc. exact (equal_goes' E M n0 Fi N T Fc feq). Qed.
Lemma free_total : forall E M n0, finite_types (en_db E) n0 -> en_fuel E = (n0 + 3)%nat -> tame E -> finite_calls E ->
  exists k0, forall k, (k0 <= k)%nat -> forall ord m v, bytes_ok m -> visible E (dag M) m v -> exists l, free_ex E M ord k m v = Ret (1, l).
Proof.
  intros E M n0 Fi N T Fc. destruct (map_total E (dag M) n0 Fi N T Fc) as [k0 K]. exists k0. intros k Le ord m v B Vi. destruct (K k Le m v B Vi) as [mm Q].
  unfold free_ex. rewrite Q. eexists. reflexivity.
Qed.
Lemma copy_total : forall E M n0, finite_types (en_db E) n0 -> en_fuel E = (n0 + 3)%nat -> tame E -> finite_calls E ->
  mo_tree M = false -> mo_union M <> UNION_ignore ->
  exists k0, forall k, (k0 <= k)%nat -> forall ord cal same_decl src dst s z B, (forall x, Permutation (ord x) x) ->
  visible E M (c_mem s) src -> writable E M (c_mem s) src -> (forall y c, has_info (en_db E) src (IBase y c) -> ~ is_const (en_db E) dst) ->
  (forall f f', final_type (en_db E) (Some (v_entry src)) (Some f) -> final_type (en_db E) (Some (v_entry dst)) (Some f') -> same_decl (Some f) (Some f') = Ret true) ->
  copyable E M (c_mem s) src -> extent E M (c_mem s) [] src z -> same_type (en_db E) src dst ->
  blocks_ok B -> held E M (c_mem s) src B -> parts_differ E M (c_mem s) src -> inner_once E M (c_mem s) src B ->
  (forall b w, In (b, w) B -> apart (v_addr src) z b w) ->
  0 < v_addr dst -> v_addr dst + z < 2 ^ 64 -> (forall b w, In (b, w) ((v_addr src, z) :: B) -> apart (v_addr dst) z b w) ->
  allocates cal (c_calls s) (length B) (fun y => exists w, pointee E M (c_mem s) src w y) ((v_addr src, z) :: (v_addr dst, z) :: B) ->
  (mo_uptr M = UPTR_fail \/ mo_uptr M = UPTR_as_one_byte_ptr -> forall x, v_addr dst <= x < v_addr dst + z -> c_mem s x = 0) ->
  exists s' evs R, copy_ex E M ord cal same_decl k src dst s = Ret (true, s') /\ calls s s' evs /\ fresh_blocks (allocs evs) ((v_addr src, z) :: (v_addr dst, z) :: B) /\
    copied E M (c_mem s) (c_mem s') src z (v_addr dst) (allocs evs) R.
Proof.
  intros E M n0 Fi N T Fc D U. destruct (deep_terminates E M n0 Fi N T Fc) as [k0 K]. exists k0. intros k Le ord cal sd src dst s z B PO Vi Wr Nc SD CP.
  destruct CP as [[cb cl cc cba cfi cpa cvi cin cop] cda] eqn:Q. 
  apply (copy_makes E M n0 (finite_acyclic _ _ Fi) N ord cal sd D U PO k src dst s z B); try assumption. apply K; assumption.
Qed.
