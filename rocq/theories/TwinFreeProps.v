(** Property theorems about the release of deep copies made as trees (C62). *)
From Coq Require Import ZArith String List Bool Permutation Lia.
From Coq Require Import ZifyBool.
From Verif Require Import Base BaseProof EntryModel EntrySpec EntryProof ValueModel ValueSpec ValueProof2 DeepModel DeepSpec DeepProof DeepProof2 DeepProof4 DeepProof8 DeepProof6 DeepProps
  CompleteSpec CopySpec CopyProof CopyProof2 CopyProof3 CopyProof4 CopyProps EqualProps MoveSpec CopyTreeSpec CopyTreeProof CopyTreeProof2 CopyTreeProof3 CopyTreeProps CopyTreeProps2 TwinSpec TwinProof TwinProof2 TwinProof3 TwinProps TwinFreeProof.
Import ListNotations.
Open Scope Z_scope.

(** C62. Deep free of a copy made as a tree releases exactly the blocks that were obtained for the copy, each once: metac_value_free_ex
    always looks at the data as a graph, and finds every block of the tree although each of them is the target of one pointer only.
    Pointers kept as values do not lead into the new blocks. *)
Theorem C62_tree_free_partial : forall E M n0 ord ord' cal same_decl k src dst s s' evs z B,
  acyclic (en_db E) n0 -> en_fuel E = (n0 + 3)%nat -> mo_tree M = true -> (forall x, Permutation (ord' x) x) ->
  copy_ex E M ord cal same_decl k src dst s = Ret (true, s') -> calls s s' evs ->
  unfoldable E M (c_mem s) src -> extent E M (c_mem s) [] src z -> same_type (en_db E) src dst -> en_va E (v_entry dst) = false ->
  covered E M (c_mem s) src B ->
  0 < v_addr dst -> v_addr dst + z < 2 ^ 64 -> (forall b w, In (b, w) ((v_addr src, z) :: B) -> apart (v_addr dst) z b w) ->
  fresh_blocks (allocs evs) ((v_addr src, z) :: (v_addr dst, z) :: B) ->
  (mo_uptr M = UPTR_fail \/ mo_uptr M = UPTR_as_one_byte_ptr -> forall x, v_addr dst <= x < v_addr dst + z -> c_mem s x = 0) ->
  (mo_uptr M = UPTR_as_values -> forall anc x t p sz, reaches E M (c_mem s) src anc x -> points (en_db E) (c_mem s) x t p -> p <> 0 -> looks E M (c_mem s) anc x (VLeaf sz) ->
    forall b w, In (b, w) (allocs evs) -> ~ (b <= p < b + w)) ->
  answers_beside E M (c_mem s) src (c_mem s') dst ->
  exists l, free_ex E M ord' k (c_mem s') dst = Ret (1, l) /\ Permutation l (map fst (allocs evs)).
Proof. exact tree_then_free. Qed.
Print Assumptions C62_tree_free_partial.

(** C62. The whole life of a copy made as a tree: it is made, it compares equal to its source, and deep free of it releases what was
    obtained for it. *)
Theorem C62_tree_life_partial : forall E M feq n0, finite_types (en_db E) n0 -> en_fuel E = (n0 + 3)%nat -> tame E -> finite_calls E -> mo_tree M = true -> mo_uptr M <> UPTR_as_values ->
  exists k0, forall k, (k0 <= k)%nat -> forall ord ord' cal same_decl src dst s z B L, (forall x, Permutation (ord' x) x) ->
  (forall m', answers_beside E M (c_mem s) src m' src /\ answers_beside E M (c_mem s) src m' dst) ->
  visible E M (c_mem s) src -> writable E M (c_mem s) src -> comparable E M feq (c_mem s) src -> (forall y c, has_info (en_db E) src (IBase y c) -> ~ is_const (en_db E) dst) ->
  (forall f f', final_type (en_db E) (Some (v_entry src)) (Some f) -> final_type (en_db E) (Some (v_entry dst)) (Some f') -> same_decl (Some f) (Some f') = Ret true) ->
  unfoldable E M (c_mem s) src -> extent E M (c_mem s) [] src z -> same_type (en_db E) src dst -> en_va E (v_entry dst) = false ->
  covered E M (c_mem s) src B -> parts_differ E M (c_mem s) src ->
  (forall anc x sz w, reaches E M (c_mem s) src anc x -> looks E M (c_mem s) anc x (VPtr sz w) -> In (anc, x) L) ->
  0 < v_addr dst -> v_addr dst + z < 2 ^ 64 -> (forall b w, In (b, w) ((v_addr src, z) :: B) -> apart (v_addr dst) z b w) ->
  allocates cal (c_calls s) (length L) (fun y => exists anc x sz w, reaches E M (c_mem s) src anc x /\ looks E M (c_mem s) anc x (VPtr sz w) /\ extent E M (c_mem s) (x :: anc) w y)
    ((v_addr src, z) :: (v_addr dst, z) :: B) ->
  (mo_uptr M = UPTR_fail \/ mo_uptr M = UPTR_as_one_byte_ptr -> forall x, v_addr dst <= x < v_addr dst + z -> c_mem s x = 0) ->
  exists s' evs l, copy_ex E M ord cal same_decl k src dst s = Ret (true, s') /\ calls s s' evs /\
    equal_ex E M feq k (c_mem s') src dst = Ret 1 /\
    free_ex E M ord' k (c_mem s') dst = Ret (1, l) /\ Permutation l (map fst (allocs evs)).
Proof. exact tree_life. Qed.
Print Assumptions C62_tree_life_partial.

(** the copy of C82_tree_example: the data hypotheses are those of C82_tree_example, C82_total_example and C82_equal_example; five blocks
    are obtained and the same five are released *)
Example C62_tree_free_example : exists s' evs, copy_ex E0 Mtree (fun l => l) (some_blocks 5) any_decl 20 (at_ 16%nat 400) (at_ 16%nat 800) (cst0 linked) = Ret (true, s') /\
  calls (cst0 linked) s' evs /\ acyclic (en_db E0) 7 /\ en_fuel E0 = (7 + 3)%nat /\ mo_tree Mtree = true /\ mo_uptr Mtree <> UPTR_as_values /\ en_va E0 (v_entry (at_ 16%nat 800)) = false /\
  (forall m v m' v', answers_beside E0 Mtree m v m' v') /\
  map fst (allocs evs) = [5000; 5100; 5200; 5300; 5400] /\ free_ex E0 Mtree (@rev hent) 20 (c_mem s') (at_ 16%nat 800) = Ret (1, [5200; 5300; 5400; 5000; 5100]).
Proof.
  eexists. exists [EvCalloc 5000 16; EvCalloc 5100 16; EvCalloc 5200 8; EvCalloc 5300 16; EvCalloc 5400 16]. split; [vm_compute; reflexivity|]. split; [reflexivity|].
  split; [apply finite_acyclic, db0_finite|]. split; [reflexivity|]. split; [reflexivity|]. split; [discriminate|]. split; [reflexivity|]. split; [intros; apply no_handler_beside; reflexivity|].
  split; [reflexivity|]. vm_compute. reflexivity.
Qed.
(** the same with pointers to unknown types taken as values *)
Example C62_tree_values_example : exists s' evs, copy_ex E0 (as_values Mtree) (fun l => l) (some_blocks 5) any_decl 20 (at_ 16%nat 400) (at_ 16%nat 800) (cst0 linked) = Ret (true, s') /\
  calls (cst0 linked) s' evs /\ mo_tree (as_values Mtree) = true /\ (forall m v m' v', answers_beside E0 (as_values Mtree) m v m' v') /\
  map fst (allocs evs) = [5000; 5100; 5200; 5300; 5400] /\ free_ex E0 (as_values Mtree) (fun l => l) 20 (c_mem s') (at_ 16%nat 800) = Ret (1, [5100; 5000; 5400; 5300; 5200]).
Proof.
  eexists. exists [EvCalloc 5000 16; EvCalloc 5100 16; EvCalloc 5200 8; EvCalloc 5300 16; EvCalloc 5400 16]. split; [vm_compute; reflexivity|]. split; [reflexivity|].
  split; [reflexivity|]. split; [intros; apply no_handler_beside; reflexivity|]. split; [reflexivity|]. vm_compute. reflexivity.
Qed.
