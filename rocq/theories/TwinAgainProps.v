(** Property theorems about copies of copies made as trees (C82). *)
From Coq Require Import ZArith String List Bool Permutation Lia.
From Coq Require Import ZifyBool.
From Verif Require Import Base BaseProof EntryModel EntrySpec EntryProof ValueModel ValueSpec ValueProof2 DeepModel DeepSpec DeepProof DeepProof2 DeepProof4 DeepProof8 DeepProof6 DeepProps
  CopySpec CopyProof CopyProof2 CopyProof3 CopyProof4 CopyProps EqualProps MoveSpec CopyTreeSpec CopyTreeProof CopyTreeProof2 CopyTreeProps TwinSpec TwinProof TwinProof2 TwinProof3 TwinProps TwinFreeProof TwinAgainProof.
Import ListNotations.
Open Scope Z_scope.

(** C82. What the copy as a tree asks of its source holds of the copy as well, which needs the memory obtained for it and no other:
    the copy can be copied in turn, as often as one likes. *)
Theorem C82_again_partial : forall E M n0 ord cal same_decl k src dst s s' evs z B,
  acyclic (en_db E) n0 -> en_fuel E = (n0 + 3)%nat -> mo_tree M = true ->
  copy_ex E M ord cal same_decl k src dst s = Ret (true, s') -> calls s s' evs ->
  unfoldable E M (c_mem s) src -> extent E M (c_mem s) [] src z -> same_type (en_db E) src dst -> en_va E (v_entry dst) = false ->
  covered E M (c_mem s) src B ->
  0 < v_addr dst -> v_addr dst + z < 2 ^ 64 -> (forall b w, In (b, w) ((v_addr src, z) :: B) -> apart (v_addr dst) z b w) ->
  fresh_blocks (allocs evs) ((v_addr src, z) :: (v_addr dst, z) :: B) ->
  (mo_uptr M = UPTR_fail \/ mo_uptr M = UPTR_as_one_byte_ptr -> forall x, v_addr dst <= x < v_addr dst + z -> c_mem s x = 0) ->
  (mo_uptr M = UPTR_as_values -> forall anc x t p sz, reaches E M (c_mem s) src anc x -> points (en_db E) (c_mem s) x t p -> p <> 0 -> looks E M (c_mem s) anc x (VLeaf sz) ->
    forall b w, In (b, w) (allocs evs) -> ~ (b <= p < b + w)) ->
  answers_beside E M (c_mem s) src (c_mem s') dst -> local E (c_mem s') ->
  unfoldable E M (c_mem s') dst /\ extent E M (c_mem s') [] dst z /\ covered E M (c_mem s') dst (allocs evs).
Proof. exact tree_again. Qed.
Print Assumptions C82_again_partial.

(** the copy of C82_tree_example, and a copy of that copy: five blocks again *)
Example C82_again_example : exists s', copy_ex E0 Mtree (fun l => l) (some_blocks 5) any_decl 20 (at_ 16%nat 400) (at_ 16%nat 800) (cst0 linked) = Ret (true, s') /\
  unfoldable E0 Mtree (c_mem s') (at_ 16%nat 800) /\ covered E0 Mtree (c_mem s') (at_ 16%nat 800) newt.
Proof.
  destruct C82_tree_example as [s' [H [[evs [Cl [Al Fr]]] [UF [Ext [ST [Cov [Ad Zd]]]]]]]]. exists s'. split; [exact H|].
  destruct (C82_again_partial E0 Mtree 7 (fun l => l) (some_blocks 5) any_decl 20 _ _ _ _ evs 16 _ (finite_acyclic _ _ db0_finite) eq_refl eq_refl H Cl UF Ext ST eq_refl Cov
    ltac:(cbn; lia) ltac:(cbn; lia) Ad Fr (fun _ => Zd) ltac:(intro Q; discriminate Q) (no_handler_beside E0 Mtree _ _ _ _ eq_refl) ltac:(intros ev v anc anc' _; reflexivity)) as [U [_ C]].
  split; [exact U|]. rewrite <- Al. exact C.
Qed.
Example C82_again_memory : match copy_ex E0 Mtree (fun l => l) (some_blocks 5) any_decl 20 (at_ 16%nat 400) (at_ 16%nat 800) (cst0 linked) with
  | Ret (true, s') => match copy_ex E0 Mtree (fun l => l) (some_blocks 10) any_decl 20 (at_ 16%nat 800) (at_ 16%nat 900) s' with
    | Ret (true, s2) => map (fun a => number_at (c_mem s2) a 8) [800; 808; 900; 908; 5500; 5508; 5600; 5608]
    | _ => [] end
  | _ => [] end = [5000; 5200; 5500; 5700; 5; 5600; 7; 5500].
Proof. vm_compute. reflexivity. Qed.
