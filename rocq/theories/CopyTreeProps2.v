(** Property theorems about the success of deep copies as trees (C82). *)
From Coq Require Import ZArith String List Bool Permutation Lia.
From Coq Require Import ZifyBool.
From Verif Require Import Base BaseProof EntryModel EntrySpec EntryProof ValueModel ValueSpec ValueProof2 DeepModel DeepSpec DeepProof DeepProof2 DeepProof4 DeepProof8 DeepProps
  CopySpec CopyProof CopyProof2 CopyProof3 CopyProof4 CopyProps CompleteSpec CompleteProof CompleteProps CopyTreeSpec CopyTreeProof CopyTreeProof2 CopyTreeProof3 CopyTreeProps.
Import ListNotations.
Open Scope Z_scope.

(** C82. Copies as trees succeed, with the result of C82_tree_partial, as soon as calloc_fn has memory for as many blocks as there are ways
    to a pointer that leads somewhere ([L] contains them all). *)
Theorem C82_total_partial : forall E M n0, finite_types (en_db E) n0 -> en_fuel E = (n0 + 3)%nat -> tame E -> finite_calls E -> mo_tree M = true ->
  exists k0, forall k, (k0 <= k)%nat -> forall ord cal same_decl src dst s z B L,
  visible E M (c_mem s) src -> writable E M (c_mem s) src -> (forall y c, has_info (en_db E) src (IBase y c) -> ~ is_const (en_db E) dst) ->
  (forall f f', final_type (en_db E) (Some (v_entry src)) (Some f) -> final_type (en_db E) (Some (v_entry dst)) (Some f') -> same_decl (Some f) (Some f') = Ret true) ->
  unfoldable E M (c_mem s) src -> extent E M (c_mem s) [] src z -> same_type (en_db E) src dst ->
  covered E M (c_mem s) src B -> parts_differ E M (c_mem s) src ->
  (forall anc x sz w, reaches E M (c_mem s) src anc x -> looks E M (c_mem s) anc x (VPtr sz w) -> In (anc, x) L) ->
  0 < v_addr dst -> v_addr dst + z < 2 ^ 64 -> (forall b w, In (b, w) ((v_addr src, z) :: B) -> apart (v_addr dst) z b w) ->
  allocates cal (c_calls s) (length L) (fun y => exists anc x sz w, reaches E M (c_mem s) src anc x /\ looks E M (c_mem s) anc x (VPtr sz w) /\ extent E M (c_mem s) (x :: anc) w y)
    ((v_addr src, z) :: (v_addr dst, z) :: B) ->
  (mo_uptr M = UPTR_fail \/ mo_uptr M = UPTR_as_one_byte_ptr -> forall x, v_addr dst <= x < v_addr dst + z -> c_mem s x = 0) ->
  exists s' evs, copy_ex E M ord cal same_decl k src dst s = Ret (true, s') /\ calls s s' evs /\ fresh_blocks (allocs evs) ((v_addr src, z) :: (v_addr dst, z) :: B) /\
    unfolded E M (c_mem s) (c_mem s') src z (v_addr dst) (allocs evs).
Proof. exact copy_tree_total. Qed.
Print Assumptions C82_total_partial.

(** * The data of C82_tree_example *)
Lemma visiblet : visible E0 Mtree linked (at_ 16%nat 400).
Proof.
  assert (Q : exists mm, new_memory_map E0 Mtree 20 linked (at_ 16%nat 400) = Ret (Some mm)) by (eexists; vm_compute; reflexivity).
  destruct Q as [mm Q]. pose proof (map_sees E0 Mtree _ _ _ _ Q) as H. constructor.
  - intros anc x R. apply seent_inv in R. unfold seen0 in R. cbn [In] in R. repeat (destruct R as [<-|R]; [vm_compute; discriminate|]). destruct R.
  - intros anc x R. apply (H _ _ R).
  - intros anc x R. apply (H _ _ R).
  - intros anc x sz ch y R L I. destruct (H _ _ R) as [_ [_ P]]. exact (P _ _ _ L I).
Qed.
Lemma writablet : writable E0 Mtree linked (at_ 16%nat 400).
Proof.
  intros anc x R. apply seent_inv in R. split.
  - intros z c I C. destruct (info_of0 _ _ R I) as [[z' [c' [_ Q]]]|Q]; [|contradiction]. destruct C as [qs [f [C1 C2]]].
    destruct Q as [-> | ->]; (inversion C1 as [|? K|? t q qs' f' S1 R1]; subst; [destruct C2|];
      cbn in S1; inversion S1; subst; cbn in R1; inversion R1 as [|? K'|? t' q' qs'' f'' S2 R2]; subst; [destruct C2|]; cbn in S2; inversion S2).
  - intros z l I. destruct (info_of0 _ _ R I) as [[z' [c [Q _]]]|Q]; [discriminate|contradiction].
Qed.
Lemma partst : parts_differ E0 Mtree linked (at_ 16%nat 400).
Proof.
  intros anc x sz ch S Lk. apply seent_inv in S. apply (plain_node E0 Mtree eq_refl _ _ []) in Lk. unfold seen0 in S. cbn [In] in S.
  repeat (destruct S as [<-|S]; [first [exfalso; eapply node_no_pointer; [exact Lk|vm_compute; reflexivity]
      |eapply view_node in Lk; [|vm_compute; reflexivity|discriminate]; subst ch; cbn; repeat constructor; cbn; intuition discriminate]|]). destruct S.
Qed.
Example C82_total_example : finite_types (en_db E0) 7 /\ en_fuel E0 = (7 + 3)%nat /\ (tame E0 /\ finite_calls E0) /\
  visible E0 Mtree linked (at_ 16%nat 400) /\ writable E0 Mtree linked (at_ 16%nat 400) /\ parts_differ E0 Mtree linked (at_ 16%nat 400) /\
  (forall y c, has_info db0 (at_ 16%nat 400) (IBase y c) -> ~ is_const db0 (at_ 16%nat 800)) /\
  exists L, length L = 5%nat /\ (forall anc x sz w, reaches E0 Mtree linked (at_ 16%nat 400) anc x -> looks E0 Mtree linked anc x (VPtr sz w) -> In (anc, x) L) /\
  allocates (some_blocks 5) 0 (length L) (fun y => exists anc x sz w, reaches E0 Mtree linked (at_ 16%nat 400) anc x /\ looks E0 Mtree linked anc x (VPtr sz w) /\ extent E0 Mtree linked (x :: anc) w y)
    [(400, 16); (800, 16); (1000, 16); (2000, 24)].
Proof.
  destruct C40_example as [Q1 [Q2 [Q3 _]]]. split; [exact Q1|]. split; [exact Q2|]. split; [exact Q3|]. split; [exact visiblet|]. split; [exact writablet|]. split; [exact partst|]. split.
  { intros y c I. destruct (info_of0 _ _ (or_introl eq_refl) I) as [[z' [c' [_ [Q|Q]]]]|Q]; [discriminate|discriminate|contradiction]. }
  assert (Q : exists mm, new_memory_map E0 Mtree 20 linked (at_ 16%nat 400) = Ret (Some mm) /\ length (ptrs E0 [] (mm_top mm)) = 5%nat) by (eexists; split; [vm_compute; reflexivity|vm_compute; reflexivity]).
  destruct Q as [mm [Q Le]]. apply map_built in Q. destruct Q as [Bu V _ _ _ _ _ _]. exists (ptrs E0 [] (mm_top mm)). split; [exact Le|]. split.
  - intros anc x sz w. apply (ptrs_all E0 Mtree linked (at_ 16%nat 400) unfoldable0 _ Bu V).
  - rewrite Le. assert (Sz : forall y, (exists anc x sz w, reaches E0 Mtree linked (at_ 16%nat 400) anc x /\ looks E0 Mtree linked anc x (VPtr sz w) /\ extent E0 Mtree linked (x :: anc) w y) -> 0 < y <= 16).
    { intros y [anc [x [sz [w [R [L X]]]]]]. apply seent_inv in R. apply targett in L; [|exact R]. apply pointt in X; [|destruct L as [[-> _]|[[-> _]|[-> _]]]; cbn; auto]. destruct (_ =? _) in X; lia. }
    split.
    + intros j y J Y. apply Sz in Y. unfold some_blocks. replace (j <? 5)%nat with true by lia. split; [lia|]. split; [lia|].
      intros b w [Q|[Q|[Q|[Q|[]]]]]; injection Q as <- <-; lia.
    + intros j j' y y' J J' Y Y'. apply Sz in Y. apply Sz in Y'. unfold some_blocks. replace (j <? 5)%nat with true by lia. replace (j' <? 5)%nat with true by lia. lia.
Qed.
