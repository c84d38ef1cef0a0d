(** Property theorems about the deep functions' success (C60, C61). *)
From Coq Require Import ZArith String List Bool Permutation Lia.
From Coq Require Import ZifyBool.
From Verif Require Import Base BaseProof EntryModel EntrySpec EntryProof ValueModel ValueSpec ValueProof2 DeepModel DeepSpec DeepProof DeepProof2 DeepProof4 DeepProof6 DeepProof8 DeepProps
  CopySpec CopyProof CopyProof2 CopyProof3 CopyProof4 CopyProps EqualSpec MoveSpec MoveProof EqualProps CompleteSpec CompleteProof CompleteProof2 CompleteProof3 CompleteProof4.
Import ListNotations.
Open Scope Z_scope.

(** C60. The library can tell what everything that is found consists of: then the memory map is built, whatever the shape of the data. *)
Theorem C60_map : forall E M n0, finite_types (en_db E) n0 -> en_fuel E = (n0 + 3)%nat -> tame E -> finite_calls E ->
  exists k0, forall k, (k0 <= k)%nat -> forall m v, bytes_ok m -> visible E M m v -> exists mm, new_memory_map E M k m v = Ret (Some mm).
Proof. exact map_total. Qed.
Print Assumptions C60_map.
(** Conversely, a memory map exists only for data that the library can see through. *)
Theorem C60_map_only : forall E M k m v mm, new_memory_map E M k m v = Ret (Some mm) -> forall anc x, reaches E M m v anc x ->
  en_va E (v_entry x) = false /\ (exists w, looks E M m anc x w) /\ forall sz ch y, looks E M m anc x (VNode sz ch) -> In y ch -> v_addr x <= v_addr y.
Proof. exact map_sees. Qed.
Print Assumptions C60_map_only.
(** Deep free succeeds. *)
Theorem C60_free : forall E M n0, finite_types (en_db E) n0 -> en_fuel E = (n0 + 3)%nat -> tame E -> finite_calls E ->
  exists k0, forall k, (k0 <= k)%nat -> forall ord m v, bytes_ok m -> visible E (dag M) m v -> exists l, free_ex E M ord k m v = Ret (1, l).
Proof. exact free_total. Qed.
Print Assumptions C60_free.
(** Deep comparison says equal or different; it can fail only for base types that differ (e.g. int and long) in the same place. *)
Theorem C60_equal : forall E M feq n0, finite_types (en_db E) n0 -> en_fuel E = (n0 + 3)%nat -> tame E -> finite_calls E ->
  exists k0, forall k, (k0 <= k)%nat -> forall m v1 v2, bytes_ok m -> visible E M m v1 -> visible E M m v2 -> readable E M m v1 -> readable E M m v2 ->
    exists r, equal_ex E M feq k m v1 v2 = Ret r /\ (r = 0 \/ r = 1 \/ r = - EFAULT) /\ (same_types E M m v1 v2 -> r = 0 \/ r = 1).
Proof. exact equal_goes. Qed.
Print Assumptions C60_equal.
(** C61. Deep copy succeeds, and the result is a copy, for data in blocks that are held by pointers to their starts, as soon as calloc_fn has
    memory for as many blocks: total correctness. *)
Theorem C61_copy_partial : forall E M n0, finite_types (en_db E) n0 -> en_fuel E = (n0 + 3)%nat -> tame E -> finite_calls E ->
  mo_tree M = false -> mo_union M <> UNION_ignore ->
  exists k0, forall k, (k0 <= k)%nat -> forall ord cal same_decl src dst s z B, (forall x, Permutation (ord x) x) ->
  visible E M (c_mem s) src -> writable E M (c_mem s) src -> (forall y c, has_info (en_db E) src (IBase y c) -> ~ is_const (en_db E) dst) ->
  (forall f f', final_type (en_db E) (Some (v_entry src)) (Some f) -> final_type (en_db E) (Some (v_entry dst)) (Some f') -> same_decl (Some f) (Some f') = Ret true) ->
  copyable E M (c_mem s) src -> extent E M (c_mem s) [] src z -> same_type (en_db E) src dst ->
  blocks_ok B -> held E M (c_mem s) src B -> parts_differ E M (c_mem s) src -> inner_once E M (c_mem s) src B ->
  (forall b w, In (b, w) B -> apart (v_addr src) z b w) ->
  0 < v_addr dst -> v_addr dst + z < 2 ^ 64 -> (forall b w, In (b, w) ((v_addr src, z) :: B) -> apart (v_addr dst) z b w) ->
  allocates cal (c_calls s) (length B) (fun y => exists w, pointee E M (c_mem s) src w y) ((v_addr src, z) :: (v_addr dst, z) :: B) ->
  (mo_uptr M = UPTR_fail \/ mo_uptr M = UPTR_as_one_byte_ptr -> forall x, v_addr dst <= x < v_addr dst + z -> c_mem s x = 0) ->
  exists s' evs R, copy_ex E M ord cal same_decl k src dst s = Ret (true, s') /\ calls s s' evs /\ fresh_blocks (allocs evs) ((v_addr src, z) :: (v_addr dst, z) :: B) /\
    copied E M (c_mem s) (c_mem s') src z (v_addr dst) (allocs evs) R.
Proof. exact copy_total. Qed.
Print Assumptions C61_copy_partial.

(** * The data of C41_copy_example: a circle of two nodes with a pointer into the second one *)
Lemma visible0 : visible E0 M0 linked (at_ 16%nat 400).
Proof.
  assert (Q : exists mm, new_memory_map E0 M0 20 linked (at_ 16%nat 400) = Ret (Some mm)) by (eexists; vm_compute; reflexivity).
  destruct Q as [mm Q]. pose proof (map_sees E0 M0 _ _ _ _ Q) as H. constructor.
  - intros anc x R. apply reaches_sees, seen_inv in R. unfold seen0 in R. cbn [In] in R. repeat (destruct R as [<-|R]; [vm_compute; discriminate|]). destruct R.
  - intros anc x R. apply (H _ _ R).
  - intros anc x R. apply (H _ _ R).
  - intros anc x sz ch y R L I. destruct (H _ _ R) as [_ [_ P]]. exact (P _ _ _ L I).
Qed.
Lemma info_of0 : forall x i, In x seen0 -> has_info db0 x i -> (exists z c, i = IBase z c /\ (x = at_ 2%nat 1000 \/ x = at_ 2%nat 2000)) \/ match i with IBase _ _ | IEnum _ _ => False | _ => True end.
Proof.
  intros x i I H. unfold seen0 in I. cbn [In] in I.
  repeat (destruct I as [<-|I]; [match type of H with has_info _ ?y _ => assert (J : exists j, final_info E0 y = Ret (Some j) /\ (match j with IBase _ _ | IEnum _ _ => y = at_ 2%nat 1000 \/ y = at_ 2%nat 2000 | _ => True end) /\ match j with IEnum _ _ => False | _ => True end)
      by (eexists; split; [vm_compute; reflexivity|]; split; [first [exact Logic.I|left; reflexivity|right; reflexivity]|exact Logic.I]) end;
    destruct J as [j [J1 [J2 J3]]]; apply final_info_some in J1; pose proof (has_info_fun E0 _ _ _ H J1) as ->; destruct j; try contradiction; try (right; exact Logic.I); left; eexists _, _; split; [reflexivity|exact J2]|]). destruct I.
Qed.
Lemma readable0 : readable E0 M0 linked (at_ 16%nat 400).
Proof.
  intros anc x R. apply reaches_sees in R. split.
  - intros z c I. destruct (cp_base _ _ _ _ copyable0 _ _ _ _ R I) as [k [nm [en [sg [K1 [K2 K3]]]]]]. exists k. auto.
  - intros z l I. apply seen_inv in R. destruct (info_of0 _ _ R I) as [[z' [c [Q _]]]|Q]; [discriminate|contradiction].
Qed.
Lemma writable0 : writable E0 M0 linked (at_ 16%nat 400).
Proof.
  intros anc x R. apply reaches_sees, seen_inv in R. split.
  - intros z c I C. destruct (info_of0 _ _ R I) as [[z' [c' [_ Q]]]|Q]; [|contradiction]. destruct C as [qs [f [C1 C2]]].
    destruct Q as [-> | ->]; (inversion C1 as [|? K|? t q qs' f' S1 R1]; subst; [destruct C2|];
      cbn in S1; inversion S1; subst; cbn in R1; inversion R1 as [|? K'|? t' q' qs'' f'' S2 R2]; subst; [destruct C2|]; cbn in S2; inversion S2).
  - intros z l I. destruct (info_of0 _ _ R I) as [[z' [c [Q _]]]|Q]; [discriminate|contradiction].
Qed.
Lemma parts0 : forall anc x sz ch, In x seen0 -> looks E0 M0 linked anc x (VNode sz ch) ->
  NoDup ch /\ ~ In (at_ 16%nat 400) ch /\ (In (at_ 18%nat 408) ch -> x = at_ 16%nat 400).
Proof.
  intros anc x sz ch S Lk. apply (plain_node E0 M0 eq_refl _ _ []) in Lk. unfold seen0 in S. cbn [In] in S.
  repeat (destruct S as [<-|S]; [first [exfalso; eapply node_no_pointer; [exact Lk|vm_compute; reflexivity]
      |eapply view_node in Lk; [|vm_compute; reflexivity|discriminate]; subst ch; cbn;
        split; [repeat constructor; cbn; intuition discriminate|]; split; [intuition discriminate|]; first [reflexivity|intro Q; exfalso; intuition discriminate]]|]). destruct S.
Qed.
Lemma targets0 : forall anc x sz w, In x seen0 -> looks E0 M0 linked anc x (VPtr sz w) ->
  w = array_at 1%nat 1 1000 \/ w = array_at 1%nat 1 2000 \/ (w = array_at 4%nat 1 2008 /\ x = at_ 18%nat 408).
Proof.
  intros anc x sz w S Lk. inversion Lk as [ | | | |sz' p w' T NL Sz| | | | | ]; subst. apply (plain_target E0 M0 eq_refl _ _ []) in T. clear Lk NL Sz. unfold seen0 in S. cbn [In] in S.
  repeat (destruct S as [<-|S]; [match type of T with target _ _ _ _ ?y _ _ => edestruct (view_target E0 M0 linked y) as [[sz0 Q] R] end; [vm_compute; reflexivity|discriminate|exact T|];
      clear T; vm_compute in Q, R; first [discriminate|injection Q as _ <-; auto]|]). destruct S.
Qed.
Lemma no_calls0 : forall anc x l, reaches E0 M0 linked (at_ 16%nat 400) anc x -> looks E0 M0 linked anc x (VCall l) -> False.
Proof. intros anc x l R L. destruct (call_info _ _ _ _ _ _ L) as [i [Hi Ci]]. exact (cp_data _ _ _ _ copyable0 _ _ _ (reaches_sees _ _ _ _ _ _ R) Hi Ci). Qed.
Lemma path0 : forall anc x, reaches E0 M0 linked (at_ 16%nat 400) anc x -> (x = at_ 16%nat 400 -> anc = []) /\ (x = at_ 18%nat 408 -> anc = [at_ 16%nat 400]).
Proof.
  intros anc x R. inversion R as [|anc' y sz ch z R' L I|anc' y sz z R' L|anc' y l z R' L I]; subst.
  - split; [reflexivity|discriminate].
  - pose proof (seen_inv _ _ (reaches_sees _ _ _ _ _ _ R')) as S. destruct (parts0 _ _ _ _ S L) as [_ [P1 P2]]. split; intros ->; [contradiction|].
    rewrite (P2 I) in *. f_equal. clear R. inversion R' as [|a2 y2 s2 c2 z2 R2 L2 I2|a2 y2 s2 z2 R2 L2|a2 y2 l2 z2 R2 L2 I2]; subst; [reflexivity| | |].
    + pose proof (seen_inv _ _ (reaches_sees _ _ _ _ _ _ R2)) as S2. destruct (parts0 _ _ _ _ S2 L2) as [_ [P3 _]]. contradiction.
    + pose proof (seen_inv _ _ (reaches_sees _ _ _ _ _ _ R2)) as S2. destruct (targets0 _ _ _ _ S2 L2) as [Q|[Q|[Q _]]]; discriminate.
    + destruct (no_calls0 _ _ _ R2 L2).
  - pose proof (seen_inv _ _ (reaches_sees _ _ _ _ _ _ R')) as S. destruct (targets0 _ _ _ _ S L) as [->|[->|[-> _]]]; split; discriminate.
  - destruct (no_calls0 _ _ _ R' L).
Qed.
Lemma inner_once0 : inner_once E0 M0 linked (at_ 16%nat 400) [(1000, 16); (2000, 24)].
Proof.
  intros anc x sz w anc' x' sz' w' R L R' L' Q.
  pose proof (seen_inv _ _ (reaches_sees _ _ _ _ _ _ R)) as S. pose proof (seen_inv _ _ (reaches_sees _ _ _ _ _ _ R')) as S'.
  destruct (targets0 _ _ _ _ S L) as [->|[->|[-> X]]]; [left; exists 16; left; reflexivity|left; exists 24; right; left; reflexivity|].
  destruct (targets0 _ _ _ _ S' L') as [->|[->|[-> X']]]; [discriminate|discriminate|]. right. subst x x'. split; [|reflexivity].
  rewrite (proj2 (path0 _ _ R) eq_refl), (proj2 (path0 _ _ R') eq_refl). reflexivity.
Qed.
Lemma both_sees : forall E M m v1 v2 a1 x1 a2 x2, both E M m v1 v2 a1 x1 a2 x2 -> sees E M m v1 a1 x1 /\ sees E M m v2 a2 x2.
Proof.
  intros E M m v1 v2 a1 x1 a2 x2 H. induction H as [|a1 x1 a2 x2 s1 c1 s2 c2 i y1 y2 H [S1 S2] L1 L2 N1 N2|a1 x1 a2 x2 p1 p2 y1 y2 H [S1 S2] T1 T2|a1 x1 a2 x2 c1 c2 i y1 y2 H [S1 S2] L1 L2 N1 N2].
  - split; apply se_here.
  - split; eapply se_node; eauto using nth_error_In.
  - split; eapply se_ptr; eauto.
  - split; eapply se_call; eauto using nth_error_In.
Qed.
Lemma same_types0 : same_types E0 M0 linked (at_ 16%nat 400) (at_ 16%nat 400).
Proof.
  assert (K : forall anc x k, sees E0 M0 linked (at_ 16%nat 400) anc x -> has_ctype db0 x k -> k = CInt).
  { intros anc x k S H. destruct H as [nm [en [w [sg [e [H1 [H2 H3]]]]]]].
    assert (I : exists z c, has_info db0 x (IBase z c)) by (destruct H3 as [f [z [c [F [_ [I _]]]]]]; exists z, c, f; auto).
    destruct I as [z [c I]]. destruct (info_of0 _ _ (seen_inv _ _ S) I) as [[z' [c' [_ Q]]]|Q]; [|contradiction].
    eapply (has_ctype_fun db0 x); [exists nm, en, w, sg, e; auto|].
    exists "int"%string, [6], 4, true, 6. split; [cbn; auto 20|]. split; [left; reflexivity|]. exists (St 0%nat), 4, 6.
    split; [destruct Q as [-> | ->]; (eexists; eapply res_step; [cbn; constructor|]; apply res_stop; intros t q X; cbn in X; inversion X)|]. cbn. auto. }
  intros a1 x1 a2 x2 k1 k2 H H1 H2. destruct (both_sees _ _ _ _ _ _ _ _ _ H) as [S1 S2]. rewrite (K _ _ _ S1 H1), (K _ _ _ S2 H2). reflexivity.
Qed.
Example C60_example : finite_types (en_db E0) 7 /\ en_fuel E0 = (7 + 3)%nat /\ (tame E0 /\ finite_calls E0) /\ bytes_ok linked /\
  visible E0 M0 linked (at_ 16%nat 400) /\ dag M0 = M0 /\ readable E0 M0 linked (at_ 16%nat 400) /\
  same_types E0 M0 linked (at_ 16%nat 400) (at_ 16%nat 400) /\
  equal_ex E0 M0 feq0 20 linked (at_ 16%nat 400) (at_ 16%nat 400) = Ret 1 /\ free_ex E0 M0 (fun l => l) 20 linked (at_ 16%nat 400) = Ret (1, [2000; 1000]).
Proof.
  destruct C40_example as [Q1 [Q2 [Q3 _]]]. split; [exact Q1|]. split; [exact Q2|]. split; [exact Q3|]. split; [exact (cp_bytes _ _ _ _ copyable0)|].
  split; [exact visible0|]. split; [reflexivity|]. split; [exact readable0|]. split; [exact same_types0|]. split; vm_compute; reflexivity.
Qed.
Example C61_example : mo_tree M0 = false /\ mo_union M0 <> UNION_ignore /\
  visible E0 M0 linked (at_ 16%nat 400) /\ writable E0 M0 linked (at_ 16%nat 400) /\ parts_differ E0 M0 linked (at_ 16%nat 400) /\
  inner_once E0 M0 linked (at_ 16%nat 400) [(1000, 16); (2000, 24)] /\
  (forall y c, has_info db0 (at_ 16%nat 400) (IBase y c) -> ~ is_const db0 (at_ 16%nat 800)) /\
  allocates (some_blocks 2) 0 2 (fun y => exists w, pointee E0 M0 linked (at_ 16%nat 400) w y) [(400, 16); (800, 16); (1000, 16); (2000, 24)].
Proof.
  split; [reflexivity|]. split; [discriminate|]. split; [exact visible0|]. split; [exact writable0|]. split; [|split; [exact inner_once0|split]].
  - intros anc x sz ch R L. apply reaches_sees, seen_inv in R. apply (parts0 _ _ _ _ R L).
  - intros y c I. destruct (info_of0 _ _ (or_introl eq_refl) I) as [[z' [c' [_ [Q|Q]]]]|Q]; [discriminate|discriminate|contradiction].
  - assert (Sz : forall y, (exists w, pointee E0 M0 linked (at_ 16%nat 400) w y) -> 0 < y <= 16).
    { intros y [w P]. destruct (pointees0 _ _ P) as [Q|[Q|Q]]; injection Q as -> ->; lia. }
    split.
    + intros j y J Y. apply Sz in Y. unfold some_blocks. replace (j <? 2)%nat with true by lia. split; [lia|]. split; [lia|].
      intros b w [Q|[Q|[Q|[Q|[]]]]]; injection Q as <- <-; lia.
    + intros j j' y y' J J' Y Y'. apply Sz in Y. apply Sz in Y'. unfold some_blocks. replace (j <? 2)%nat with true by lia. replace (j' <? 2)%nat with true by lia. lia.
Qed.

(** * Failures *)
(** 40 struct inner { struct node *a; void *bad; }, 43 struct outer { struct inner x; struct node *y; }, 47 struct fixed { const int c; }, 49 unsigned int *)
Definition db3 : db := fun r =>
  match r with
  | 40%nat => ent "inner"%string (IAggr AStruct 16 [41%nat; 42%nat])
  | 41%nat => ent "a"%string (mi 4%nat 0)
  | 42%nat => ent "bad"%string (mi 10%nat 8)
  | 43%nat => ent "outer"%string (IAggr AStruct 24 [44%nat; 45%nat])
  | 44%nat => ent "x"%string (mi 40%nat 0)
  | 45%nat => ent "y"%string (mi 4%nat 16)
  | 46%nat => Build_entry None false (IQual QConst (Some 0%nat))
  | 47%nat => ent "fixed"%string (IAggr AStruct 4 [48%nat])
  | 48%nat => ent "c"%string (mi 46%nat 0)
  | 49%nat => ent "unsigned int"%string (IBase 4 8)
  | _ => db0 r
  end.
Definition E3 : env := Build_env 10 db3 (fun _ => 0) 5%nat no_handler (fun _ => false) (fun _ => []) (fun _ => 0).
(** Data the library cannot see through is not always rejected: after the void pointer in struct inner the entries below it have been
    deleted, but are still in the hash map when the next pointer leads to the same node: use after free. *)
Definition outer3 : mem := words [(400, 1000); (408, 3000); (416, 1000); (1000, 5)].
Theorem C60_rejected_refuted : exists E M k m v x, en_handler E = no_handler /\ mo_uptr M = UPTR_fail /\ (exists anc, sees E M m v anc x) /\
  points (en_db E) m x None 3000 /\ new_memory_map E M k m v = Ub.
Proof.
  exists E3, M0, 20%nat, outer3, (at_ 43%nat 400), (at_ 42%nat 408). split; [reflexivity|]. split; [reflexivity|]. split; [|split].
  - assert (S : sees E3 M0 outer3 (at_ 43%nat 400) [] (at_ 43%nat 400)) by apply se_here.
    eapply (plain_step E3 M0 eq_refl) in S; [|vm_compute; reflexivity|left; reflexivity].
    eapply (plain_step E3 M0 eq_refl) in S; [|vm_compute; reflexivity|right; left; reflexivity]. eexists. exact S.
  - split; [exists (St 10%nat); split; [eexists; eapply res_step; [cbn; constructor|]; apply res_stop; intros t q X; cbn in X; inversion X|reflexivity]|vm_compute; reflexivity].
  - vm_compute. reflexivity.
Qed.
Print Assumptions C60_rejected_refuted.
(** A struct with a constant number in it cannot be copied, not even to another variable of this type, although its memory map is built. *)
Theorem C61_const_refuted : exists E M k src dst s s', copy_ex E M (fun l => l) (some_blocks 100) any_decl k src dst s = Ret (false, s') /\
  (exists mm, new_memory_map E M k (c_mem s) src = Ret (Some mm)) /\ v_entry dst = v_entry src.
Proof.
  exists E3, M0, 20%nat, (at_ 47%nat 400), (at_ 47%nat 800), (cst0 (words [(400, 5)])). eexists. split; [vm_compute; reflexivity|]. split; [eexists; vm_compute; reflexivity|reflexivity].
Qed.
Print Assumptions C61_const_refuted.
(** Base types that differ in the same place (int and unsigned int, both 5): the comparison fails. *)
Theorem C60_types_refuted : exists E M feq k m v1 v2, (exists mm, new_memory_map E M k m v1 = Ret (Some mm)) /\ (exists mm, new_memory_map E M k m v2 = Ret (Some mm)) /\
  equal_ex E M feq k m v1 v2 = Ret (- EFAULT).
Proof.
  exists E3, M0, feq0, 20%nat, (words [(400, 5); (500, 5)]), (at_ 0%nat 400), (at_ 49%nat 500). split; [eexists; vm_compute; reflexivity|]. split; [eexists; vm_compute; reflexivity|vm_compute; reflexivity].
Qed.
Print Assumptions C60_types_refuted.
