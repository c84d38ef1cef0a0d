(** Property theorems about the meaning of deep comparison (C42). *)
From Coq Require Import ZArith String List Bool Lia.
From Verif Require Import Base BaseProof EntryModel EntrySpec ValueModel ValueSpec DeepModel DeepSpec DeepProof DeepProof2 DeepProof3 DeepProof4 DeepProof5 DeepProof8 DeepProps EqualSpec EqualProof.
Import ListNotations.
Open Scope Z_scope.

(** C42. When metac_value_equal_ex returns 1, whatever steps are taken from both values at once, and however often loops are gone
    round: both places are alike. Before a loop is closed both places are as far from the pointer with the same address. *)
Theorem C42_equal_means : forall E M feq k m v1 v2, bytes_ok m -> local E m -> steady E M m v1 -> steady E M m v2 -> equal_ex E M feq k m v1 v2 = Ret 1 ->
  forall a1 x1 a2 x2, both E M m v1 v2 a1 x1 a2 x2 -> alike E M feq m a1 x1 a2 x2 /\
    (reaches E M m v1 a1 x1 -> reaches E M m v2 a2 x2 /\ forall t1 p1 t2 p2, points (en_db E) m x1 t1 p1 -> points (en_db E) m x2 t2 p2 -> p1 <> 0 -> p2 <> 0 ->
       forall l, loop_at (en_db E) m a1 p1 l <-> loop_at (en_db E) m a2 p2 l).
Proof. exact equal_sound. Qed.
Print Assumptions C42_equal_means.

(** two circles of two nodes at different addresses, 100 steps *)
Definition ring1 : list value := [at_ 4%nat 500; array_at 1%nat 1 1000; at_ 1%nat 1000; at_ 2%nat 1000; at_ 3%nat 1008; array_at 1%nat 1 2000; at_ 1%nat 2000; at_ 2%nat 2000; at_ 3%nat 2008].
Definition ring2 : list value := [at_ 4%nat 600; array_at 1%nat 1 3000; at_ 1%nat 3000; at_ 2%nat 3000; at_ 3%nat 3008; array_at 1%nat 1 3500; at_ 1%nat 3500; at_ 2%nat 3500; at_ 3%nat 3508].
Lemma rings_closed : closed E0 M0 circles ring1 /\ closed E0 M0 circles ring2.
Proof.
  split; unfold closed, ring1, ring2; repeat apply Forall_cons; try apply Forall_nil;
    (eexists; split; [vm_compute; reflexivity|]; split; [discriminate|]; intros y Y; cbn in Y; decompose [or] Y; try contradiction; subst y; cbn; auto 20).
Qed.
Lemma rings_steady : steady E0 M0 circles (at_ 4%nat 500) /\ steady E0 M0 circles (at_ 4%nat 600).
Proof.
  destruct rings_closed as [C1 C2]. split; [eapply plain_steady; [reflexivity|reflexivity|exact C1|left; reflexivity|]|eapply plain_steady; [reflexivity|reflexivity|exact C2|left; reflexivity|]]; intros x y sz sz' w w' Ix Iy Lx Ly Q.
  - assert (K : forall y sz w, In y ring1 -> look E0 M0 circles [] y = Ret (VPtr sz w) -> w = array_at 1%nat 1 (number_at circles (v_addr y) 8)).
    { clear. intros y sz w I L. unfold ring1 in I. cbn [In] in I. repeat (destruct I as [<-|I]; [vm_compute in L; try discriminate; injection L as _ <-; reflexivity|]). destruct I. }
    rewrite (K _ _ _ Ix Lx), (K _ _ _ Iy Ly), Q. reflexivity.
  - assert (K : forall y sz w, In y ring2 -> look E0 M0 circles [] y = Ret (VPtr sz w) -> w = array_at 1%nat 1 (number_at circles (v_addr y) 8)).
    { clear. intros y sz w I L. unfold ring2 in I. cbn [In] in I. repeat (destruct I as [<-|I]; [vm_compute in L; try discriminate; injection L as _ <-; reflexivity|]). destruct I. }
    rewrite (K _ _ _ Ix Lx), (K _ _ _ Iy Ly), Q. reflexivity.
Qed.
Lemma both_step : forall i E M m, en_handler E = no_handler -> forall v1 v2 a1 x1 a2 x2 w1 w2 y1 y2, both E M m v1 v2 a1 x1 a2 x2 ->
  look E M m [] x1 = Ret w1 -> look E M m [] x2 = Ret w2 -> (match w1, w2 with VNode _ _, VNode _ _ | VPtr _ _, VPtr _ _ => True | _, _ => False end) ->
  nth_error (view_parts w1) i = Some y1 -> nth_error (view_parts w2) i = Some y2 -> both E M m v1 v2 (x1 :: a1) y1 (x2 :: a2) y2.
Proof.
  intros i E M m NH v1 v2 a1 x1 a2 x2 w1 w2 y1 y2 B L1 L2 K N1 N2.
  destruct w1 as [|sz1|sz1 lv1|sz1 c1|sz1 u1|ca1], w2 as [|sz2|sz2 lv2|sz2 c2|sz2 u2|ca2]; try contradiction;
    (apply look_sound in L1; [|discriminate]); (apply look_sound in L2; [|discriminate]); cbn in N1, N2.
  - eapply bt_part; [exact B|eapply plain_node; eassumption|eapply plain_node; eassumption|exact N1|exact N2].
  - destruct i as [|i]; [|destruct i; discriminate]. injection N1 as <-. injection N2 as <-.
    inversion L1 as [| | | |s1 p1 y1 T1 _ _| | | | |]; subst. inversion L2 as [| | | |s2 p2 y2 T2 _ _| | | | |]; subst.
    eapply bt_target; [exact B|eapply plain_target; eassumption|eapply plain_target; eassumption].
Qed.
(** the second node, having gone round once: 7 in both *)
Example C42_equal_means_example : bytes_ok circles /\ local E0 circles /\ steady E0 M0 circles (at_ 4%nat 500) /\ steady E0 M0 circles (at_ 4%nat 600) /\
  equal_ex E0 M0 feq0 20 circles (at_ 4%nat 500) (at_ 4%nat 600) = Ret 1 /\
  exists a1 a2, length a1 = 12%nat /\ both E0 M0 circles (at_ 4%nat 500) (at_ 4%nat 600) a1 (at_ 2%nat 2000) a2 (at_ 2%nat 3500).
Proof.
  split; [unfold circles, words; repeat apply store_bytes_ok; intro; cbn; lia|]. split; [apply plain_local; reflexivity|].
  split; [apply rings_steady|]. split; [apply rings_steady|]. split; [vm_compute; reflexivity|].
  assert (B : both E0 M0 circles (at_ 4%nat 500) (at_ 4%nat 600) [] (at_ 4%nat 500) [] (at_ 4%nat 600)) by apply bt_here.
  Ltac go i B := eapply (both_step i E0 M0 circles eq_refl) in B; [|vm_compute; reflexivity|vm_compute; reflexivity|exact I|vm_compute; reflexivity|vm_compute; reflexivity].
  go 0%nat B. go 0%nat B. go 1%nat B. go 0%nat B. go 0%nat B. go 1%nat B. go 0%nat B. go 0%nat B. go 1%nat B. go 0%nat B. go 0%nat B. go 0%nat B.
  eexists. eexists. split; [|exact B]. reflexivity.
Qed.
(** Sharing is not compared: two pointers to the same node, and pointers to two nodes with the same contents. *)
Theorem C42_sharing_refuted : exists E M feq k m v1 v2, equal_ex E M feq k m v1 v2 = Ret 1 /\
  number_at m (v_addr v1) 8 = number_at m (v_addr v1 + 8) 8 /\ number_at m (v_addr v2) 8 <> number_at m (v_addr v2 + 8) 8.
Proof.
  exists E0, M0, feq0, 20%nat, (words [(400, 1000); (408, 1000); (1000, 5); (440, 2000); (448, 3000); (2000, 5); (3000, 5)]), (array_at 4%nat 2 400), (array_at 4%nat 2 440).
  split; [vm_compute; reflexivity|]. split; vm_compute; [reflexivity|discriminate].
Qed.
Print Assumptions C42_sharing_refuted.
(** When unknown pointers are compared as values, so are the pointers that close a loop: two circles at different addresses that are
    equal otherwise are different. There are no unknown pointers in them. *)
Definition as_values (M : mode) : mode := Build_mode (mo_tree M) UPTR_as_values (mo_union M) (mo_flx M).
Theorem C42_loop_address_refuted : exists E M feq k m v1 v2, equal_ex E M feq k m v1 v2 = Ret 1 /\ equal_ex E (as_values M) feq k m v1 v2 = Ret 0 /\
  mo_uptr M = UPTR_fail /\ en_handler E = no_handler.
Proof. exists E0, M0, feq0, 20%nat, circles, (at_ 4%nat 500), (at_ 4%nat 600). split; [vm_compute; reflexivity|]. split; [vm_compute; reflexivity|]. split; reflexivity. Qed.
Print Assumptions C42_loop_address_refuted.
(** Without steadiness: the objects at 1000 and 2000 are reached as struct base first; their pointers to the whole objects (struct
    derived) count as loops, and the different numbers 7 and 8 the rest of the objects points to are not compared. *)
Theorem C42_hidden_refuted : exists E M feq k m v1 v2 a1 x1 a2 x2, equal_ex E M feq k m v1 v2 = Ret 1 /\ both E M m v1 v2 a1 x1 a2 x2 /\
  has_ctype (en_db E) x1 CInt /\ has_ctype (en_db E) x2 CInt /\ number_at m (v_addr x1) 4 = 7 /\ number_at m (v_addr x2) 4 = 8.
Proof.
  pose (m := words [(500, 1000); (1000, 1000); (1008, 3000); (3000, 7); (508, 2000); (2000, 2000); (2008, 4000); (4000, 8)]).
  exists E0, M0, feq0, 20%nat, m, (at_ 25%nat 500), (at_ 25%nat 508).
  assert (B : both E0 M0 m (at_ 25%nat 500) (at_ 25%nat 508) [] (at_ 25%nat 500) [] (at_ 25%nat 508)) by apply bt_here.
  Ltac go' m i B := eapply (both_step i E0 M0 m eq_refl) in B; [|vm_compute; reflexivity|vm_compute; reflexivity|exact I|vm_compute; reflexivity|vm_compute; reflexivity].
  go' m 0%nat B. go' m 0%nat B. go' m 0%nat B. go' m 0%nat B. go' m 0%nat B. go' m 1%nat B. go' m 0%nat B. go' m 0%nat B.
  do 4 eexists. split; [vm_compute; reflexivity|]. split; [exact B|].
  assert (H : forall a, has_ctype (en_db E0) (at_ 0%nat a) CInt).
  { intro a. exists "int"%string, [6], 4, true, 6. split; [cbn; auto 20|]. split; [left; reflexivity|]. exists (St 0%nat), 4, 6. split; [exists []; apply res_stop; intros t q S; cbn in S; inversion S|]. cbn. auto. }
  split; [apply H|]. split; [apply H|]. split; vm_compute; reflexivity.
Qed.
Print Assumptions C42_hidden_refuted.
