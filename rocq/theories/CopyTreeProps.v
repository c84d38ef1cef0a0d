(** Property theorems about deep copies as trees (C82). *)
From Coq Require Import ZArith String List Bool Permutation Lia.
From Coq Require Import ZifyBool.
From Verif Require Import Base BaseProof EntryModel EntrySpec EntryProof ValueModel ValueSpec ValueProof2 DeepModel DeepSpec DeepProof DeepProof2 DeepProof4 DeepProof8 DeepProps
  CopySpec CopyProof CopyProof2 CopyProof3 CopyProof4 CopyProps CopyTreeSpec CopyTreeProof CopyTreeProof2.
Import ListNotations.
Open Scope Z_scope.

(** C82, copies as trees: whatever pointers of the source share, each pointer of the copy, followed on any way from the value, has a
    block of its own, of the size of what it points to; scalars are the same; a pointer back to what one of the values on the way to it
    points to leads to the copy of that; nothing outside of the destination and the new blocks is changed.
    Missing: bit-fields; in the modes that leave NULL pointers out a destination that is not zero (see C82_stale_refuted). *)
Theorem C82_tree_partial : forall E M ord cal same_decl k src dst s s' evs z B,
  mo_tree M = true ->
  copy_ex E M ord cal same_decl k src dst s = Ret (true, s') -> calls s s' evs ->
  unfoldable E M (c_mem s) src -> extent E M (c_mem s) [] src z -> same_type (en_db E) src dst ->
  covered E M (c_mem s) src B ->
  0 < v_addr dst -> v_addr dst + z < 2 ^ 64 -> (forall b w, In (b, w) ((v_addr src, z) :: B) -> apart (v_addr dst) z b w) ->
  fresh_blocks (allocs evs) ((v_addr src, z) :: (v_addr dst, z) :: B) ->
  (mo_uptr M = UPTR_fail \/ mo_uptr M = UPTR_as_one_byte_ptr -> forall x, v_addr dst <= x < v_addr dst + z -> c_mem s x = 0) ->
  unfolded E M (c_mem s) (c_mem s') src z (v_addr dst) (allocs evs).
Proof. exact (fun E M ord cal sd k src dst s s' evs z B T => copy_tree_sound E M ord cal sd T k src dst s s' evs z B). Qed.
Print Assumptions C82_tree_partial.

(** the circle of two nodes with a pointer into the second one, copied as a tree from 400 to 800 *)
Lemma closedt : closed E0 Mtree linked seen0.
Proof.
  unfold closed, seen0.
  repeat (constructor; [eexists; split; [vm_compute; reflexivity|]; split; [discriminate|]; intros y Y; vm_compute in Y; vm_compute; tauto|]). constructor.
Qed.
Lemma seent_inv : forall anc x, reaches E0 Mtree linked (at_ 16%nat 400) anc x -> In x seen0.
Proof. intros anc x S. apply reaches_sees in S. exact (proj1 (closed_sees E0 Mtree eq_refl linked (at_ 16%nat 400) seen0 closedt (or_introl eq_refl) _ _ S)). Qed.
Lemma extentt : forall anc x z, In x seen0 -> extent E0 Mtree linked anc x z -> 0 < v_addr x /\ v_addr x + z < 3000.
Proof.
  intros anc x z I X. unfold seen0 in I. cbn [In] in I.
  repeat (destruct I as [<-|I]; [eapply (plain_extent_map E0 Mtree eq_refl 20) in X; [|vm_compute; reflexivity]; vm_compute in X; subst z; vm_compute; auto|]). destruct I.
Qed.
Lemma looks_target : forall E M m anc x sz w, looks E M m anc x (VPtr sz w) -> exists p, target E M m anc x p w.
Proof. intros E M m anc x sz w L. inversion L; subst. eauto. Qed.
Lemma targett : forall anc x sz w, In x seen0 -> looks E0 Mtree linked anc x (VPtr sz w) ->
  w = array_at 1%nat 1 1000 /\ number_at linked (v_addr x) 8 = 1000 \/ w = array_at 1%nat 1 2000 /\ number_at linked (v_addr x) 8 = 2000 \/
  w = array_at 4%nat 1 2008 /\ number_at linked (v_addr x) 8 = 2008.
Proof.
  intros anc x sz w S L. apply looks_target in L. destruct L as [p T]. apply (plain_target E0 Mtree eq_refl _ _ []) in T. unfold seen0 in S. cbn [In] in S.
  repeat (destruct S as [<-|S]; [match type of T with target _ _ _ _ ?y _ _ => edestruct (view_target E0 Mtree linked y) as [[sz' Q] R] end; [vm_compute; reflexivity|discriminate|exact T|];
      clear T; vm_compute in Q, R; first [discriminate|injection Q as _ <-; auto 10]|]). destruct S.
Qed.
Lemma pointt : forall anc w z, In w [array_at 1%nat 1 1000; array_at 1%nat 1 2000; array_at 4%nat 1 2008] -> extent E0 Mtree linked anc w z ->
  z = if v_addr w =? 2008 then 8 else 16.
Proof.
  intros anc w z I X. cbn [In] in I.
  repeat (destruct I as [<-|I]; [eapply (plain_extent_map E0 Mtree eq_refl 20) in X; [|vm_compute; reflexivity]; vm_compute in X; subst z; reflexivity|]). destruct I.
Qed.
Lemma app_two : forall A (a b c : A) l1 l2 l3, (l1 ++ a :: l2 ++ b :: l3)%list <> [c].
Proof. intros A a b c [|x [|]] l2 l3 H; cbn in H; try discriminate; injection H as _ H; destruct l2; discriminate. Qed.
Lemma app_pair : forall A (a b c d : A) l1 l2 l3, (l1 ++ a :: l2 ++ b :: l3)%list = [c; d] -> a = c /\ b = d.
Proof.
  intros A a b c d [|x l1] l2 l3 H; cbn in H.
  - injection H as -> H. destruct l2 as [|y [|]]; cbn in H; try discriminate; injection H; intros; subst; auto. 
  - injection H as _ H. exfalso. eapply app_two. exact H.
Qed.
Lemma unfoldable0 : unfoldable E0 Mtree linked (at_ 16%nat 400).
Proof.

  constructor.
  - unfold linked, words. repeat apply store_bytes_ok. intro; cbn; lia.
  - apply plain_local; reflexivity.
  - intros anc x z c S I. apply seent_inv in S. assert (Q : x = at_ 2%nat 1000 \/ x = at_ 2%nat 2000).
    { unfold seen0 in S. cbn [In] in S.
      repeat (destruct S as [<-|S]; [try (left; reflexivity); try (right; reflexivity); exfalso;
        match type of I with has_info _ ?y _ => assert (J : exists i, final_info E0 y = Ret (Some i) /\ match i with IBase _ _ => False | _ => True end) by (eexists; split; [vm_compute; reflexivity|exact Logic.I]) end;
        destruct J as [i [J1 J2]]; apply final_info_some in J1; pose proof (has_info_fun _ _ _ _ I J1) as <-; contradiction|]). destruct S. }
    assert (J : exists i, final_info E0 x = Ret (Some i) /\ i = IBase 4 6) by (destruct Q as [-> | ->]; (eexists; split; [vm_compute; reflexivity|reflexivity])).
    destruct J as [i [J ->]]. apply final_info_some in J. pose proof (has_info_fun _ _ _ _ I J) as K. injection K as -> ->.
    exists CInt, "int"%string, [6], true. split; [|split].
    + exists "int"%string, [6], 4, true, 6. split; [cbn; auto 20|]. split; [left; reflexivity|]. exists (St 0%nat), 4, 6.
      split; [destruct Q as [-> | ->]; (eexists; eapply res_step; [cbn; constructor|]; apply res_stop; intros t q X; cbn in X; inversion X)|]. cbn. auto.
    + intros mi0 H. destruct Q as [-> | ->]; cbn in H; injection H as <-; auto.
    + cbn; auto 20.
  - intros anc x z S X. apply seent_inv in S. pose proof (extentt _ _ _ S X). lia.
  - intros anc x sz ch y S Lk Iy. apply seent_inv in S. apply (plain_node E0 Mtree eq_refl _ _ []) in Lk. unfold seen0 in S. cbn [In] in S.
    repeat (destruct S as [<-|S]; [first [exfalso; eapply node_no_pointer; [exact Lk|vm_compute; reflexivity]
      |eapply view_node in Lk; [|vm_compute; reflexivity|discriminate]; subst ch; cbn in Iy; repeat (destruct Iy as [<-|Iy]; [vm_compute; discriminate|]); destruct Iy]|]). destruct S.
  - intros anc x sz l1 y l2 y' l3 z z' S Lk X X'. apply seent_inv in S. apply (plain_node E0 Mtree eq_refl _ _ []) in Lk. unfold seen0 in S. cbn [In] in S.
    repeat (destruct S as [<-|S]; [first [exfalso; eapply node_no_pointer; [exact Lk|vm_compute; reflexivity]
      |eapply view_node in Lk; [|vm_compute; reflexivity|discriminate]; cbn in Lk;
       first [exfalso; eapply app_two; exact Lk|exfalso; destruct l1; discriminate
        |apply app_pair in Lk; destruct Lk as [-> ->];
         eapply (plain_extent_map E0 Mtree eq_refl 20) in X; [|vm_compute; reflexivity]; eapply (plain_extent_map E0 Mtree eq_refl 20) in X'; [|vm_compute; reflexivity];
         vm_compute in X, X'; subst z z'; unfold apart; cbn; lia]]|]). destruct S.
  - intros anc x sz w z S L X. apply seent_inv in S. apply targett in L; [|exact S].
    destruct L as [[-> ->]|[[-> ->]|[-> ->]]]; (apply pointt in X; [|cbn; auto]); vm_compute in X; subst z; vm_compute; (split; [discriminate|reflexivity]).
  - intros anc x i S I K. apply seent_inv in S. unfold seen0 in S. cbn [In] in S.
    repeat (destruct S as [<-|S]; [match type of I with has_info _ ?y _ => assert (J : exists i, final_info E0 y = Ret (Some i) /\ is_call_info i = false) by (eexists; split; [vm_compute; reflexivity|reflexivity]) end;
      destruct J as [j [J1 J2]]; apply final_info_some in J1; pose proof (has_info_fun _ _ _ _ I J1) as <-; destruct i as [ | | | | | | | | | |[|] ?| | | ]; try contradiction; discriminate|]). destruct S.
Qed.
Definition newt : list block := [(5000, 16); (5100, 16); (5200, 8); (5300, 16); (5400, 16)].
Example C82_tree_example : exists s', copy_ex E0 Mtree (fun l => l) (some_blocks 5) any_decl 20 (at_ 16%nat 400) (at_ 16%nat 800) (cst0 linked) = Ret (true, s') /\
  (exists evs, calls (cst0 linked) s' evs /\ allocs evs = newt /\ fresh_blocks (allocs evs) [(400, 16); (800, 16); (1000, 16); (2000, 24)]) /\
  unfoldable E0 Mtree linked (at_ 16%nat 400) /\ extent E0 Mtree linked [] (at_ 16%nat 400) 16 /\ same_type db0 (at_ 16%nat 400) (at_ 16%nat 800) /\
  covered E0 Mtree linked (at_ 16%nat 400) [(1000, 16); (2000, 24)] /\
  (forall b w, In (b, w) [(400, 16); (1000, 16); (2000, 24)] -> apart 800 16 b w) /\
  (forall x, 800 <= x < 816 -> linked x = 0).
Proof.
  eexists. split; [vm_compute; reflexivity|]. split; [|split; [|split; [|split; [|split; [|split]]]]].
  - exists [EvCalloc 5000 16; EvCalloc 5100 16; EvCalloc 5200 8; EvCalloc 5300 16; EvCalloc 5400 16]. split; [reflexivity|]. split; [reflexivity|]. split; [|split; [split|]].
    + cbn. repeat constructor; cbn; lia.
    + cbn. intros b s H. repeat (destruct H as [Q|H]; [injection Q as <- <-; lia|]). destruct H.
    + cbn. intros b s b' s' H H'. repeat (destruct H as [Q|H]; [injection Q as <- <-; repeat (destruct H' as [Q'|H']; [injection Q' as <- <-; auto; right; lia|]); destruct H'|]). destruct H.
    + cbn. intros a z b s H H'. repeat (destruct H as [Q|H]; [injection Q as <- <-; repeat (destruct H' as [Q'|H']; [injection Q' as <- <-; lia|]); destruct H'|]). destruct H.
  - exact unfoldable0.
  - assert (X : exists mm, new_memory_map E0 Mtree 20 linked (at_ 16%nat 400) = Ret (Some mm) /\ me_size (mm_top mm) = 16) by (eexists; split; [vm_compute; reflexivity|reflexivity]).
    destruct X as [mm [X Q]]. apply map_built in X. destruct X as [B V _ _ _ _ _ _]. apply built_extent in B. rewrite V, Q in B. exact B.
  - split; [reflexivity|]. intros P; exact P.
  - intros anc x sz w z S L X. apply seent_inv in S. apply targett in L; [|exact S].
    destruct L as [[-> _]|[[-> _]|[-> _]]]; (apply pointt in X; [|cbn; auto]); cbn in X; subst z;
      [exists (1000, 16)|exists (2000, 24)|exists (2000, 24)]; (split; [cbn; auto|unfold within; cbn; lia]).
  - intros b w [Q|[Q|[Q|[]]]]; injection Q as <- <-; unfold apart; lia.
  - intros x X. unfold linked, words. rewrite !store_out by (cbn; lia). reflexivity.
Qed.
(** the same copy seen from its pointers: the node at 1000 is there twice, so is the one at 2000; the loops of both are closed *)
Example C82_tree_memory : match copy_ex E0 Mtree (fun l => l) (some_blocks 5) any_decl 20 (at_ 16%nat 400) (at_ 16%nat 800) (cst0 linked) with
  | Ret (true, s') => map (fun a => number_at (c_mem s') a 8) [800; 808; 5000; 5008; 5100; 5108; 5200; 5208; 5300; 5308; 5400; 5408]
  | _ => [] end = [5000; 5200; 5; 5100; 7; 5000; 5300; 0; 5; 5400; 7; 5300].
Proof. vm_compute. reflexivity. Qed.

(** In the default mode NULL pointers are not copied in trees either. *)
Theorem C82_stale_refuted : exists E M k src dst s s', mo_tree M = true /\ copy_ex E M (fun l => l) (some_blocks 2) any_decl k src dst s = Ret (true, s') /\
  points (en_db E) (c_mem s) src (Some 1%nat) 0 /\ points (en_db E) (c_mem s') dst (Some 1%nat) 77777.
Proof.
  exists E0, Mtree, 20%nat, (at_ 4%nat 500), (at_ 4%nat 600), (cst0 (words [(600, 77777)])). eexists. split; [reflexivity|]. split; [vm_compute; reflexivity|].
  split; (split; [exists (St 4%nat); split; [eexists; apply res_stop; intros t q X; cbn in X; inversion X|reflexivity]|vm_compute; reflexivity]).
Qed.
Print Assumptions C82_stale_refuted.
