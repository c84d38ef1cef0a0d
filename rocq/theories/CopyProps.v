(** Property theorems about deep copies (C41). *)
From Coq Require Import ZArith String List Bool Permutation Lia.
From Coq Require Import ZifyBool.
From Verif Require Import Base BaseProof EntryModel EntrySpec EntryProof ValueModel ValueSpec ValueProof2 DeepModel DeepSpec DeepProof DeepProof2 DeepProof4 DeepProof8 DeepProps
  CopySpec CopyProof CopyProof2 CopyProof3 CopyProof4.
Import ListNotations.
Open Scope Z_scope.

(** C41, copies that keep sharing (the default), of data in blocks of memory each held by a pointer to its start: there is one translation
    of addresses, one-to-one, taking the value to the destination and everything it points to, at any depth, to the new blocks; all
    reachable scalars are the same in the copy; all pointers, shared, cyclic or into the middle of a block, hold the translated address;
    nothing outside of the destination and the new blocks is changed.
    Missing: copies as trees; unions that are to be ignored; in default mode a destination that is not zero (see C41_stale_refuted). *)
Theorem C41_copy_partial : forall E M ord cal same_decl k src dst s s' evs z B,
  mo_tree M = false -> mo_union M <> UNION_ignore -> (forall x, Permutation (ord x) x) ->
  copy_ex E M ord cal same_decl k src dst s = Ret (true, s') -> calls s s' evs ->
  copyable E M (c_mem s) src -> extent E M (c_mem s) [] src z -> same_type (en_db E) src dst ->
  blocks_ok B -> held E M (c_mem s) src B ->
  (forall b w, In (b, w) B -> apart (v_addr src) z b w) ->
  0 < v_addr dst -> v_addr dst + z < 2 ^ 64 -> (forall b w, In (b, w) ((v_addr src, z) :: B) -> apart (v_addr dst) z b w) ->
  fresh_blocks (allocs evs) ((v_addr src, z) :: (v_addr dst, z) :: B) ->
  (mo_uptr M = UPTR_fail \/ mo_uptr M = UPTR_as_one_byte_ptr -> forall x, v_addr dst <= x < v_addr dst + z -> c_mem s x = 0) ->
  exists R, copied E M (c_mem s) (c_mem s') src z (v_addr dst) (allocs evs) R.
Proof. exact (fun E M ord cal sd k src dst s s' evs z B D U P => copy_sound E M ord cal sd D U P k src dst s s' evs z B). Qed.
Print Assumptions C41_copy_partial.

(** the circle of two nodes with a pointer into the second one, copied from 400 to 800 *)
Lemma scalar_shape : forall E M m anc x z b i, scalar E M m anc x z b -> final_info E x = Ret (Some i) ->
  match i with IBase w _ | IEnum w _ => b = false /\ z = w mod 2 ^ 64 | IPointer _ => b = true /\ z = 8 | IAggr AUnion _ _ => True | _ => False end.
Proof.
  intros E M m anc x z b i S F. apply final_info_some in F. inversion S as [i' z' I K Sz|t I|z' l sz I U L]; subst; pose proof (has_info_fun _ _ _ _ F I) as Q; subst.
  - pose proof (info_size E _ _ _ I Sz). destruct i'; try contradiction; auto.
  - auto.
  - auto.
Qed.
Lemma node_no_pointer : forall E M m anc x sz ch t, looks E M m anc x (VNode sz ch) -> final_info E x = Ret (Some (IPointer t)) -> False.
Proof.
  intros E M m anc x sz ch t L F. apply final_info_some in F. destruct (node_info _ _ _ _ _ _ _ L) as [i [HI K]]. pose proof (has_info_fun _ _ _ _ F HI) as <-. exact K.
Qed.
Definition scalars0 : list (Z * Z * bool) := [(400, 8, true); (408, 8, true); (1000, 4, false); (1008, 8, true); (2000, 4, false); (2008, 8, true)].
Lemma scalar0 : forall anc x z b, In x seen0 -> scalar E0 M0 linked anc x z b -> In (v_addr x, z, b) scalars0.
Proof.
  intros anc x z b I S. unfold seen0 in I. cbn [In] in I.
  repeat (destruct I as [<-|I]; [eapply scalar_shape in S; [|vm_compute; reflexivity]; try contradiction; destruct S as [-> ->]; vm_compute; tauto|]). destruct I.
Qed.
Lemma extent0 : forall anc x z, In x seen0 -> extent E0 M0 linked anc x z -> 0 < v_addr x /\ v_addr x + z < 3000.
Proof.
  intros anc x z I X. unfold seen0 in I. cbn [In] in I.
  repeat (destruct I as [<-|I]; [eapply (plain_extent_map E0 M0 eq_refl 20) in X; [|vm_compute; reflexivity]; vm_compute in X; subst z; vm_compute; auto|]). destruct I.
Qed.
Lemma seen_inv : forall anc x, sees E0 M0 linked (at_ 16%nat 400) anc x -> In x seen0.
Proof. intros anc x S. exact (proj1 (closed_sees E0 M0 eq_refl linked (at_ 16%nat 400) seen0 closed0 (or_introl eq_refl) _ _ S)). Qed.
Lemma copyable0 : copyable E0 M0 linked (at_ 16%nat 400).
Proof.
  destruct C39_example as [_ [L [C _]]]. constructor; [constructor|].
  - unfold linked, words. repeat apply store_bytes_ok. intro; cbn; lia.
  - exact L.
  - exact C.
  - intros anc x z c S I. apply seen_inv in S. assert (Q : x = at_ 2%nat 1000 \/ x = at_ 2%nat 2000).
    { unfold seen0 in S. cbn [In] in S.
      repeat (destruct S as [<-|S]; [try (left; reflexivity); try (right; reflexivity); exfalso;
        match type of I with has_info _ ?y _ => assert (J : exists i, final_info E0 y = Ret (Some i) /\ match i with IBase _ _ => False | _ => True end) by (eexists; split; [vm_compute; reflexivity|exact Logic.I]) end;
        destruct J as [i [J1 J2]]; apply final_info_some in J1; pose proof (has_info_fun _ _ _ _ I J1) as <-; contradiction|]). destruct S. }
    assert (J : exists i, final_info E0 x = Ret (Some i) /\ i = IBase 4 6) by (destruct Q as [-> | ->]; (eexists; split; [vm_compute; reflexivity|reflexivity])).
    destruct J as [i [J ->]]. apply final_info_some in J. pose proof (has_info_fun _ _ _ _ I J) as K. injection K as -> ->.
    exists CInt, "int"%string, [6], true. split; [|split].
    + exists "int"%string, [6], 4, true, 6. split; [cbn; auto 20|]. split; [left; reflexivity|]. exists (St 0%nat), 4, 6.
      split; [destruct Q as [-> | ->]; (eexists; eapply res_step; [cbn; constructor|]; apply res_stop; intros t q X; cbn in X; inversion X)|]. cbn. auto.
    + intros mi0 H. destruct Q as [-> | ->]; cbn in H; injection H as <-; auto.
    + cbn; auto 20.
  - intros anc x z S X. apply seen_inv in S. pose proof (extent0 _ _ _ S X). lia.
  - intros anc x sz ch y S Lk Iy. apply seen_inv in S. apply (plain_node E0 M0 eq_refl _ _ []) in Lk. unfold seen0 in S. cbn [In] in S.
    repeat (destruct S as [<-|S]; [first [exfalso; eapply node_no_pointer; [exact Lk|vm_compute; reflexivity]
      |eapply view_node in Lk; [|vm_compute; reflexivity|discriminate]; subst ch; cbn in Iy; repeat (destruct Iy as [<-|Iy]; [vm_compute; discriminate|]); destruct Iy]|]). destruct S.
  - intros anc x z b anc' x' z' b' S Sx S' Sx' [y Y]. apply seen_inv in S. apply seen_inv in S'. apply (scalar0 _ _ _ _ S) in Sx. apply (scalar0 _ _ _ _ S') in Sx'.
    unfold scalars0 in Sx, Sx'. cbn [In] in Sx, Sx'.
    repeat (destruct Sx as [Sx|Sx]; [injection Sx as Q1 Q2 Q3|]); try contradiction;
      repeat (destruct Sx' as [Sx'|Sx']; [injection Sx' as Q1' Q2' Q3'|]); try contradiction; try (exfalso; lia); subst b b'; split; try reflexivity; intro; try congruence; try discriminate.
  - intros anc x p w z S T X. apply seen_inv in S. apply (plain_target E0 M0 eq_refl _ _ []) in T. unfold seen0 in S. cbn [In] in S.
    repeat (destruct S as [<-|S]; [match type of T with target _ _ _ _ ?y _ _ => edestruct (view_target E0 M0 linked y) as [[sz Q] R] end; [vm_compute; reflexivity|discriminate|exact T|];
      clear T; vm_compute in Q, R; first [discriminate|injection Q as _ <-; subst p;
      eapply (plain_extent_map E0 M0 eq_refl 20) in X; [|vm_compute; reflexivity]; vm_compute in X; subst z; cbn; lia]|]). destruct S.
  - intros anc x t p [U|U]; discriminate.
  - intros anc x i S I K. apply seen_inv in S. unfold seen0 in S. cbn [In] in S.
    repeat (destruct S as [<-|S]; [match type of I with has_info _ ?y _ => assert (J : exists i, final_info E0 y = Ret (Some i) /\ is_call_info i = false) by (eexists; split; [vm_compute; reflexivity|reflexivity]) end;
      destruct J as [j [J1 J2]]; apply final_info_some in J1; pose proof (has_info_fun _ _ _ _ I J1) as <-; destruct i as [ | | | | | | | | | |[|] ?| | | ]; try contradiction; discriminate|]). destruct S.
Qed.
Definition new0 : list block := [(5000, 16); (5100, 16)].
Example C41_copy_example : exists s', copy_ex E0 M0 (fun l => l) (some_blocks 2) any_decl 20 (at_ 16%nat 400) (at_ 16%nat 800) (cst0 linked) = Ret (true, s') /\
  (exists evs, calls (cst0 linked) s' evs /\ allocs evs = new0 /\ fresh_blocks (allocs evs) [(400, 16); (800, 16); (1000, 16); (2000, 24)]) /\
  copyable E0 M0 linked (at_ 16%nat 400) /\ extent E0 M0 linked [] (at_ 16%nat 400) 16 /\ same_type db0 (at_ 16%nat 400) (at_ 16%nat 800) /\
  blocks_ok [(1000, 16); (2000, 24)] /\ held E0 M0 linked (at_ 16%nat 400) [(1000, 16); (2000, 24)] /\
  (forall b w, In (b, w) [(400, 16); (1000, 16); (2000, 24)] -> apart 800 16 b w) /\
  (forall x, 800 <= x < 816 -> linked x = 0) /\
  (* 2000 -> 5000, 1000 -> 5100; the pointer into the node at 2000 is a pointer into the node at 5000 *)
  map (fun a => number_at (c_mem s') a 8) [800; 808; 5000; 5008; 5100; 5108] = [5100; 5008; 7; 5100; 5; 5000].
Proof.
  destruct C39_example as [_ [L [C [OK Hd]]]]. eexists. split; [vm_compute; reflexivity|]. split; [|split; [|split; [|split; [|split; [|split; [|split; [|split]]]]]]].
  - exists [EvCalloc 5000 16; EvCalloc 5100 16]. split; [reflexivity|]. split; [reflexivity|]. split; [|split; [split|]].
    + cbn. repeat constructor; cbn; lia.
    + intros b s [Q|[Q|[]]]; injection Q as <- <-; lia.
    + intros b s b' s' [Q|[Q|[]]] [Q'|[Q'|[]]]; injection Q as <- <-; injection Q' as <- <-; auto; right; lia.
    + intros a z b s [Q|[Q|[]]] [Q'|[Q'|[Q'|[Q'|[]]]]]; injection Q as <- <-; injection Q' as <- <-; lia.
  - exact copyable0.
  - assert (X : exists mm, new_memory_map E0 M0 20 linked (at_ 16%nat 400) = Ret (Some mm) /\ me_size (mm_top mm) = 16) by (eexists; split; [vm_compute; reflexivity|reflexivity]).
    destruct X as [mm [X Q]]. apply map_built in X. destruct X as [B V _ _ _ _ _ _]. apply built_extent in B. rewrite V, Q in B. exact B.
  - split; [reflexivity|]. intros P; exact P.
  - exact OK.
  - exact Hd.
  - intros b w [Q|[Q|[Q|[]]]]; injection Q as <- <-; unfold apart; lia.
  - intros x X. unfold linked, words. rewrite !store_out by (cbn; lia). reflexivity.
  - vm_compute. reflexivity.
Qed.

(** In the default mode NULL pointers are not copied: a destination that held something else keeps it. *)
Theorem C41_stale_refuted : exists E M k src dst s s', copy_ex E M (fun l => l) (some_blocks 2) any_decl k src dst s = Ret (true, s') /\
  points (en_db E) (c_mem s) src (Some 1%nat) 0 /\ points (en_db E) (c_mem s') dst (Some 1%nat) 77777.
Proof.
  exists E0, M0, 20%nat, (at_ 4%nat 500), (at_ 4%nat 600), (cst0 (words [(600, 77777)])). eexists. split; [vm_compute; reflexivity|].
  split; (split; [exists (St 4%nat); split; [eexists; apply res_stop; intros t q X; cbn in X; inversion X|reflexivity]|vm_compute; reflexivity]).
Qed.
Print Assumptions C41_stale_refuted.
(** A pointer to the value itself: the copy does not point to itself but to a second copy. *)
Theorem C41_self_refuted : exists E M k src dst s s', copy_ex E M (fun l => l) (some_blocks 2) any_decl k src dst s = Ret (true, s') /\
  number_at (c_mem s) (v_addr src) 8 = v_addr src /\ number_at (c_mem s') (v_addr dst) 8 <> v_addr dst.
Proof.
  exists E0, M0, 20%nat, (at_ 26%nat 500), (at_ 26%nat 600), (cst0 (words [(500, 500)])). eexists. split; [vm_compute; reflexivity|].
  split; [vm_compute; reflexivity|vm_compute; discriminate].
Qed.
Print Assumptions C41_self_refuted.
(** The object at 1000 is reached as struct base first, its pointer to the whole object (struct derived, 16 bytes) counts as a loop: the
    copy has a pointer to an object of 16 bytes in a block of 8. *)
Theorem C41_short_block_refuted : exists E M k src dst s s' evs w z, copy_ex E M (fun l => l) (some_blocks 2) any_decl k src dst s = Ret (true, s') /\
  calls s s' evs /\ allocs evs = [(5000, 8)] /\ pointee E M (c_mem s') dst w z /\ v_addr w = 5000 /\ z = 16.
Proof.
  exists E0, M0, 20%nat, (at_ 25%nat 500), (at_ 25%nat 600), (cst0 (words [(500, 1000); (1000, 1000); (1008, 3000)])). eexists. exists [EvCalloc 5000 8], (array_at 21%nat 1 5000), 16.
  split; [vm_compute; reflexivity|]. split; [reflexivity|]. split; [reflexivity|]. split; [|split; reflexivity].
  match goal with |- pointee _ _ ?m0 _ _ _ => set (m := m0) end.
  assert (S : sees E0 M0 m (at_ 25%nat 600) [] (at_ 25%nat 600)) by apply se_here.
  eapply (plain_step E0 M0 eq_refl) in S; [|vm_compute; reflexivity|left; reflexivity].
  eapply (plain_step E0 M0 eq_refl) in S; [|vm_compute; reflexivity|left; reflexivity].
  eapply (plain_step E0 M0 eq_refl) in S; [|vm_compute; reflexivity|left; reflexivity].
  eapply (plain_pointee E0 M0 eq_refl 20) in S; [|vm_compute; reflexivity|vm_compute; reflexivity]. exact S.
Qed.
Print Assumptions C41_short_block_refuted.
(** Two pointers to the same place inside of a block: the copy fails although all memory can be obtained. *)
Definition db1 : db := fun r =>
  match r with
  | 32%nat => ent "links"%string (IAggr AStruct 24 [33%nat; 34%nat; 35%nat])
  | 33%nat => ent "a"%string (mi 4%nat 0)
  | 34%nat => ent "b"%string (mi 15%nat 8)
  | 35%nat => ent "c"%string (mi 15%nat 16)
  | _ => db0 r
  end.
Definition E1 : env := Build_env 10 db1 (fun _ => 0) 5%nat no_handler (fun _ => false) (fun _ => []) (fun _ => 0).
Theorem C41_shared_inner_refuted : exists E M k src dst s s', copy_ex E M (fun l => l) (some_blocks 100) any_decl k src dst s = Ret (false, s') /\
  (exists mm, new_memory_map E M k (c_mem s) src = Ret (Some mm)) /\
  number_at (c_mem s) (v_addr src + 8) 8 = number_at (c_mem s) (v_addr src + 16) 8.
Proof.
  exists E1, M0, 20%nat, (at_ 32%nat 400), (at_ 32%nat 800), (cst0 (words [(400, 1000); (408, 1008); (416, 1008); (1000, 5)])). eexists. split; [vm_compute; reflexivity|].
  split; [eexists; vm_compute; reflexivity|vm_compute; reflexivity].
Qed.
Print Assumptions C41_shared_inner_refuted.
