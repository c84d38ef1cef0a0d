(** Property theorems: data at other places, and copies, are equal (C41, C42). *)
From Coq Require Import ZArith String List Bool Permutation Lia.
From Verif Require Import Base BaseProof EntryModel EntrySpec ValueModel ValueSpec ValueProof2 DeepModel DeepSpec DeepProof DeepProof2 DeepProof4 DeepProof5 DeepProof6 DeepProof8 DeepProps
  CopySpec CopyProof CopyProof4 CopyProps MoveSpec MoveProof MoveProof2 MoveProof3 MoveProof4 MoveProof5.
Import ListNotations.
Open Scope Z_scope.

(** C42. Two versions of the same data, each piece of memory moved to wherever, pointers adjusted: metac_value_equal_ex returns 1. The data
    may be cyclic and shared, with pointers into the middle of blocks and handlers. *)
Theorem C42_relocated_equal : forall E M feq n0 m v m' v1 v2 R1 R2 k mm B, acyclic (en_db E) n0 -> en_fuel E = (n0 + 3)%nat ->
  relocated E M m v m' v1 R1 -> relocated E M m v m' v2 R2 -> movable E M m v -> comparable E M feq m v -> bytes_ok m' ->
  mo_uptr M <> UPTR_as_values ->
  (mo_tree M = false -> local E m /\ coherent E M m v /\ blocks_ok B /\ held E M m v B) ->
  new_memory_map E M k m v = Ret (Some mm) -> equal_ex E M feq k m' v1 v2 = Ret 1.
Proof. exact relocated_equal. Qed.
Print Assumptions C42_relocated_equal.

(** C41. After a successful copy, metac_value_equal_ex of source and copy returns 1, provided that the handlers say the same about the
    copy as about the source. *)
Theorem C41_copy_equal : forall E M feq n0 ord cal same_decl k src dst s s' evs z B, acyclic (en_db E) n0 -> en_fuel E = (n0 + 3)%nat ->
  mo_tree M = false -> mo_union M <> UNION_ignore -> mo_uptr M <> UPTR_as_values -> (forall x, Permutation (ord x) x) ->
  copy_ex E M ord cal same_decl k src dst s = Ret (true, s') -> calls s s' evs ->
  copyable E M (c_mem s) src -> comparable E M feq (c_mem s) src -> extent E M (c_mem s) [] src z -> same_type (en_db E) src dst ->
  en_va E (v_entry dst) = false ->
  blocks_ok B -> held E M (c_mem s) src B ->
  (forall b w, In (b, w) B -> apart (v_addr src) z b w) ->
  0 < v_addr dst -> v_addr dst + z < 2 ^ 64 -> (forall b w, In (b, w) ((v_addr src, z) :: B) -> apart (v_addr dst) z b w) ->
  fresh_blocks (allocs evs) ((v_addr src, z) :: (v_addr dst, z) :: B) ->
  (mo_uptr M = UPTR_fail \/ mo_uptr M = UPTR_as_one_byte_ptr -> forall x, v_addr dst <= x < v_addr dst + z -> c_mem s x = 0) ->
  exists R, copied E M (c_mem s) (c_mem s') src z (v_addr dst) (allocs evs) R /\
    (answers_alike E M (c_mem s) src (c_mem s') R -> answers_alike E M (c_mem s) src (c_mem s') (map same_place R) ->
     equal_ex E M feq k (c_mem s') src dst = Ret 1).
Proof. exact copy_then_equal. Qed.
Print Assumptions C41_copy_equal.

(** without handlers *)
Lemma no_handler_alike : forall E M m v m' R, en_handler E = no_handler -> answers_alike E M m v m' R.
Proof.
  intros E M m v m' R H anc x anc' x' _ _. rewrite H. split; [reflexivity|]. split; [intros ev w _ Q; discriminate|intros w Q; discriminate].
Qed.
(** the data of C41_copy_example: a circle of two nodes with a pointer into the second one *)
Lemma reach0 : forall anc x, reaches E0 M0 linked (at_ 16%nat 400) anc x -> In x seen0.
Proof. intros anc x H. eapply seen_inv. eapply reaches_sees. exact H. Qed.
Lemma comparable0 : comparable E0 M0 feq0 linked (at_ 16%nat 400).
Proof.
  intros anc x R. pose proof (reaches_sees _ _ _ _ _ _ R) as S. split.
  - intros z c I. destruct (cp_base _ _ _ _ copyable0 _ _ _ _ S I) as [k [nm [en [sg [K1 [K2 K3]]]]]]. exists k. split; [exact K1|]. split; [exact K2|].
    left. assert (k = CInt); [|subst; cbn; auto 20]. eapply has_ctype_fun; [exact K1|]. apply reach0 in R.
    assert (Q : x = at_ 2%nat 1000 \/ x = at_ 2%nat 2000).
    { clear - R I. unfold seen0 in R. cbn [In] in R.
      repeat (destruct R as [<-|R]; [try (left; reflexivity); try (right; reflexivity); exfalso;
        match type of I with has_info _ ?y _ => assert (J : exists i, final_info E0 y = Ret (Some i) /\ match i with IBase _ _ => False | _ => True end) by (eexists; split; [vm_compute; reflexivity|exact Logic.I]) end;
        destruct J as [i [J1 J2]]; apply final_info_some in J1; pose proof (has_info_fun _ _ _ _ I J1) as <-; contradiction|]). destruct R. }
    exists "int"%string, [6], 4, true, 6. split; [cbn; auto 20|]. split; [left; reflexivity|]. exists (St 0%nat), 4, 6.
    split; [destruct Q as [-> | ->]; (eexists; eapply res_step; [cbn; constructor|]; apply res_stop; intros t q X; cbn in X; inversion X)|]. cbn. auto.
  - intros z l I. exfalso. apply reach0 in R. clear S. unfold seen0 in R. cbn [In] in R.
    repeat (destruct R as [<-|R]; [match type of I with has_info _ ?y _ => assert (J : exists i, final_info E0 y = Ret (Some i) /\ match i with IEnum _ _ => False | _ => True end) by (eexists; split; [vm_compute; reflexivity|exact Logic.I]) end;
      destruct J as [i [J1 J2]]; apply final_info_some in J1; pose proof (has_info_fun _ _ _ _ I J1) as <-; contradiction|]). destruct R.
Qed.

Example C41_copy_equal_example : exists s' evs, copy_ex E0 M0 (fun l => l) (some_blocks 2) any_decl 20 (at_ 16%nat 400) (at_ 16%nat 800) (cst0 linked) = Ret (true, s') /\
  calls (cst0 linked) s' evs /\ acyclic (en_db E0) 7 /\ en_fuel E0 = (7 + 3)%nat /\ mo_uptr M0 <> UPTR_as_values /\
  copyable E0 M0 linked (at_ 16%nat 400) /\ comparable E0 M0 feq0 linked (at_ 16%nat 400) /\ (forall m v m' R, answers_alike E0 M0 m v m' R) /\
  equal_ex E0 M0 feq0 20 (c_mem s') (at_ 16%nat 400) (at_ 16%nat 800) = Ret 1.
Proof.
  eexists. exists [EvCalloc 5000 16; EvCalloc 5100 16]. split; [vm_compute; reflexivity|]. split; [reflexivity|].
  split; [apply finite_acyclic, db0_finite|]. split; [reflexivity|]. split; [discriminate|]. split; [exact copyable0|]. split; [exact comparable0|].
  split; [intros; apply no_handler_alike; reflexivity|]. vm_compute. reflexivity.
Qed.
(** the copy of the example and its source are both the source moved *)
Example C42_relocated_equal_example : exists s' R1 R2, relocated E0 M0 linked (at_ 16%nat 400) (c_mem s') (at_ 16%nat 400) R1 /\
  relocated E0 M0 linked (at_ 16%nat 400) (c_mem s') (at_ 16%nat 800) R2 /\ movable E0 M0 linked (at_ 16%nat 400) /\ comparable E0 M0 feq0 linked (at_ 16%nat 400) /\
  bytes_ok (c_mem s') /\ local E0 linked /\ coherent E0 M0 linked (at_ 16%nat 400) /\
  (exists B, blocks_ok B /\ held E0 M0 linked (at_ 16%nat 400) B) /\ (exists mm, new_memory_map E0 M0 20 linked (at_ 16%nat 400) = Ret (Some mm)) /\
  number_at (c_mem s') 800 8 = 5100.
Proof.
  destruct C41_copy_example as [s' [H [[evs [Cl [Al Fr]]] [CP [Ext [ST [OK [Hd [Ad [Zd Nm]]]]]]]]]].
  assert (As : forall b w, In (b, w) [(1000, 16); (2000, 24)] -> apart 400 16 b w) by (intros b w [Q|[Q|[]]]; injection Q as <- <-; unfold apart; lia).
  destruct (C41_copy_partial E0 M0 (fun l => l) (some_blocks 2) any_decl 20 _ _ _ _ evs 16 _ eq_refl ltac:(discriminate) ltac:(apply Permutation_refl) H Cl CP Ext ST OK Hd As
    ltac:(cbn; lia) ltac:(cbn; lia) Ad Fr (fun _ => Zd)) as [R CD].
  exists s', (map same_place R), R. split; [|split; [|split; [|split; [|split; [|split; [|split; [|split; [|split]]]]]]]].
  - eapply source_relocated; try eassumption; try (cbn; lia); try (intros; apply no_handler_alike; reflexivity).
  - eapply copy_relocated; try eassumption; try (cbn; lia); try (intros; apply no_handler_alike; reflexivity).
  - apply copyable_movable; [discriminate|exact CP].
  - exact comparable0.
  - exact (cd_bytes _ _ _ _ _ _ _ _ _ CD).
  - exact (cp_local _ _ _ _ CP).
  - exact (cp_coherent _ _ _ _ CP).
  - eexists. split; [exact OK|exact Hd].
  - eexists. vm_compute. reflexivity.
  - cbn [map] in Nm. congruence.
Qed.
