(** Property theorems about comparing deep copies as trees (C82) and structures of different sharing (C42). *)
From Coq Require Import ZArith String List Bool Permutation Lia.
From Coq Require Import ZifyBool.
From Verif Require Import Base BaseProof EntryModel EntrySpec EntryProof ValueModel ValueSpec ValueProof2 DeepModel DeepSpec DeepProof DeepProof2 DeepProof4 DeepProof8 DeepProof6 DeepProps
  CopySpec CopyProof CopyProof2 CopyProof3 CopyProof4 CopyProps EqualProps MoveSpec CopyTreeSpec CopyTreeProof CopyTreeProof2 CopyTreeProps TwinSpec TwinProof TwinProof2 TwinProof3.
Import ListNotations.
Open Scope Z_scope.

(** C42. In tree mode two structures that are both like a third one on every way, however their parts are placed and shared, compare as
    equal. *)
Theorem C42_mirrored_equal : forall E M feq n0 m v m' v1 v2 k mm, acyclic (en_db E) n0 -> en_fuel E = (n0 + 3)%nat -> mo_tree M = true -> mo_uptr M <> UPTR_as_values ->
  mirrored E M m v m' v1 -> mirrored E M m v m' v2 -> traversable E M m v -> comparable E M feq m v -> bytes_ok m' ->
  new_memory_map E M k m v = Ret (Some mm) -> equal_ex E M feq k m' v1 v2 = Ret 1.
Proof. exact mirrored_equal. Qed.
Print Assumptions C42_mirrored_equal.

(** C82. After a successful copy as a tree, metac_value_equal_ex of source and copy in the same mode returns 1, provided that the handlers
    say the same about the copy as about the source. *)
Theorem C82_equal_partial : forall E M feq n0 ord cal same_decl k src dst s s' evs z B,
  acyclic (en_db E) n0 -> en_fuel E = (n0 + 3)%nat -> mo_tree M = true -> mo_uptr M <> UPTR_as_values ->
  copy_ex E M ord cal same_decl k src dst s = Ret (true, s') -> calls s s' evs ->
  unfoldable E M (c_mem s) src -> comparable E M feq (c_mem s) src -> extent E M (c_mem s) [] src z -> same_type (en_db E) src dst -> en_va E (v_entry dst) = false ->
  covered E M (c_mem s) src B ->
  0 < v_addr dst -> v_addr dst + z < 2 ^ 64 -> (forall b w, In (b, w) ((v_addr src, z) :: B) -> apart (v_addr dst) z b w) ->
  fresh_blocks (allocs evs) ((v_addr src, z) :: (v_addr dst, z) :: B) ->
  (mo_uptr M = UPTR_fail \/ mo_uptr M = UPTR_as_one_byte_ptr -> forall x, v_addr dst <= x < v_addr dst + z -> c_mem s x = 0) ->
  answers_beside E M (c_mem s) src (c_mem s') src -> answers_beside E M (c_mem s) src (c_mem s') dst ->
  equal_ex E M feq k (c_mem s') src dst = Ret 1.
Proof. exact tree_then_equal. Qed.
Print Assumptions C82_equal_partial.

(** without handlers *)
Lemma no_handler_beside : forall E M m v m' v', en_handler E = no_handler -> answers_beside E M m v m' v'.
Proof.
  intros E M m v m' v' H anc x anc' x' _. rewrite H. split; [reflexivity|]. split; [intros ev w _ Q; discriminate|intros w Q; discriminate].
Qed.
Lemma comparablet : comparable E0 Mtree feq0 linked (at_ 16%nat 400).
Proof.
  intros anc x R. split.
  - intros z c I. destruct (uf_base _ _ _ _ unfoldable0 _ _ _ _ R I) as [k [nm [en [sg [K1 [K2 K3]]]]]]. exists k. split; [exact K1|]. split; [exact K2|].
    left. assert (k = CInt); [|subst; cbn; auto 20]. eapply has_ctype_fun; [exact K1|]. apply seent_inv in R.
    assert (Q : x = at_ 2%nat 1000 \/ x = at_ 2%nat 2000).
    { clear - R I. unfold seen0 in R. cbn [In] in R.
      repeat (destruct R as [<-|R]; [try (left; reflexivity); try (right; reflexivity); exfalso;
        match type of I with has_info _ ?y _ => assert (J : exists i, final_info E0 y = Ret (Some i) /\ match i with IBase _ _ => False | _ => True end) by (eexists; split; [vm_compute; reflexivity|exact Logic.I]) end;
        destruct J as [i [J1 J2]]; apply final_info_some in J1; pose proof (has_info_fun _ _ _ _ I J1) as <-; contradiction|]). destruct R. }
    exists "int"%string, [6], 4, true, 6. split; [cbn; auto 20|]. split; [left; reflexivity|]. exists (St 0%nat), 4, 6.
    split; [destruct Q as [-> | ->]; (eexists; eapply res_step; [cbn; constructor|]; apply res_stop; intros t q X; cbn in X; inversion X)|]. cbn. auto.
  - intros z l I. exfalso. apply seent_inv in R. unfold seen0 in R. cbn [In] in R.
    repeat (destruct R as [<-|R]; [match type of I with has_info _ ?y _ => assert (J : exists i, final_info E0 y = Ret (Some i) /\ match i with IEnum _ _ => False | _ => True end) by (eexists; split; [vm_compute; reflexivity|exact Logic.I]) end;
      destruct J as [i [J1 J2]]; apply final_info_some in J1; pose proof (has_info_fun _ _ _ _ I J1) as <-; contradiction|]). destruct R.
Qed.
(** the copy of C82_tree_example, with its source: the other hypotheses are those of C82_tree_example *)
Example C82_equal_example : exists s', copy_ex E0 Mtree (fun l => l) (some_blocks 5) any_decl 20 (at_ 16%nat 400) (at_ 16%nat 800) (cst0 linked) = Ret (true, s') /\
  acyclic (en_db E0) 7 /\ en_fuel E0 = (7 + 3)%nat /\ mo_tree Mtree = true /\ mo_uptr Mtree <> UPTR_as_values /\ comparable E0 Mtree feq0 linked (at_ 16%nat 400) /\
  en_va E0 (v_entry (at_ 16%nat 800)) = false /\ (forall m v m' v', answers_beside E0 Mtree m v m' v') /\
  equal_ex E0 Mtree feq0 20 (c_mem s') (at_ 16%nat 400) (at_ 16%nat 800) = Ret 1.
Proof.
  eexists. split; [vm_compute; reflexivity|]. split; [apply finite_acyclic, db0_finite|]. split; [reflexivity|]. split; [reflexivity|]. split; [discriminate|]. split; [exact comparablet|].
  split; [reflexivity|]. split; [intros; apply no_handler_beside; reflexivity|]. vm_compute. reflexivity.
Qed.
Example C42_mirrored_equal_example : exists s', mirrored E0 Mtree linked (at_ 16%nat 400) (c_mem s') (at_ 16%nat 400) /\ mirrored E0 Mtree linked (at_ 16%nat 400) (c_mem s') (at_ 16%nat 800) /\
  traversable E0 Mtree linked (at_ 16%nat 400) /\ bytes_ok (c_mem s') /\ (exists mm, new_memory_map E0 Mtree 20 linked (at_ 16%nat 400) = Ret (Some mm)) /\ number_at (c_mem s') 800 8 = 5000.
Proof.
  pose proof C82_tree_memory as Nm. destruct C82_tree_example as [s' [H [[evs [Cl [Al Fr]]] [UF [Ext [ST [Cov [Ad Zd]]]]]]]]. rewrite H in Nm. cbn [map] in Nm. injection Nm as Nm _.
  pose proof (C82_tree_partial E0 Mtree (fun l => l) (some_blocks 5) any_decl 20 _ _ _ _ evs 16 _ eq_refl H Cl UF Ext ST Cov ltac:(cbn; lia) ltac:(cbn; lia) Ad Fr (fun _ => Zd)) as UN.
  destruct (copy_map _ _ _ _ _ _ _ _ _ _ H) as [mm Hm]. pose proof (map_built _ _ _ _ _ _ Hm) as [Bu V _ _ _ _ _ _]. exists s'. split; [|split; [|split; [|split; [|split]]]].
  - eapply (source_mirrored E0 Mtree linked _ (c_mem s') (at_ 16%nat 800) 16); try eassumption; try reflexivity; try (intros; apply no_handler_beside; reflexivity).
  - apply (copy_mirrored E0 Mtree linked (at_ 16%nat 400) (c_mem s') (at_ 16%nat 800) 16 (allocs evs) [(1000, 16); (2000, 24)] eq_refl ltac:(intro Qx; discriminate Qx) UF Ext ST Cov ltac:(cbn; lia) ltac:(cbn; lia) Ad Fr UN (mm_top mm) Bu V eq_refl).
    apply no_handler_beside. reflexivity.
  - apply uf_traversable. exact UF.
  - exact (un_bytes _ _ _ _ _ _ _ _ UN).
  - exists mm. exact Hm.
  - exact Nm.
Qed.

(** With pointers taken as values the addresses of loops are compared: the copy is not equal to its source. *)
Theorem C82_loop_address_refuted : exists E M k src dst s s', mo_tree M = true /\ mo_uptr M = UPTR_as_values /\ en_handler E = no_handler /\
  copy_ex E M (fun l => l) (some_blocks 5) any_decl k src dst s = Ret (true, s') /\ unfoldable E (Build_mode true UPTR_fail UNION_fail FLXARR_fail) (c_mem s) src /\
  equal_ex E M feq0 k (c_mem s') src dst = Ret 0.
Proof.
  exists E0, (as_values Mtree), 20%nat, (at_ 16%nat 400), (at_ 16%nat 800), (cst0 linked). eexists. split; [reflexivity|]. split; [reflexivity|]. split; [reflexivity|].
  split; [vm_compute; reflexivity|]. split; [exact unfoldable0|]. vm_compute. reflexivity.
Qed.
Print Assumptions C82_loop_address_refuted.
