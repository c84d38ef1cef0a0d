(** Freeing a copy. *)
From Coq Require Import ZArith String List Bool Permutation Lia ZifyBool.
From Verif Require Import Base BaseProof EntryModel EntrySpec EntryProof ValueModel ValueSpec DeepModel DeepSpec DeepProof DeepProof2 DeepProof4 DeepProof8
  CopySpec CopyProof CopyProof2 CopyProof3 CopyProof4 MoveSpec MoveProof MoveProof2 MoveProof3 MoveProof4 MoveProof5 DeepProof6 EqualSpec CompleteSpec CompleteProof CompleteProof3 CompleteProof4.
Import ListNotations.
Open Scope Z_scope.

Lemma dag_same : forall M, mo_tree M = false -> dag M = M.
Proof. intros [t u n f] H. cbn in H. subst t. reflexivity. Qed.
Lemma region_same : forall r r' a z a' z', (r = r' \/ r_src r + r_size r <= r_src r' \/ r_src r' + r_size r' <= r_src r) -> in_region r a z -> in_region r' a' z' -> 0 < z -> 0 < z' ->
  a' <= a -> a + z <= a' + z' -> r = r'.
Proof. intros r r' a z a' z' [H|H] [Q1 Q2] [Q3 Q4] Z1 Z2 L1 L2; [exact H|]. lia. Qed.

Section Round.
Variables (E : env) (M : mode) (n0 : nat).
Notation d := (en_db E).
Hypothesis A : acyclic d n0.
Hypothesis N : en_fuel E = (n0 + 3)%nat.
Hypothesis Dag : mo_tree M = false.
Hypothesis NV : mo_uptr M <> UPTR_as_values.
Variables (m m' : mem) (src dst : value) (z : Z) (new : list block) (R : list region) (B : list block).
Hypothesis CD : copied E M m m' src z (v_addr dst) new R.
Hypothesis CP : copyable E M m src.
Hypothesis Ext : extent E M m [] src z.
Hypothesis OK : blocks_ok B.
Hypothesis Hd : held E M m src B.
Hypothesis Asrc : forall b w, In (b, w) B -> apart (v_addr src) z b w.
Hypothesis D1 : 0 < v_addr dst.
Hypothesis D2 : v_addr dst + z < 2 ^ 64.
Hypothesis Adst : forall b w, In (b, w) ((v_addr src, z) :: B) -> apart (v_addr dst) z b w.
Hypothesis Fr : fresh_blocks new ((v_addr src, z) :: (v_addr dst, z) :: B).
Hypothesis ST : same_type d src dst.
Hypothesis NL : en_va E (v_entry dst) = false.
Hypothesis AA : answers_alike E M m src m' R.

Lemma free_copy : forall ord k mm, (forall x, Permutation (ord x) x) -> new_memory_map E M k m src = Ret (Some mm) ->
  exists l, free_ex E M ord k m' dst = Ret (1, l) /\ Permutation l (map fst new).
Proof.
  intros ord k mm PO H. pose proof (cp_local _ _ _ _ CP) as cl. pose proof (cp_coherent _ _ _ _ CP) as cc.
  assert (RL : relocated E M m src m' dst R) by (eapply copy_relocated; eassumption).
  assert (MV : movable E M m src) by (apply copyable_movable; assumption).
  destruct (map_move E M n0 A N m src m' dst R RL MV NV k mm H) as [mm' [H' [_ [_ F]]]].
  pose proof (off_move E M n0 N m src m' dst R RL k mm mm' B H H' F (fun _ => conj cl (conj cc (conj OK Hd)))) as OM.
  destruct (off_start E M n0 N Dag k m src mm B H cl cc OK Hd) as [OFF [BL PH]].
  unfold free_ex. rewrite (dag_same _ Dag), H'. cbn [bind]. eexists. split; [reflexivity|].
  pose proof (map_built _ _ _ _ _ _ H) as [_ _ _ NA _ _ _ _]. pose proof (map_built _ _ _ _ _ _ H') as [_ _ _ NA' _ _ _ _].
  assert (NewStart : forall h h', In h (hash_of mm) -> In h' (hash_of mm') -> hmirror R h h' -> off_of (mm_off mm) (h_id h) = 0 -> exists r, In r R /\ r_src r = h_addr h /\ r_dst r = h_addr h' /\ In (h_addr h', r_size r) new).
  { intros h h' I I' [Q1 [Q2 [Q3 [r [Ir [Rr Q4]]]]]] O. rewrite (OFF _ I) in O. destruct (BL _ I) as [b [sb [Ib [Sb [Zh [L1 L2]]]]]].
    destruct (cd_new _ _ _ _ _ _ _ _ _ CD r Ir) as [T|Jn]; [subst r; unfold in_region in Rr; cbn in Rr; specialize (Asrc _ _ Ib); unfold apart in Asrc; lia|].
    destruct (cd_from _ _ _ _ _ _ _ _ _ CD r Ir) as [T|[w [P W]]]; [subst r; unfold in_region in Rr; cbn in Rr; specialize (Asrc _ _ Ib); unfold apart in Asrc; lia|].
    destruct (Hd w _ P) as [Zw [[b' sb'] [Ib' [[W1 W2] _]]]]. cbn in W1, W2. unfold in_region in Rr.
    assert (b' = b). { destruct OK as [_ O2]. destruct (O2 _ _ _ _ Ib Ib') as [Q|Q]; [congruence|lia]. } subst b'.
    assert (r_src r = h_addr h) by lia. exists r. split; [exact Ir|]. split; [assumption|]. assert (r_dst r = h_addr h') by (unfold moved in Q4; lia). split; [assumption|]. rewrite <- H1. exact Jn. }
  apply NoDup_Permutation.
  - unfold freed. apply nodup_map_filter. eapply Permutation_NoDup; [apply Permutation_map, Permutation_sym, PO|exact NA'].
  - exact (proj1 Fr).
  - intro a. unfold freed. split; intro I.
    + apply in_map_iff in I. destruct I as [h' [<- I]]. apply filter_In in I. destruct I as [I S]. apply (Permutation_in _ (PO _)) in I.
      destruct (forall2_in_r _ _ _ _ F I) as [h [Ih Mh]]. unfold strong in S. rewrite OM in S. rewrite (proj1 Mh) in S.
      destruct (NewStart h h' Ih I Mh ltac:(lia)) as [r [_ [_ [_ J]]]]. apply in_map_iff. eexists. split; [|exact J]. reflexivity.
    + apply in_map_iff in I. destruct I as [[n s] [<- I]]. cbn [fst]. destruct (cd_used _ _ _ _ _ _ _ _ _ CD n s I) as [r [Ir [Rn [Rs [w [P W]]]]]].
      destruct (Hd w _ P) as [Zw [[b sb] [Ib [[W1 W2] [w' [z' [P' [W' [[W3 W4] W5]]]]]]]]]. cbn in W1, W2, W', W3, W4, W5.
      destruct (Hd w' _ P') as [Zw' _].
      destruct (PH _ _ P') as [h [Ih [Ah Lh]]]. destruct (forall2_in_l _ _ _ _ F Ih) as [h' [Ih' Mh]].
      assert (Sh : start B (h_addr h) = b) by (eapply start_block; [exact OK|exact Ib|lia]).
      assert (O : off_of (mm_off mm) (h_id h) = 0) by (rewrite (OFF _ Ih); lia).
      destruct (NewStart h h' Ih Ih' Mh O) as [r' [Ir' [Rs' [Rd' J]]]].
      (* both pieces are the one of the block *)
      assert (r' = r). { destruct Mh as [_ [_ [Zh [r2 [Ir2 [R2 _]]]]]].
        assert (r2 = r'). { destruct (cd_src _ _ _ _ _ _ _ _ _ CD r2 r' Ir2 Ir') as [Q|Q]; [exact Q|]. unfold in_region in R2.
          destruct Fr as [_ [[F2 _] _]]. specialize (F2 _ _ J). lia. } subst r2. unfold in_region in R2.
        destruct (cd_src _ _ _ _ _ _ _ _ _ CD r' r Ir' Ir) as [Q|Q]; [exact Q|]. lia. } subst r'.
      apply in_map_iff. exists h'. split; [congruence|]. apply filter_In. split; [apply (Permutation_in _ (Permutation_sym (PO _))); exact Ih'|].
      unfold strong. rewrite OM, (proj1 Mh), O. reflexivity.
Qed.
End Round.

Lemma copy_then_free : forall E M n0 ord ord' cal sd k src dst s s' evs z B, acyclic (en_db E) n0 -> en_fuel E = (n0 + 3)%nat ->
  mo_tree M = false -> mo_union M <> UNION_ignore -> mo_uptr M <> UPTR_as_values -> (forall x, Permutation (ord x) x) -> (forall x, Permutation (ord' x) x) ->
  copy_ex E M ord cal sd k src dst s = Ret (true, s') -> calls s s' evs ->
  copyable E M (c_mem s) src -> extent E M (c_mem s) [] src z -> same_type (en_db E) src dst ->
  en_va E (v_entry dst) = false ->
  blocks_ok B -> held E M (c_mem s) src B ->
  (forall b w, In (b, w) B -> apart (v_addr src) z b w) ->
  0 < v_addr dst -> v_addr dst + z < 2 ^ 64 -> (forall b w, In (b, w) ((v_addr src, z) :: B) -> apart (v_addr dst) z b w) ->
  fresh_blocks (allocs evs) ((v_addr src, z) :: (v_addr dst, z) :: B) ->
  (mo_uptr M = UPTR_fail \/ mo_uptr M = UPTR_as_one_byte_ptr -> forall x, v_addr dst <= x < v_addr dst + z -> c_mem s x = 0) ->
  exists R, copied E M (c_mem s) (c_mem s') src z (v_addr dst) (allocs evs) R /\
    (answers_alike E M (c_mem s) src (c_mem s') R -> exists l, free_ex E M ord' k (c_mem s') dst = Ret (1, l) /\ Permutation l (map fst (allocs evs))).
Proof.
  intros E M n0 ord ord' cal sd k src dst s s' evs z B A N Dag U NV PO PO' H Cl CP Ext ST NL OK Hd Asrc D1 D2 Adst Fr Zd.
  destruct (copy_sound E M ord cal sd Dag U PO k src dst s s' evs z B H Cl CP Ext ST OK Hd Asrc D1 D2 Adst Fr Zd) as [R CD].
  exists R. split; [exact CD|]. intros AA.
  unfold copy_ex in H. apply bind_ret in H. destruct H as [[f1|] [_ H]]; [|apply bind_ret in H; destruct H as [f2 [_ H]]; discriminate].
  apply bind_ret in H. destruct H as [[f2|] [_ H]]; [|discriminate]. apply bind_ret in H. destruct H as [sm [_ H]]. destruct sm; [cbn [negb] in H|discriminate].
  apply bind_ret in H. destruct H as [[mm|] [Nm H]]; [clear H|discriminate].
  eapply (free_copy E M n0 A N Dag NV (c_mem s) (c_mem s') src dst z (allocs evs) R B); eassumption.
Qed.

(** From the copy to its release. *)
Lemma life_cycle : forall E M feq n0, finite_types (en_db E) n0 -> en_fuel E = (n0 + 3)%nat -> tame E -> finite_calls E ->
  mo_tree M = false -> mo_union M <> UNION_ignore -> mo_uptr M <> UPTR_as_values ->
  exists k0, forall k, (k0 <= k)%nat -> forall ord ord' cal same_decl src dst s z B, (forall x, Permutation (ord x) x) -> (forall x, Permutation (ord' x) x) ->
  (forall m' R, answers_alike E M (c_mem s) src m' R) ->
  visible E M (c_mem s) src -> writable E M (c_mem s) src -> comparable E M feq (c_mem s) src -> (forall y c, has_info (en_db E) src (IBase y c) -> ~ is_const (en_db E) dst) ->
  (forall f f', final_type (en_db E) (Some (v_entry src)) (Some f) -> final_type (en_db E) (Some (v_entry dst)) (Some f') -> same_decl (Some f) (Some f') = Ret true) ->
  copyable E M (c_mem s) src -> extent E M (c_mem s) [] src z -> same_type (en_db E) src dst -> en_va E (v_entry dst) = false ->
  blocks_ok B -> held E M (c_mem s) src B -> parts_differ E M (c_mem s) src -> inner_once E M (c_mem s) src B ->
  (forall b w, In (b, w) B -> apart (v_addr src) z b w) ->
  0 < v_addr dst -> v_addr dst + z < 2 ^ 64 -> (forall b w, In (b, w) ((v_addr src, z) :: B) -> apart (v_addr dst) z b w) ->
  allocates cal (c_calls s) (length B) (fun y => exists w, pointee E M (c_mem s) src w y) ((v_addr src, z) :: (v_addr dst, z) :: B) ->
  (mo_uptr M = UPTR_fail \/ mo_uptr M = UPTR_as_one_byte_ptr -> forall x, v_addr dst <= x < v_addr dst + z -> c_mem s x = 0) ->
  exists s' evs l, copy_ex E M ord cal same_decl k src dst s = Ret (true, s') /\ calls s s' evs /\
    equal_ex E M feq k (c_mem s') src dst = Ret 1 /\
    free_ex E M ord' k (c_mem s') dst = Ret (1, l) /\ Permutation l (map fst (allocs evs)).
Proof.
  intros E M feq n0 Fi N T Fc D U NV. destruct (copy_total E M n0 Fi N T Fc D U) as [k0 K]. exists k0.
  intros k Le ord ord' cal sd src dst s z B PO PO' AA Vi Wr CM Nc SD CP Ext ST NL OK Hd PD IO Asrc D1 D2 Adst Al Zd.
  destruct (K k Le ord cal sd src dst s z B PO Vi Wr Nc SD CP Ext ST OK Hd PD IO Asrc D1 D2 Adst Al Zd) as [s' [evs [R [H [Cl [Fr CD]]]]]].
  pose proof (finite_acyclic _ _ Fi) as A.
  destruct (copy_then_equal E M feq n0 ord cal sd k src dst s s' evs z B A N D U NV PO H Cl CP CM Ext ST NL OK Hd Asrc D1 D2 Adst Fr Zd) as [R1 [_ Q1]].
  destruct (copy_then_free E M n0 ord ord' cal sd k src dst s s' evs z B A N D U NV PO PO' H Cl CP Ext ST NL OK Hd Asrc D1 D2 Adst Fr Zd) as [R2 [_ Q2]].
  destruct (Q2 (AA _ _)) as [l [Q3 Q4]]. exists s', evs, l. split; [exact H|]. split; [exact Cl|]. split; [exact (Q1 (AA _ _) (AA _ _))|]. split; assumption.
Qed.
