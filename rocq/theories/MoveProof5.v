(** A copy is equal to its source. *)
From Coq Require Import ZArith String List Bool Lia ZifyBool Permutation.
From Verif Require Import Base BaseProof EntryModel EntrySpec EntryProof ValueModel ValueSpec ValueProof ValueProof2 DeepModel DeepSpec DeepProof DeepProof2 DeepProof3 DeepProof4 DeepProof5 DeepProof8 CopySpec CopyProof CopyProof4 MoveSpec MoveProof MoveProof2 MoveProof3 MoveProof4.
Import ListNotations.
Open Scope Z_scope.

Lemma copyable_movable : forall E M m v, mo_uptr M <> UPTR_as_values -> copyable E M m v -> movable E M m v.
Proof.
  intros E M m v NV [[cb cl cc cba cfi cpa cvi cin cop] cda]. constructor; try assumption.
  - intros anc x z c S I. destruct (cba _ _ _ _ S I) as [k [nm [en [sg [K1 [_ K2]]]]]]. exists k, nm, en, sg. auto.
  - intros anc x t p U. apply cop. left. exact U.
Qed.
Definition same_place (r : region) : region := Build_region (r_src r) (r_size r) (r_src r).
Lemma same_moved : forall r a, moved (same_place r) a = a.
Proof. intros. unfold moved, same_place. cbn. lia. Qed.

Section Copied.
Variables (E : env) (M : mode).
Notation d := (en_db E).
Variables (m m' : mem) (src dst : value) (z : Z) (new : list block) (R : list region) (B : list block).
Hypothesis CD : copied E M m m' src z (v_addr dst) new R.
Hypothesis CP : copyable E M m src.
Hypothesis Ext : extent E M m [] src z.
Hypothesis OK : blocks_ok B.
Hypothesis Hd : held E M m src B.
Hypothesis D1 : 0 < v_addr dst.
Hypothesis D2 : v_addr dst + z < 2 ^ 64.
Hypothesis Adst : forall b w, In (b, w) ((v_addr src, z) :: B) -> apart (v_addr dst) z b w.
Hypothesis Fr : fresh_blocks new ((v_addr src, z) :: (v_addr dst, z) :: B).

Lemma copy_relocated : same_type d src dst -> en_va E (v_entry dst) = false -> answers_alike E M m src m' R ->
  relocated E M m src m' dst R.
Proof.
  intros ST NL AA. pose proof (extent_nonneg _ _ _ _ _ _ Ext) as Z0. constructor; try assumption.
  - intros r I. destruct (cd_new _ _ _ _ _ _ _ _ _ CD r I) as [->|J]; [cbn; lia|]. destruct Fr as [_ [[F _] _]]. specialize (F _ _ J). lia.
  - exact (cd_src _ _ _ _ _ _ _ _ _ CD).
  - exact (cd_dst _ _ _ _ _ _ _ _ _ CD).
  - intros z' X. assert (z' = z). { eapply extent_fun; [exact (cp_local _ _ _ _ CP)|exact X|apply same_ctx_refl|exact Ext]. } subst z'.
    eexists. split; [exact (cd_top _ _ _ _ _ _ _ _ _ CD)|]. unfold in_region, moved. cbn. lia.
  - exact (cd_all _ _ _ _ _ _ _ _ _ CD).
  - exact (cd_scalar _ _ _ _ _ _ _ _ _ CD).
  - exact (cd_null _ _ _ _ _ _ _ _ _ CD).
  - exact (cd_pointer _ _ _ _ _ _ _ _ _ CD).
Qed.
(** every piece of the source is untouched *)
Lemma source_piece : forall r, In r R -> 0 < r_src r /\ 0 <= r_size r /\ r_src r + r_size r < 2 ^ 64 /\ forall b, r_src r <= b < r_src r + r_size r -> m' b = m b.
Proof.
  intros r I. pose proof (extent_nonneg _ _ _ _ _ _ Ext) as Z0. destruct Fr as [_ [_ F]].
  destruct (cd_from _ _ _ _ _ _ _ _ _ CD r I) as [->|[w [P W]]].
  - cbn. destruct (cp_fits _ _ _ _ CP [] src z (se_here _ _ _ _) Ext). split; [lia|]. split; [lia|]. split; [lia|]. intros b Hb.
    apply (cd_frame _ _ _ _ _ _ _ _ _ CD).
    + intro K. specialize (Adst (v_addr src) z (or_introl eq_refl)). unfold apart in Adst. lia.
    + intros n s J K. destruct (F _ _ (v_addr src) z J (or_introl eq_refl)); lia.
  - destruct (Hd _ _ P) as [Z1 [[b s] [Ib [[W1 W2] _]]]]. cbn in W1, W2. pose proof (proj1 OK _ _ Ib). split; [lia|]. split; [lia|]. split; [lia|]. intros c Hc.
    apply (cd_frame _ _ _ _ _ _ _ _ _ CD).
    + intro K. specialize (Adst b s (or_intror Ib)). unfold apart in Adst. lia.
    + intros n q J K. destruct (F _ _ b s J (or_intror (or_intror Ib))); lia.
Qed.
Lemma source_relocated : en_va E (v_entry src) = false -> answers_alike E M m src m' (map same_place R) ->
  relocated E M m src m' src (map same_place R).
Proof.
  intros NL AA. pose proof (extent_nonneg _ _ _ _ _ _ Ext) as Z0.
  assert (IR : forall r, In r (map same_place R) -> exists r0, In r0 R /\ r = same_place r0). { intros r I. apply in_map_iff in I. destruct I as [r0 [Q I]]. exists r0. auto. }
  assert (RI : forall r, In r R -> In (same_place r) (map same_place R)) by (intros; apply in_map; assumption).
  assert (PT : forall anc x t p r, sees E M m src anc x -> points d m x t p -> In r R -> in_region r (v_addr x) 8 -> number_at m' (v_addr x) 8 = p).
  { intros anc x t p r S P I J. destruct P as [_ P]. rewrite P. apply number_ext. intros b Hb. destruct (source_piece r I) as [_ [_ [_ G]]]. apply G. unfold in_region in J. lia. }
  constructor.
  - intros r I. destruct (IR r I) as [r0 [I0 ->]]. destruct (source_piece r0 I0) as [G1 [G2 [G3 _]]]. cbn. lia.
  - intros r r' I I'. destruct (IR r I) as [r0 [I0 ->]]. destruct (IR r' I') as [r1 [I1 ->]]. cbn. destruct (cd_src _ _ _ _ _ _ _ _ _ CD r0 r1 I0 I1) as [->|K]; [left; reflexivity|right; exact K].
  - intros r r' I I'. destruct (IR r I) as [r0 [I0 ->]]. destruct (IR r' I') as [r1 [I1 ->]]. cbn. destruct (cd_src _ _ _ _ _ _ _ _ _ CD r0 r1 I0 I1) as [->|K]; [left; reflexivity|right; exact K].
  - split; [tauto|auto].
  - exact NL.
  - intros z' X. assert (z' = z). { eapply extent_fun; [exact (cp_local _ _ _ _ CP)|exact X|apply same_ctx_refl|exact Ext]. } subst z'.
    eexists. split; [apply RI; exact (cd_top _ _ _ _ _ _ _ _ _ CD)|]. rewrite same_moved. unfold in_region. cbn. lia.
  - intros anc x s S X. destruct (cd_all _ _ _ _ _ _ _ _ _ CD anc x s S X) as [r [I J]]. exists (same_place r). split; [apply RI; exact I|exact J].
  - intros anc x s r S Sc I J i Hi. destruct (IR r I) as [r0 [I0 ->]]. rewrite same_moved. destruct (source_piece r0 I0) as [_ [_ [_ G]]]. apply G. unfold in_region in J. cbn in J. lia.
  - intros anc x t r S P I J. destruct (IR r I) as [r0 [I0 ->]]. rewrite same_moved. eapply PT; eassumption.
  - intros anc x t p r S P Np I J. destruct (IR r I) as [r0 [I0 ->]]. rewrite same_moved. destruct (cd_pointer _ _ _ _ _ _ _ _ _ CD anc x t p r0 S P Np I0 J) as [q [Iq [Q1 _]]].
    exists (same_place q). split; [apply RI; exact Iq|]. split; [exact Q1|]. rewrite same_moved. exact (PT _ _ _ _ r0 S P I0 J).
  - exact AA.
Qed.
End Copied.

Lemma copy_then_equal : forall E M feq n0 ord cal sd k src dst s s' evs z B, acyclic (en_db E) n0 -> en_fuel E = (n0 + 3)%nat ->
  mo_tree M = false -> mo_union M <> UNION_ignore -> mo_uptr M <> UPTR_as_values -> (forall x, Permutation (ord x) x) ->
  copy_ex E M ord cal sd k src dst s = Ret (true, s') -> calls s s' evs ->
  copyable E M (c_mem s) src -> comparable E M feq (c_mem s) src -> extent E M (c_mem s) [] src z -> same_type (en_db E) src dst ->
  en_va E (v_entry dst) = false ->
  blocks_ok B -> held E M (c_mem s) src B ->
  (forall b w, In (b, w) B -> apart (v_addr src) z b w) ->
  0 < v_addr dst -> v_addr dst + z < 2 ^ 64 -> (forall b w, In (b, w) ((v_addr src, z) :: B) -> apart (v_addr dst) z b w) ->
  fresh_blocks (allocs evs) ((v_addr src, z) :: (v_addr dst, z) :: B) ->
  (mo_uptr M = UPTR_fail \/ mo_uptr M = UPTR_as_one_byte_ptr -> forall x, v_addr dst <= x < v_addr dst + z -> c_mem s x = 0) ->
  exists R, copied E M (c_mem s) (c_mem s') src z (v_addr dst) (allocs evs) R /\
    (answers_alike E M (c_mem s) src (c_mem s') R -> answers_alike E M (c_mem s) src (c_mem s') (map same_place R) ->
     equal_ex E M feq k (c_mem s') src dst = Ret 1).
Proof.
  intros E M feq n0 ord cal sd k src dst s s' evs z B A N Dag U NV PO H Cl CP CM Ext ST NL OK Hd Asrc D1 D2 Adst Fr Zd.
  destruct (copy_sound E M ord cal sd Dag U PO k src dst s s' evs z B H Cl CP Ext ST OK Hd Asrc D1 D2 Adst Fr Zd) as [R CD].
  exists R. split; [exact CD|]. intros AA AA'.
  unfold copy_ex in H. apply bind_ret in H. destruct H as [[f1|] [_ H]]; [|apply bind_ret in H; destruct H as [f2 [_ H]]; discriminate].
  apply bind_ret in H. destruct H as [[f2|] [_ H]]; [|discriminate]. apply bind_ret in H. destruct H as [sm [_ H]]. destruct sm; [cbn [negb] in H|discriminate].
  apply bind_ret in H. destruct H as [[mm|] [Nm H]]; [clear H|discriminate].
  pose proof (map_built _ _ _ _ _ _ Nm) as [Bu V _ _ _ _ _ _].
  eapply (relocated_equal E M feq n0 (c_mem s) src (c_mem s') src dst (map same_place R) R k mm B A N).
  - eapply source_relocated; try eassumption. pose proof (built_noload _ _ _ _ _ Bu) as NB. rewrite V in NB. exact NB.
  - eapply copy_relocated; eassumption.
  - apply copyable_movable; assumption.
  - exact CM.
  - exact (cd_bytes _ _ _ _ _ _ _ _ _ CD).
  - exact NV.
  - intros _. split; [exact (cp_local _ _ _ _ CP)|]. split; [exact (cp_coherent _ _ _ _ CP)|]. split; assumption.
  - exact Nm.
Qed.
