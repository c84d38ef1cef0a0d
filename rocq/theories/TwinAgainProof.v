(** The copy made as a tree is data like its source: it can be copied, compared and released in turn. *)
From Coq Require Import ZArith String List Bool Permutation Lia ZifyBool.
From Verif Require Import Base BaseProof EntryModel EntrySpec EntryProof ValueModel ValueSpec ValueProof ValueProof2 DeepModel DeepSpec DeepProof DeepProof2 DeepProof3 DeepProof4 DeepProof5 DeepProof6 DeepProof8 CopySpec CopyProof MoveSpec MoveProof MoveProof2 MoveProof3 MoveProof4
  CopyTreeSpec CopyTreeProof CopyTreeProof2 TwinSpec TwinProof TwinProof2 TwinProof3 TwinFreeProof.
Import ListNotations.
Open Scope Z_scope.

Section Again.
Variable E : env.
Variable M : mode.
Notation d := (en_db E).
Notation addr e := (v_addr (me_val e)).
Variable m : mem.
Variable src : value.
Variable m' : mem.
Variable dst : value.
Variable z : Z.
Variable new : list block.
Hypothesis Tree : mo_tree M = true.
Hypothesis UF : unfoldable E M m src.
Hypothesis ST : same_type d src dst.
Hypothesis Ext : extent E M m [] src z.
Hypothesis UN : unfolded E M m m' src z (v_addr dst) new.
Hypothesis MR : mirrored E M m src m' dst.
Hypothesis L' : local E m'.
Notation mir := (mir E M m src m' dst).
Notation beside := (beside E M m src m' dst).
Variables top top' : ment.
Hypothesis Bu : built_ok E M m [] top.
Hypothesis V : me_val top = src.
Hypothesis Bu' : built_ok E M m' [] top'.
Hypothesis V' : me_val top' = dst.
Hypothesis Mi : mir [] top [] top'.

Lemma built_child : forall m0 anc e c, built_ok E M m0 anc e -> In c (me_ch e) -> built_ok E M m0 (me_val e :: anc) c.
Proof.
  intros m0 anc e c Be I. destruct (built_looks _ _ _ _ _ Be) as [w [_ [L K]]]. destruct w as [|sz|sz lv|sz ch|sz t|ca]; [contradiction| | | | |].
  - destruct K as [_ [_ K]]. rewrite K in I. destruct I.
  - destruct K as [_ [_ K]]. rewrite K in I. destruct I.
  - destruct K as [_ [_ [K _]]]. rewrite Forall_forall in K. exact (K c I).
  - destruct K as [_ [_ [c0 [K1 [_ K2]]]]]. rewrite K1 in I. destruct I as [<-|[]]. exact K2.
  - destruct K as [_ [_ [_ K]]]. rewrite Forall_forall in K. exact (K c I).
Qed.
Definition pair (anc anc' : list value) (e e' : ment) : Prop := mir anc e anc' e' /\ built_ok E M m anc e /\ built_ok E M m' anc' e'.
Lemma pair_child : forall anc anc' e e' c', pair anc anc' e e' -> In c' (me_ch e') -> exists c, In c (me_ch e) /\ pair (me_val e :: anc) (me_val e' :: anc') c c'.
Proof.
  intros anc anc' e e' c' [H [Be Be']] I. destruct (forall2_in_r _ _ _ _ (mir_children _ _ _ _ _ _ _ _ _ _ H) I) as [c [Ic Hc]]. exists c. split; [exact Ic|].
  split; [exact Hc|]. split; apply built_child; assumption.
Qed.
Lemma pair_facts : forall anc anc' e e', pair anc anc' e e' -> beside anc (me_val e) anc' (me_val e') /\ reaches E M m src anc (me_val e) /\ same_type d (me_val e) (me_val e') /\ me_size e' = me_size e /\
  (forall s, extent E M m' anc' (me_val e') s -> s = me_size e).
Proof.
  intros anc anc' e e' [H [Be Be']]. pose proof (mir_beside _ _ _ _ _ _ _ _ _ _ H) as Bs. split; [exact Bs|]. split; [exact (beside_reaches _ _ _ _ _ _ _ _ _ _ Bs)|].
  split; [exact (beside_same E M m src m' dst ST _ _ _ _ Bs)|]. pose proof (mir_size _ _ _ _ _ _ _ _ _ _ H) as Q. split; [exact Q|].
  intros s X. rewrite <- Q. eapply extent_fun; [exact L'|exact X|apply same_ctx_refl|apply built_extent; exact Be'].
Qed.
Lemma node_back : forall anc anc' e e' sz ch c', pair anc anc' e e' -> looks E M m' anc' (me_val e') (VNode sz ch) -> In c' (me_ch e') ->
  exists sz0, looks E M m anc (me_val e) (VNode sz0 (map me_val (me_ch e))).
Proof.
  intros anc anc' e e' sz ch c' P Lk I. destruct (pair_child _ _ _ _ _ P I) as [c [Ic _]]. destruct (pair_facts _ _ _ _ P) as [_ [R [ST' _]]]. destruct P as [_ [Be _]].
  destruct (built_looks _ _ _ _ _ Be) as [w [_ [L K]]]. destruct w as [|sz1|sz1 lv|sz1 ch1|sz1 t|ca]; [contradiction| | | | |].
  - destruct K as [_ [_ K]]. rewrite K in Ic. destruct Ic.
  - destruct K as [_ [_ K]]. rewrite K in Ic. destruct Ic.
  - destruct K as [_ [-> _]]. exists sz1. exact L.
  - exfalso. destruct (target_info _ _ _ _ _ _ _ L) as [ty Ht]. destruct (node_info _ _ _ _ _ _ _ Lk) as [i [HI Q]].
    pose proof (has_info_fun _ _ _ _ (type_info _ _ _ _ ST' Ht) HI) as <-. exact Q.
  - exfalso. eapply call_not; eassumption.
Qed.
Lemma ptr_back : forall anc anc' e e' sz w, pair anc anc' e e' -> looks E M m' anc' (me_val e') (VPtr sz w) ->
  exists sz0 c c', looks E M m anc (me_val e) (VPtr sz0 (me_val c)) /\ pair (me_val e :: anc) (me_val e' :: anc') c c' /\ w = me_val c' /\
    w = rebase (me_val c) (number_at m (addr e) 8) (number_at m' (addr e') 8).
Proof.
  intros anc anc' e e' sz w P Lk. pose proof P as [_ [Be Be']]. destruct (built_ptr E M m' _ _ _ _ Be' Lk) as [c' [Ch [<- Bc']]].
  destruct (pair_child _ _ _ _ c' P) as [c [Ic Pc]]; [rewrite Ch; left; reflexivity|]. destruct (pair_facts _ _ _ _ P) as [_ [R [ST' _]]].
  destruct (target_info _ _ _ _ _ _ _ Lk) as [ty Ht]. pose proof (type_info_back _ _ _ _ ST' Ht) as Hs.
  destruct (built_looks _ _ _ _ _ Be) as [w [_ [L K]]]. destruct w as [|sz1|sz1 lv|sz1 ch1|sz1 t|ca]; [contradiction| | | | |].
  - destruct K as [_ [_ K]]. rewrite K in Ic. destruct Ic.
  - destruct K as [_ [_ K]]. rewrite K in Ic. destruct Ic.
  - exfalso. destruct (node_info _ _ _ _ _ _ _ L) as [i [HI Q]]. pose proof (has_info_fun _ _ _ _ Hs HI) as <-. exact Q.
  - destruct K as [_ [_ [c0 [K1 [<- _]]]]]. rewrite K1 in Ic. destruct Ic as [<-|[]]. exists sz1, c0, c'. split; [exact L|]. split; [exact Pc|]. split; [reflexivity|].
    destruct Pc as [Hc _]. exact (target_place _ _ _ _ _ _ _ _ _ _ _ _ _ L (mir_beside _ _ _ _ _ _ _ _ _ _ Hc)).
  - exfalso. eapply call_not; eassumption.
Qed.
Lemma reach_back : forall anc' x', reaches E M m' dst anc' x' -> exists anc e e', pair anc anc' e e' /\ me_val e' = x'.
Proof.
  intros anc' x' R. induction R as [|anc' x' sz ch y R [anc [e [e' [P Q]]]] L I|anc' x' sz y R [anc [e [e' [P Q]]]] L|anc' x' la y R [anc [e [e' [P Q]]]] L I].
  - exists [], top, top'. split; [split; [exact Mi|split; assumption]|exact V'].
  - rewrite <- Q in *. pose proof P as [_ [_ Be']]. destruct (CopyTreeProof.built_node E M m' _ _ _ _ Be' L) as [-> _]. apply in_map_iff in I. destruct I as [c' [<- Ic]].
    destruct (pair_child _ _ _ _ _ P Ic) as [c [_ Pc]]. exists (me_val e :: anc), c, c'. split; [exact Pc|reflexivity].
  - rewrite <- Q in *. destruct (ptr_back _ _ _ _ _ _ P L) as [sz0 [c [c' [_ [Pc [Qw _]]]]]]. exists (me_val e :: anc), c, c'. split; [exact Pc|symmetry; exact Qw].
  - exfalso. rewrite <- Q in *. destruct (call_info _ _ _ _ _ _ L) as [ic [Hc Kc]]. destruct (pair_facts _ _ _ _ P) as [_ [R0 [ST' _]]].
    exact (uf_data _ _ _ _ UF _ _ _ R0 (type_info_back _ _ _ _ ST' Hc) Kc).
Qed.
Lemma forall2_split : forall {A B} (P : A -> B -> Prop) l l' k1 y k2, Forall2 P l l' -> l' = k1 ++ y :: k2 -> exists l1 x l2, l = l1 ++ x :: l2 /\ P x y /\ Forall2 P l2 k2.
Proof.
  intros A B P l l' k1 y k2 F ->. apply Forall2_app_inv_r in F. destruct F as [l1 [l2 [_ [F ->]]]]. inversion F as [|x ? l0 ? H F' Q1 Q2]; subst. exists l1, x, l0. auto.
Qed.
Lemma copy_unfoldable : unfoldable E M m' dst.
Proof.
  constructor.
  - exact (un_bytes _ _ _ _ _ _ _ _ UN).
  - exact L'.
  - intros anc' x' s c R I. destruct (reach_back _ _ R) as [anc [e [e' [P <-]]]]. destruct (pair_facts _ _ _ _ P) as [_ [R0 [ST' _]]].
    destruct (uf_base _ _ _ _ UF _ _ _ _ R0 (type_info_back _ _ _ _ ST' I)) as [k [nm [en [sg [K1 [K2 K3]]]]]]. exists k, nm, en, sg.
    split; [eapply type_ctype; eassumption|]. split; [apply ST'; exact K2|exact K3].
  - intros anc' x' s R X. destruct (reach_back _ _ R) as [anc [e [e' [P <-]]]]. destruct (pair_facts _ _ _ _ P) as [Bs [_ [_ [_ X0]]]]. rewrite (X0 _ X).
    destruct P as [_ [Be _]]. exact (mr_fits _ _ _ _ _ _ MR _ _ _ _ _ Bs (built_extent _ _ _ _ _ Be)).
  - intros anc' x' sz ch y R L I. destruct (reach_back _ _ R) as [anc [e [e' [P <-]]]]. pose proof P as [_ [_ Be']].
    destruct (CopyTreeProof.built_node E M m' _ _ _ _ Be' L) as [-> _]. apply in_map_iff in I. destruct I as [c' [<- Ic]].
    destruct (node_back _ _ _ _ _ _ _ P L Ic) as [sz0 L0]. destruct (pair_child _ _ _ _ _ P Ic) as [c [Ic0 Pc]]. destruct (pair_facts _ _ _ _ P) as [_ [R0 _]].
    pose proof (uf_parts _ _ _ _ UF _ _ _ _ _ R0 L0 (in_map me_val _ _ Ic0)) as Q. destruct Pc as [Hc _].
    rewrite (part_place _ _ _ _ _ _ _ _ _ _ _ _ _ _ L0 (mir_beside _ _ _ _ _ _ _ _ _ _ Hc)). cbn. lia.
  - intros anc' x' sz l1 y1 l2 y2 l3 s1 s2 R L X1 X2. destruct (reach_back _ _ R) as [anc [e [e' [P <-]]]]. pose proof P as [H [_ Be']].
    destruct (CopyTreeProof.built_node E M m' _ _ _ _ Be' L) as [Q _]. symmetry in Q. apply map_eq_app in Q. destruct Q as [k1 [k' [Q [_ Qk]]]]. destruct k' as [|c1' k']; [discriminate|].
    cbn [map] in Qk. injection Qk as Q1 Qk. apply map_eq_app in Qk. destruct Qk as [k2 [k'' [-> [_ Qk]]]]. destruct k'' as [|c2' k3]; [discriminate|]. cbn [map] in Qk. injection Qk as Q2 _.
    assert (I1 : In c1' (me_ch e')) by (rewrite Q; apply in_or_app; right; left; reflexivity).
    assert (I2 : In c2' (me_ch e')) by (rewrite Q; apply in_or_app; right; right; apply in_or_app; right; left; reflexivity).
    destruct (node_back _ _ _ _ _ _ _ P L I1) as [sz0 L0]. destruct (pair_facts _ _ _ _ P) as [_ [R0 _]].
    destruct (forall2_split _ _ _ _ _ _ (mir_children _ _ _ _ _ _ _ _ _ _ H) Q) as [j1 [c1 [j' [E1 [H1 F1]]]]]. destruct (forall2_split _ _ _ _ _ _ F1 eq_refl) as [j2 [c2 [j3 [-> [H2 _]]]]].
    destruct P as [_ [Be _]].
    assert (P1 : pair (me_val e :: anc) (me_val e' :: anc') c1 c1') by (split; [exact H1|]; split; (apply built_child; [assumption|]); [rewrite E1; apply in_or_app; right; left; reflexivity|exact I1]).
    assert (P2 : pair (me_val e :: anc) (me_val e' :: anc') c2 c2') by (split; [exact H2|]; split; (apply built_child; [assumption|]); [rewrite E1; apply in_or_app; right; right; apply in_or_app; right; left; reflexivity|exact I2]).
    subst y1 y2. destruct (pair_facts _ _ _ _ P1) as [_ [_ [_ [_ Z1]]]]. destruct (pair_facts _ _ _ _ P2) as [_ [_ [_ [_ Z2]]]]. rewrite (Z1 _ X1), (Z2 _ X2).
    pose proof L0 as L1. rewrite E1, map_app in L1. cbn [map] in L1. rewrite map_app in L1. cbn [map] in L1.
    destruct P1 as [_ [B1 _]], P2 as [_ [B2 _]].
    pose proof (uf_apart _ _ _ _ UF _ _ _ _ _ _ _ _ _ _ R0 L1 (built_extent _ _ _ _ _ B1) (built_extent _ _ _ _ _ B2)) as Ap.
    rewrite (part_place _ _ _ _ _ _ _ _ _ _ _ _ _ _ L0 (mir_beside _ _ _ _ _ _ _ _ _ _ H1)), (part_place _ _ _ _ _ _ _ _ _ _ _ _ _ _ L0 (mir_beside _ _ _ _ _ _ _ _ _ _ H2)).
    unfold apart in *. cbn. lia.
  - intros anc' x' sz w s R L X. destruct (reach_back _ _ R) as [anc [e [e' [P <-]]]]. destruct (ptr_back _ _ _ _ _ _ P L) as [sz0 [c [c' [L0 [Pc [Qw Qr]]]]]].
    destruct (pair_facts _ _ _ _ P) as [_ [R0 _]]. destruct (pair_facts _ _ _ _ Pc) as [_ [_ [_ [_ Zc]]]]. rewrite Qw in X. rewrite (Zc _ X). destruct Pc as [_ [Bc _]].
    pose proof (uf_inside _ _ _ _ UF _ _ _ _ _ R0 L0 (built_extent _ _ _ _ _ Bc)). rewrite Qr. cbn [rebase v_addr]. lia.
  - intros anc' x' i R I K. destruct (reach_back _ _ R) as [anc [e [e' [P <-]]]]. destruct (pair_facts _ _ _ _ P) as [_ [R0 [ST' _]]].
    exact (uf_data _ _ _ _ UF _ _ _ R0 (type_info_back _ _ _ _ ST' I) K).
Qed.
Lemma copy_covered : covered E M m' dst new.
Proof.
  intros anc' x' sz w s R L X. destruct (reach_back _ _ R) as [anc [e [e' [P <-]]]]. destruct (ptr_back _ _ _ _ _ _ P L) as [sz0 [c [c' [L0 [Pc [Qw Qr]]]]]].
  destruct (pair_facts _ _ _ _ P) as [Bs _]. destruct (pair_facts _ _ _ _ Pc) as [_ [_ [_ [_ Zc]]]]. rewrite Qw in X. rewrite (Zc _ X). destruct Pc as [_ [Bc _]].
  destruct (un_block _ _ _ _ _ _ _ _ UN _ _ _ _ _ _ (beside_along E M m src m' dst Tree _ _ _ _ Bs) L0) as [b [Ib [Fb Xb]]]. exists b. split; [exact Ib|].
  pose proof (same_extent E M m src UF _ _ _ _ (built_extent _ _ _ _ _ Bc) Xb) as Q. split; rewrite Qr; cbn [rebase v_addr]; lia.
Qed.
Lemma copy_extent : extent E M m' [] dst z.
Proof.
  pose proof (mir_size _ _ _ _ _ _ _ _ _ _ Mi) as Q. pose proof (built_extent _ _ _ _ _ Bu') as X. rewrite V', Q in X.
  pose proof (built_extent _ _ _ _ _ Bu) as X0. rewrite V in X0. rewrite (same_extent E M m src UF _ _ _ _ Ext X0). exact X.
Qed.
End Again.

Lemma tree_again : forall E M n0 ord cal same_decl k src dst s s' evs z B,
  acyclic (en_db E) n0 -> en_fuel E = (n0 + 3)%nat -> mo_tree M = true ->
  copy_ex E M ord cal same_decl k src dst s = Ret (true, s') -> calls s s' evs ->
  unfoldable E M (c_mem s) src -> extent E M (c_mem s) [] src z -> same_type (en_db E) src dst -> en_va E (v_entry dst) = false ->
  covered E M (c_mem s) src B ->
  0 < v_addr dst -> v_addr dst + z < 2 ^ 64 -> (forall b w, In (b, w) ((v_addr src, z) :: B) -> apart (v_addr dst) z b w) ->
  fresh_blocks (allocs evs) ((v_addr src, z) :: (v_addr dst, z) :: B) ->
  (mo_uptr M = UPTR_fail \/ mo_uptr M = UPTR_as_one_byte_ptr -> forall x, v_addr dst <= x < v_addr dst + z -> c_mem s x = 0) ->
  (mo_uptr M = UPTR_as_values -> forall anc x t p sz, reaches E M (c_mem s) src anc x -> points (en_db E) (c_mem s) x t p -> p <> 0 -> looks E M (c_mem s) anc x (VLeaf sz) ->
    forall b w, In (b, w) (allocs evs) -> ~ (b <= p < b + w)) ->
  answers_beside E M (c_mem s) src (c_mem s') dst -> local E (c_mem s') ->
  unfoldable E M (c_mem s') dst /\ extent E M (c_mem s') [] dst z /\ covered E M (c_mem s') dst (allocs evs).
Proof.
  intros E M n0 ord cal sd k src dst s s' evs z B A N Tree H Cl UF Ext ST Va Cov D1 D2 Ad Fr Zd OP An Lo.
  pose proof (copy_tree_sound E M ord cal sd Tree k src dst s s' evs z B H Cl UF Ext ST Cov D1 D2 Ad Fr Zd) as UN.
  destruct (copy_map _ _ _ _ _ _ _ _ _ _ H) as [mm Hm]. pose proof (map_built _ _ _ _ _ _ Hm) as [Bu V _ _ _ _ _ _].
  pose proof (copy_mirrored E M (c_mem s) src (c_mem s') dst z (allocs evs) B Tree OP UF Ext ST Cov D1 D2 Ad Fr UN (mm_top mm) Bu V Va An) as MR.
  pose proof (uf_traversable E M (c_mem s) src UF) as TV.
  destruct (map_twin E M n0 A N Tree (c_mem s) src (c_mem s') dst MR TV k mm Hm) as [mm' [Hm' [_ Mi]]].
  pose proof (map_built _ _ _ _ _ _ Hm') as [Bu' V' _ _ _ _ _ _]. split; [|split].
  - eapply copy_unfoldable; eassumption.
  - eapply copy_extent; eassumption.
  - eapply copy_covered; eassumption.
Qed.
