(** Deep free of a copy made as a tree. *)
From Coq Require Import ZArith String List Bool Permutation Lia ZifyBool.
From Verif Require Import Base BaseProof EntryModel EntrySpec EntryProof ValueModel ValueSpec ValueProof ValueProof2 DeepModel DeepSpec DeepProof DeepProof2 DeepProof3 DeepProof4 DeepProof5 DeepProof6 DeepProof7 DeepProof8 CopySpec CopyProof CopyProof2 CopyProof3 CopyProof4 MoveSpec MoveProof MoveProof4 EqualSpec CompleteSpec CompleteProof CompleteProof2 CompleteProof3 CompleteProof4 CopyTreeSpec CopyTreeProof CopyTreeProof2 CopyTreeProof3 MoveProof2 MoveProof3 TwinSpec TwinProof TwinProof2 TwinProof3.
Import ListNotations.
Open Scope Z_scope.

(** ** The memory map of the mode for trees is also built in the mode for graphs *)
Section Dag.
Variable E : env.
Variable M : mode.
Variable m : mem.
Lemma look_dag : forall anc x, look E (dag M) m anc x = look E M m anc x.
Proof. reflexivity. Qed.
Lemma register_dag : forall s c, b_dead s = [] -> exists s1, register (dag M) s c = Ret s1 /\ b_next s1 = b_next s /\ b_dead s1 = [].
Proof.
  intros s c Q. unfold register. cbn [dag mo_tree]. rewrite Q. cbn [existsb]. destruct (hfind _ _) as [p|]; [destruct (_ <? _)|]; eexists; (split; [reflexivity|]); auto.
Qed.
Lemma register_next : forall s c s1, register M s c = Ret s1 -> b_next s1 = b_next s.
Proof.
  intros s c s1 H. unfold register in H. destruct (mo_tree M); [injection H as <-; reflexivity|].
  destruct (hfind _ _) as [p|]; [destruct (existsb _ _); [discriminate|]; destruct (_ <? _)|]; injection H as <-; reflexivity.
Qed.
Lemma build_dag : forall k anc x s e s1 s', build E M k m anc x s = Ret (Some e, s1) -> b_next s' = b_next s -> b_dead s' = [] ->
  exists s1', build E (dag M) k m anc x s' = Ret (Some e, s1') /\ b_next s1' = b_next s1 /\ b_dead s1' = [].
Proof.
  induction k as [|k IH]; intros anc x s e s1 s' H SN SD; [discriminate|].
  rewrite build_eq in H |- *. rewrite look_dag. apply bind_ret in H. destruct H as [w [W H]]. rewrite W. cbn [bind].
  assert (BL : forall anc l rs s s2 s', build_list E M k m anc l s = Ret (map Some rs, s2) -> b_next s' = b_next s -> b_dead s' = [] ->
    exists s2', build_list E (dag M) k m anc l s' = Ret (map Some rs, s2') /\ b_next s2' = b_next s2 /\ b_dead s2' = []).
  { clear - IH. intros anc l. induction l as [|c l IHl]; intros rs s s2 s' H SN SD; cbn in H |- *.
    - injection H as Q <-. rewrite <- Q. exists s'. auto.
    - apply bind_ret in H. destruct H as [[y sA] [B1 H]]. apply bind_ret in H. destruct H as [[ys sB] [B2 H]]. injection H as Q <-. destruct rs as [|r rs]; [discriminate|].
      cbn [map] in Q. injection Q as -> ->. destruct (IH _ _ _ _ _ _ B1 SN SD) as [sA' [C1 [C2 C3]]]. destruct (IHl _ _ _ _ B2 C2 C3) as [sB' [C4 [C5 C6]]].
      exists sB'. rewrite C1. cbn [bind]. rewrite C4. auto. }
  destruct w as [|sz|sz lv|sz ch|sz t|ca]; [discriminate| | | | |].
  - unfold fresh in *. injection H as <- <-. eexists. rewrite SN. split; [reflexivity|]. cbn. auto.
  - unfold fresh in *. injection H as <- <-. eexists. rewrite SN. split; [reflexivity|]. cbn. auto.
  - apply bind_ret in H. destruct H as [[rs s2] [Bl H]]. destruct (all_some rs) as [l|] eqn:AS; [|discriminate]. pose proof (DeepProof2.all_some_map _ _ AS) as ->.
    apply bind_ret in H. destruct H as [sz' [G H]]. destruct (BL _ _ _ _ _ _ Bl SN SD) as [s2' [C1 [C2 C3]]]. rewrite C1. cbn [bind]. rewrite AS, G. cbn [bind].
    unfold fresh in *. injection H as <- <-. eexists. rewrite C2. split; [reflexivity|]. cbn. auto.
  - apply bind_ret in H. destruct H as [[y sA] [B1 H]]. destruct y as [c|]; [|discriminate]. destruct (IH _ _ _ _ _ _ B1 SN SD) as [sA' [C1 [C2 C3]]]. rewrite C1. cbn [bind].
    unfold fresh in *. apply bind_ret in H. destruct H as [s2 [B2 H]]. injection H as <- <-. apply register_next in B2. cbn [b_next] in B2.
    destruct (register_dag (Build_bst (S (b_next sA')) (b_hash sA') (b_dead sA')) c C3) as [s2' [R1 [R2 R3]]]. rewrite R1. cbn [bind]. eexists. rewrite C2. split; [reflexivity|].
    cbn [b_next] in R2. split; [congruence|exact R3].
  - apply bind_ret in H. destruct H as [[rs s2] [Bl H]]. destruct (all_some rs) as [l|] eqn:AS; [|discriminate]. pose proof (DeepProof2.all_some_map _ _ AS) as ->.
    destruct (BL _ _ _ _ _ _ Bl SN SD) as [s2' [C1 [C2 C3]]]. rewrite C1. cbn [bind]. rewrite AS.
    unfold fresh in *. injection H as <- <-. eexists. rewrite C2. split; [reflexivity|]. cbn. auto.
Qed.
Lemma map_dag : forall k x mm, new_memory_map E M k m x = Ret (Some mm) -> exists mm', new_memory_map E (dag M) k m x = Ret (Some mm') /\ mm_top mm' = mm_top mm.
Proof.
  intros k x mm H. unfold new_memory_map in H |- *. apply bind_ret in H. destruct H as [[y s] [B H]]. destruct y as [top|]; [|discriminate].
  destruct (build_dag _ _ _ _ _ _ (Build_bst O [] []) B eq_refl eq_refl) as [s1' [B' _]]. rewrite B'. cbn [bind]. eexists. split; [reflexivity|]. cbn [dag mo_tree mm_top].
  destruct (mo_tree M); injection H as <-; reflexivity.
Qed.
End Dag.

(** ** What the pointers of the copy lead to *)
Section Mir.
Variable E : env.
Variable M : mode.
Variable m : mem.
Variable src : value.
Variable m' : mem.
Variable dst : value.
Notation mir := (mir E M m src m' dst).
Notation beside := (beside E M m src m' dst).
Lemma mir_beside : forall anc e anc' e', mir anc e anc' e' -> beside anc (me_val e) anc' (me_val e').
Proof. intros anc e anc' e' H. inversion H; subst. assumption. Qed.
Lemma mir_children : forall anc e anc' e', mir anc e anc' e' -> Forall2 (fun c c' => mir (me_val e :: anc) c (me_val e' :: anc') c') (me_ch e) (me_ch e').
Proof. intros anc e anc' e' H. inversion H; subst. assumption. Qed.
Lemma not_both : forall anc x sz ch sz' w, looks E M m anc x (VNode sz ch) -> looks E M m anc x (VPtr sz' w) -> False.
Proof. intros anc x sz ch sz' w L L'. pose proof (looks_fun _ _ _ _ _ _ _ L L') as Q. discriminate. Qed.
(** where the target of a pointer is in the copy *)
Lemma target_place : forall anc x anc' x' sz w c', looks E M m anc x (VPtr sz w) -> beside (x :: anc) w (x' :: anc') c' ->
  c' = rebase w (number_at m (v_addr x) 8) (number_at m' (v_addr x') 8).
Proof. intros anc x anc' x' sz w c' L H. inversion H; subst; [exfalso; eapply not_both; eassumption|reflexivity]. Qed.
Lemma part_place : forall anc x anc' x' sz ch w c', looks E M m anc x (VNode sz ch) -> beside (x :: anc) w (x' :: anc') c' -> c' = rebase w (v_addr x) (v_addr x').
Proof. intros anc x anc' x' sz ch w c' L H. inversion H; subst; [reflexivity|exfalso; eapply not_both; eassumption]. Qed.
End Mir.

Section Free.
Variable E : env.
Variable M : mode.
Notation d := (en_db E).
Notation addr e := (v_addr (me_val e)).
Variable m : mem.
Variable src : value.
Variable m' : mem.
Variable dst : value.
Variable z : Z.
Variable new : list block.
Hypothesis Tree : mo_tree M = true.
Hypothesis UF : unfoldable E M m src.
Hypothesis ST : same_type d src dst.
Hypothesis UN : unfolded E M m m' src z (v_addr dst) new.
Hypothesis BO : blocks_ok new.
Hypothesis ND : NoDup (map fst new).
Notation mir := (mir E M m src m' dst).
Notation beside := (beside E M m src m' dst).
Variables top top' : ment.
Hypothesis Bu : built_ok E M m [] top.
Hypothesis V : me_val top = src.
Hypothesis Bu' : built_ok E M m' [] top'.
Hypothesis V' : me_val top' = dst.
Hypothesis Mi : mir [] top [] top'.

Lemma call_not : forall anc x l, reaches E M m src anc x -> looks E M m anc x (VCall l) -> False.
Proof. intros anc x l R L. destruct (call_info _ _ _ _ _ _ L) as [ic [Hc Kc]]. exact (uf_data _ _ _ _ UF _ _ _ R Hc Kc). Qed.

Lemma mir_down : forall e' e0', in_tree e' e0' -> forall anc e0 anc', mir anc e0 anc' e0' -> built_ok E M m anc e0 ->
  exists up e up', mir up e up' e' /\ built_ok E M m up e.
Proof.
  intros e' e0' T. induction T as [|e0' c' Ic T IH]; intros anc e0 anc' H Be; [exists anc, e0, anc'; auto|].
  pose proof (mir_children _ _ _ _ _ _ _ _ _ _ H) as F. destruct (forall2_in_r _ _ _ _ F Ic) as [c [I Hc]]. apply (IH _ _ _ Hc).
  destruct (built_looks _ _ _ _ _ Be) as [w [_ [L K]]]. destruct w as [|sz|sz lv|sz ch|sz t|ca]; [contradiction| | | | |].
  - destruct K as [_ [_ K]]. rewrite K in I. destruct I.
  - destruct K as [_ [_ K]]. rewrite K in I. destruct I.
  - destruct K as [_ [_ [K _]]]. rewrite Forall_forall in K. exact (K c I).
  - destruct K as [_ [_ [c0 [K1 [_ K2]]]]]. rewrite K1 in I. destruct I as [<-|[]]. exact K2.
  - destruct K as [_ [_ [_ K]]]. rewrite Forall_forall in K. exact (K c I).
Qed.
Lemma target_block : forall c', In c' (targets E top') -> In (addr c', me_size c') new.
Proof.
  intros c' I. destruct (targets_in _ _ _ I) as [e' [t [T [Ic Fi]]]]. destruct (mir_down _ _ T _ _ _ Mi Bu) as [anc [e [anc' [H Be]]]].
  pose proof (mir_beside _ _ _ _ _ _ _ _ _ _ H) as Bs. pose proof (beside_reaches _ _ _ _ _ _ _ _ _ _ Bs) as R.
  pose proof (type_info_back _ _ _ _ (beside_same E M m src m' dst ST _ _ _ _ Bs) (final_info_some _ _ _ Fi)) as Hp.
  destruct (forall2_in_r _ _ _ _ (mir_children _ _ _ _ _ _ _ _ _ _ H) Ic) as [c [I0 Hc]].
  destruct (built_looks _ _ _ _ _ Be) as [w [_ [L K]]]. destruct w as [|sz|sz lv|sz ch|sz w|ca]; [contradiction| | | | |].
  - destruct K as [_ [_ K]]. rewrite K in I0. destruct I0.
  - destruct K as [_ [_ K]]. rewrite K in I0. destruct I0.
  - exfalso. destruct (node_info _ _ _ _ _ _ _ L) as [i [HI Q]]. pose proof (has_info_fun _ _ _ _ Hp HI) as <-. exact Q.
  - destruct K as [_ [_ [c0 [K1 [<- K2]]]]]. rewrite K1 in I0. destruct I0 as [<-|[]].
    pose proof (beside_along E M m src m' dst Tree _ _ _ _ Bs) as Al. destruct (un_block _ _ _ _ _ _ _ _ UN _ _ _ _ _ _ Al L) as [[b s] [Ib [Fb Xb]]]. cbn [fst snd] in Fb, Xb.
    pose proof (target_place _ _ _ _ _ _ _ _ _ _ _ _ _ L (mir_beside _ _ _ _ _ _ _ _ _ _ Hc)) as Q. rewrite Q. cbn [rebase v_addr].
    rewrite (mir_size _ _ _ _ _ _ _ _ _ _ Hc). rewrite (same_extent E M m src UF _ _ _ _ (built_extent _ _ _ _ _ K2) Xb).
    replace (addr c0 - number_at m (addr e) 8 + number_at m' (addr e') 8) with b by lia. exact Ib.
  - exfalso. eapply call_not; eassumption.
Qed.
Lemma along_mir : forall anc x ys y, along E M m m' src (v_addr dst) anc x ys y -> exists e anc' e', mir anc e anc' e' /\ built_ok E M m anc e /\ me_val e = x /\ in_tree e' top' /\
  v_addr (me_val e') = y.
Proof.
  intros anc x ys y H. induction H as [|anc x ys y sz ch c H [e [anc' [e' [Hm [Be [Qe [Te Qy]]]]]]] L I|anc x ys y sz w H [e [anc' [e' [Hm [Be [Qe [Te Qy]]]]]]] L].
  - exists top, [], top'. rewrite V'. split; [exact Mi|]. split; [exact Bu|]. split; [exact V|]. split; [apply it_here|reflexivity].
  - subst x y. destruct (CopyTreeProof.built_node E M m _ _ _ _ Be L) as [-> [Fb _]]. apply in_map_iff in I. destruct I as [c0 [<- Ic]].
    destruct (forall2_in_l _ _ _ _ (mir_children _ _ _ _ _ _ _ _ _ _ Hm) Ic) as [c' [Ic' Hc]]. rewrite Forall_forall in Fb.
    exists c0, (me_val e' :: anc'), c'. split; [exact Hc|]. split; [exact (Fb _ Ic)|]. split; [reflexivity|]. split; [eapply in_tree_trans; [apply in_tree_child; exact Ic'|exact Te]|].
    rewrite (part_place _ _ _ _ _ _ _ _ _ _ _ _ _ _ L (mir_beside _ _ _ _ _ _ _ _ _ _ Hc)). cbn. lia.
  - subst x y. destruct (built_ptr E M m _ _ _ _ Be L) as [c [Ch [<- Bc]]]. pose proof (mir_children _ _ _ _ _ _ _ _ _ _ Hm) as F. rewrite Ch in F. inversion F as [|? c' ? ? Hc F' Q1 Q2].
    exists c, (me_val e' :: anc'), c'. split; [exact Hc|]. split; [exact Bc|]. split; [reflexivity|]. split; [eapply in_tree_trans; [apply in_tree_child; rewrite <- Q2; left; reflexivity|exact Te]|].
    rewrite (target_place _ _ _ _ _ _ _ _ _ _ _ _ _ L (mir_beside _ _ _ _ _ _ _ _ _ _ Hc)). cbn [rebase v_addr]. lia.
Qed.
Lemma block_target : forall b, In b new -> exists c', In c' (targets E top') /\ addr c' = fst b.
Proof.
  intros b Ib. destruct (un_used _ _ _ _ _ _ _ _ UN b Ib) as [y [anc [x [ys [sz [w [Al [L [Fb _]]]]]]]]]. destruct (along_mir _ _ _ _ Al) as [e [anc' [e' [Hm [Be [Qe [Te Qy]]]]]]].
  subst x y. destruct (built_ptr E M m _ _ _ _ Be L) as [c [Ch [<- Bc]]]. pose proof (mir_children _ _ _ _ _ _ _ _ _ _ Hm) as F. rewrite Ch in F. inversion F as [|? c' ? ? Hc F' Q1 Q2].
  exists c'. split.
  - eapply in_targets; [exact Te|rewrite <- Q2; left; reflexivity|]. destruct (built_deep _ _ _ _ _ Bu' _ Te) as [i [Fi _]]. rewrite Fi.
    destruct (target_info _ _ _ _ _ _ _ L) as [t Ht]. pose proof (type_info _ _ _ _ (beside_same E M m src m' dst ST _ _ _ _ (mir_beside _ _ _ _ _ _ _ _ _ _ Hm)) Ht) as Ht'.
    pose proof (has_info_fun _ _ _ _ (final_info_some _ _ _ Fi) Ht') as ->. exists t. reflexivity.
  - rewrite (target_place _ _ _ _ _ _ _ _ _ _ _ _ _ L (mir_beside _ _ _ _ _ _ _ _ _ _ Hc)). cbn [rebase v_addr]. lia.
Qed.
Lemma freed_tree : forall ord k mm, (forall x, Permutation (ord x) x) -> new_memory_map E (dag M) k m' dst = Ret (Some mm) -> mm_top mm = top' ->
  Permutation (freed ord mm) (map fst new).
Proof.
  intros ord k mm PO H Q. apply map_built in H. destruct H as [_ _ _ NA NI From All Off]. specialize (All eq_refl). cbn [dag mo_tree] in Off. rewrite Q in *.
  assert (HN : forall h, In h (hash_of mm) -> In (h_addr h, h_size h) new).
  { intros h I. destruct (From h I) as [c [T ->]]. cbn [hb h_addr h_size]. apply target_block. exact T. }
  assert (SO : forall h, In h (hash_of mm) -> strong mm h = true).
  { intros h I. unfold strong. rewrite Off. apply Z.eqb_eq. apply (identify_blocks (fun h => h_addr h)); try assumption; try reflexivity.
    - intros x X. destruct BO as [B1 _]. specialize (B1 _ _ (HN x X)). lia.
    - intros x X. exists x. split; [exact X|]. lia.
    - intros x o X O _ Lt. destruct BO as [B1 B2]. pose proof (B1 _ _ (HN x X)). destruct (B2 _ _ _ _ (HN x X) (HN o O)) as [J|[J|J]]; [injection J; lia|lia|exact J]. }
  apply NoDup_Permutation.
  - unfold freed. apply nodup_map_filter. eapply Permutation_NoDup; [apply Permutation_map, Permutation_sym, PO|exact NA].
  - exact ND.
  - intro a. unfold freed. split; intro I.
    + apply in_map_iff in I. destruct I as [h [<- I]]. apply filter_In in I. destruct I as [I _]. apply (Permutation_in _ (PO _)) in I.
      apply in_map_iff. exists (h_addr h, h_size h). split; [reflexivity|exact (HN h I)].
    + apply in_map_iff in I. destruct I as [b [<- I]]. destruct (block_target b I) as [c [T Qa]]. destruct (All c T) as [h [Ih [Qh _]]].
      apply in_map_iff. exists h. split; [congruence|]. apply filter_In. split; [apply (Permutation_in _ (Permutation_sym (PO _))); exact Ih|apply SO; exact Ih].
Qed.
End Free.

Lemma tree_then_free : forall E M n0 ord ord' cal same_decl k src dst s s' evs z B,
  acyclic (en_db E) n0 -> en_fuel E = (n0 + 3)%nat -> mo_tree M = true -> (forall x, Permutation (ord' x) x) ->
  copy_ex E M ord cal same_decl k src dst s = Ret (true, s') -> calls s s' evs ->
  unfoldable E M (c_mem s) src -> extent E M (c_mem s) [] src z -> same_type (en_db E) src dst -> en_va E (v_entry dst) = false ->
  covered E M (c_mem s) src B ->
  0 < v_addr dst -> v_addr dst + z < 2 ^ 64 -> (forall b w, In (b, w) ((v_addr src, z) :: B) -> apart (v_addr dst) z b w) ->
  fresh_blocks (allocs evs) ((v_addr src, z) :: (v_addr dst, z) :: B) ->
  (mo_uptr M = UPTR_fail \/ mo_uptr M = UPTR_as_one_byte_ptr -> forall x, v_addr dst <= x < v_addr dst + z -> c_mem s x = 0) ->
  (mo_uptr M = UPTR_as_values -> forall anc x t p sz, reaches E M (c_mem s) src anc x -> points (en_db E) (c_mem s) x t p -> p <> 0 -> looks E M (c_mem s) anc x (VLeaf sz) ->
    forall b w, In (b, w) (allocs evs) -> ~ (b <= p < b + w)) ->
  answers_beside E M (c_mem s) src (c_mem s') dst ->
  exists l, free_ex E M ord' k (c_mem s') dst = Ret (1, l) /\ Permutation l (map fst (allocs evs)).
Proof.
  intros E M n0 ord ord' cal sd k src dst s s' evs z B A N Tree PO H Cl UF Ext ST Va Cov D1 D2 Ad Fr Zd OP An.
  pose proof (copy_tree_sound E M ord cal sd Tree k src dst s s' evs z B H Cl UF Ext ST Cov D1 D2 Ad Fr Zd) as UN.
  destruct (copy_map _ _ _ _ _ _ _ _ _ _ H) as [mm Hm]. pose proof (map_built _ _ _ _ _ _ Hm) as [Bu V _ _ _ _ _ _].
  pose proof (copy_mirrored E M (c_mem s) src (c_mem s') dst z (allocs evs) B Tree OP UF Ext ST Cov D1 D2 Ad Fr UN (mm_top mm) Bu V Va An) as MR.
  pose proof (uf_traversable E M (c_mem s) src UF) as TV.
  destruct (map_twin E M n0 A N Tree (c_mem s) src (c_mem s') dst MR TV k mm Hm) as [mm' [Hm' [_ Mi]]].
  pose proof (map_built _ _ _ _ _ _ Hm') as [Bu' V' _ _ _ _ _ _].
  destruct (map_dag _ _ _ _ _ _ Hm') as [mm2 [Hd Qd]]. unfold free_ex. rewrite Hd. cbn [bind]. eexists. split; [reflexivity|]. destruct Fr as [ND [BO _]].
  exact (freed_tree E M (c_mem s) src (c_mem s') dst z (allocs evs) Tree UF ST UN BO ND (mm_top mm) (mm_top mm') Bu V Bu' V' Mi ord' k mm2 PO Hd Qd).
Qed.
Lemma tree_life : forall E M feq n0, finite_types (en_db E) n0 -> en_fuel E = (n0 + 3)%nat -> tame E -> finite_calls E -> mo_tree M = true -> mo_uptr M <> UPTR_as_values ->
  exists k0, forall k, (k0 <= k)%nat -> forall ord ord' cal same_decl src dst s z B L, (forall x, Permutation (ord' x) x) ->
  (forall m', answers_beside E M (c_mem s) src m' src /\ answers_beside E M (c_mem s) src m' dst) ->
  visible E M (c_mem s) src -> writable E M (c_mem s) src -> comparable E M feq (c_mem s) src -> (forall y c, has_info (en_db E) src (IBase y c) -> ~ is_const (en_db E) dst) ->
  (forall f f', final_type (en_db E) (Some (v_entry src)) (Some f) -> final_type (en_db E) (Some (v_entry dst)) (Some f') -> same_decl (Some f) (Some f') = Ret true) ->
  unfoldable E M (c_mem s) src -> extent E M (c_mem s) [] src z -> same_type (en_db E) src dst -> en_va E (v_entry dst) = false ->
  covered E M (c_mem s) src B -> parts_differ E M (c_mem s) src ->
  (forall anc x sz w, reaches E M (c_mem s) src anc x -> looks E M (c_mem s) anc x (VPtr sz w) -> In (anc, x) L) ->
  0 < v_addr dst -> v_addr dst + z < 2 ^ 64 -> (forall b w, In (b, w) ((v_addr src, z) :: B) -> apart (v_addr dst) z b w) ->
  allocates cal (c_calls s) (length L) (fun y => exists anc x sz w, reaches E M (c_mem s) src anc x /\ looks E M (c_mem s) anc x (VPtr sz w) /\ extent E M (c_mem s) (x :: anc) w y)
    ((v_addr src, z) :: (v_addr dst, z) :: B) ->
  (mo_uptr M = UPTR_fail \/ mo_uptr M = UPTR_as_one_byte_ptr -> forall x, v_addr dst <= x < v_addr dst + z -> c_mem s x = 0) ->
  exists s' evs l, copy_ex E M ord cal same_decl k src dst s = Ret (true, s') /\ calls s s' evs /\
    equal_ex E M feq k (c_mem s') src dst = Ret 1 /\
    free_ex E M ord' k (c_mem s') dst = Ret (1, l) /\ Permutation l (map fst (allocs evs)).
Proof.
  intros E M feq n0 FT N Ta FC Tree NV. destruct (copy_tree_total E M n0 FT N Ta FC Tree) as [k0 K]. exists k0.
  intros k Le ord ord' cal sd src dst s z B L PO An Vi Wr CM NC SD UF Ext ST Va Cov PD All D1 D2 Ad Al Zd.
  destruct (K k Le ord cal sd src dst s z B L Vi Wr NC SD UF Ext ST Cov PD All D1 D2 Ad Al Zd) as [s' [evs [H [Cl [Fr _]]]]].
  pose proof (finite_acyclic _ _ FT) as A. destruct (An (c_mem s')) as [An1 An2].
  destruct (tree_then_free E M n0 ord ord' cal sd k src dst s s' evs z B A N Tree PO H Cl UF Ext ST Va Cov D1 D2 Ad Fr Zd (fun Q => False_ind _ (NV Q)) An2) as [l [F P]].
  exists s', evs, l. split; [exact H|]. split; [exact Cl|]. split; [|split; [exact F|exact P]].
  exact (tree_then_equal E M feq n0 ord cal sd k src dst s s' evs z B A N Tree NV H Cl UF CM Ext ST Va Cov D1 D2 Ad Fr Zd An1 An2).
Qed.
