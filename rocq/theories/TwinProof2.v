(** The memory map of the one is the memory map of the other; they compare as equal. *)
From Coq Require Import ZArith String List Bool Lia ZifyBool.
From Verif Require Import Base BaseProof EntryModel EntrySpec EntryProof ValueModel ValueSpec ValueProof ValueProof2 DeepModel DeepSpec DeepProof DeepProof2 DeepProof3 DeepProof4 DeepProof5 DeepProof8 CopySpec CopyProof MoveSpec MoveProof MoveProof2 MoveProof3 MoveProof4 TwinSpec TwinProof.
Import ListNotations.
Open Scope Z_scope.

Section Build.
Variable E : env.
Variable M : mode.
Variable n0 : nat.
Notation n := (en_fuel E).
Notation d := (en_db E).
Hypothesis A : acyclic d n0.
Hypothesis N : n = (n0 + 3)%nat.
Hypothesis Tree : mo_tree M = true.
Variable m : mem.
Variable v : value.
Variable m' : mem.
Variable v' : value.
Hypothesis MR : mirrored E M m v m' v'.
Hypothesis TV : traversable E M m v.
Hypothesis NV : mo_uptr M <> UPTR_as_values.
Notation addr e := (v_addr (me_val e)).
Notation beside := (beside E M m v m' v').

Inductive mir : list value -> ment -> list value -> ment -> Prop :=
| mi_at anc anc' i x x' s l ch ch' : beside anc x anc' x' -> Forall2 (fun c c' => mir (x :: anc) c (x' :: anc') c') ch ch' ->
    mir anc (ME i x s l ch) anc' (ME i x' s l ch').
Lemma mir_size : forall anc e anc' e', mir anc e anc' e' -> me_size e' = me_size e.
Proof. intros anc e anc' e' H. inversion H; subst; auto. Qed.
Lemma part_within : forall anc x sz sz' ch c, reaches E M m v anc x -> looks E M m anc x (VNode sz (map me_val ch)) -> 0 < v_addr x ->
  Forall (built_ok E M m (x :: anc)) ch -> grow x sz ch = Ret sz' -> In c ch -> v_addr x <= addr c /\ 0 <= me_size c /\ addr c + me_size c <= v_addr x + sz'.
Proof.
  intros anc x sz sz' ch c S L A0 F G Ic. rewrite Forall_forall in F. pose proof (F c Ic) as Bc.
  assert (Sc : reaches E M m v (x :: anc) (me_val c)) by (eapply re_node; [exact S|exact L|apply in_map; exact Ic]).
  pose proof (tv_parts _ _ _ _ TV _ _ _ _ _ S L (in_map me_val _ _ Ic)) as P. pose proof (built_extent _ _ _ _ _ Bc) as X.
  destruct (tv_fits _ _ _ _ TV _ _ _ Sc X) as [F1 F3]. pose proof (extent_nonneg _ _ _ _ _ _ X) as F2.
  apply grow_ends in G.
  assert (J : In ((addr c - v_addr x + me_size c) mod 2 ^ 64) (ends x (map me_val ch) (map me_size ch))).
  { clear - Ic. induction ch as [|y l IH]; [destruct Ic|]. destruct Ic as [->|Ic]; [left; reflexivity|right; apply IH; exact Ic]. }
  apply (fold_max_in _ sz) in J. rewrite <- G in J. rewrite Z.mod_small in J by lia. lia.
Qed.
Lemma grow_twin : forall anc anc' x x' ch ch' sz, Forall2 (fun c c' => mir anc c anc' c') ch ch' -> Forall2 (fun c c' => addr c' = addr c - v_addr x + v_addr x') ch ch' ->
  grow x' sz ch' = grow x sz ch.
Proof.
  intros anc anc' x x' ch ch' sz F G. revert sz. induction F as [|c c' ch ch' H F IH]; intro sz; [reflexivity|]. inversion G as [|? ? ? ? G1 G2]; subst.
  pose proof (mir_size _ _ _ _ H) as Q. cbn [grow]. rewrite Q, G1. replace (addr c - v_addr x + v_addr x' <? v_addr x') with (addr c <? v_addr x) by lia.
  replace (addr c - v_addr x + v_addr x' - v_addr x') with (addr c - v_addr x) by lia. destruct (addr c <? v_addr x); [reflexivity|]. apply IH. exact G2.
Qed.
Lemma build_twin : forall k anc x s e s1 anc' x' s', bst_ok s -> build E M k m anc x s = Ret (Some e, s1) -> beside anc x anc' x' ->
  noload E x' -> b_next s' = b_next s ->
  exists e' s1', build E M k m' anc' x' s' = Ret (Some e', s1') /\ me_val e' = x' /\ mir anc e anc' e' /\ b_next s1' = b_next s1.
Proof.
  induction k as [|k IH]; intros anc x s e s1 anc' x' s' O H B NL SN; [discriminate|].
  destruct (build_ok_gen E M _ m anc x s e s1 O H) as [Be [Ve _]].
  pose proof (beside_reaches _ _ _ _ _ _ _ _ _ _ B) as S.
  pose proof (built_extent _ _ _ _ _ Be) as X. rewrite Ve in X. destruct (tv_fits _ _ _ _ TV _ _ _ S X) as [A0 A1]. pose proof (extent_nonneg _ _ _ _ _ _ X) as A2.
  destruct (mr_fits _ _ _ _ _ _ MR _ _ _ _ _ B X) as [A3 A4].
  assert (NZ : v_addr x' <> 0) by lia.
  rewrite build_eq in H. apply bind_ret in H. destruct H as [w [W H]].
  assert (WL : w <> VFail) by (intros ->; discriminate). pose proof (look_sound _ _ _ _ _ _ W WL) as L.
  assert (NP : forall sz ch, w = VNode sz ch -> exists i l sz' s2, e = ME i x sz' 0 l /\ build_list E M k m (x :: anc) ch s = Ret (map Some l, s2) /\ grow x sz l = Ret sz' /\
     Forall (built_ok E M m (x :: anc)) l /\ ch = map me_val l /\ i = fst (fresh s2) /\ s1 = snd (fresh s2)).
  { intros sz ch ->. apply bind_ret in H. destruct H as [[rs s2] [Bl H]]. destruct (all_some rs) as [l|] eqn:AS; [|discriminate]. apply bind_ret in H. destruct H as [sz' [G H]].
    apply all_some_map in AS. subst rs. cbn [fresh] in H. injection H as <- <-. exists (b_next s2), l, sz', s2. split; [reflexivity|]. split; [exact Bl|]. split; [exact G|].
    inversion Be as [? ? ? ? L0|? ? ? ? ? L0|? ? ? ? ? ? L0 F0 G0|? ? ? ? ? L0|? ? ? ? L0]; subst; rewrite W in L0; try discriminate L0. injection L0 as _ Q0. auto. }
  assert (RG : forall sz ch, w = VNode sz ch -> forall y, In y ch -> 0 < v_addr y + (v_addr x' - v_addr x) < 2 ^ 64).
  { intros sz ch QW y Y. destruct (NP _ _ QW) as [i [l [sz' [s2 [-> [Bl [G [F0 [-> [_ _]]]]]]]]]]. subst w. cbn [me_size] in *.
    apply in_map_iff in Y. destruct Y as [c [<- Ic]]. destruct (part_within _ _ _ _ _ c S L A0 F0 G Ic) as [P1 [P2 P3]]. lia. }
  destruct (looks_twin E M m v m' v' MR TV anc x anc' x' w B L RG) as [w' [L' VM]].
  pose proof (look_complete E M n0 A N m' anc' x' w' NZ NL L') as W'. rewrite build_eq, W'. cbn [bind].
  destruct w as [|sz|sz lv|sz ch|sz t|ca]; cbn [view_twin] in VM; [contradiction| | | | |contradiction].
  - subst w'. unfold fresh in *. injection H as <- <-. eexists. eexists. split; [reflexivity|]. split; [reflexivity|]. cbn [b_next]. rewrite SN. split; [|reflexivity]. constructor; [exact B|constructor].
  - subst w'. unfold fresh in *. injection H as <- <-. eexists. eexists. split; [reflexivity|]. split; [reflexivity|]. cbn [b_next]. rewrite SN. split; [|reflexivity]. constructor; [exact B|constructor].
  - subst w'. destruct (NP _ _ eq_refl) as [i [l [sz' [s2 [-> [Bl [G [F0 [-> [-> ->]]]]]]]]]]. clear NP RG H. cbn [me_size] in *.
    assert (BL : forall post s s' s2, bst_ok s -> b_next s' = b_next s -> incl post l -> build_list E M k m (x :: anc) (map me_val post) s = Ret (map Some post, s2) ->
      exists post' s2', build_list E M k m' (x' :: anc') (map (fun y => rebase y (v_addr x) (v_addr x')) (map me_val post)) s' = Ret (map Some post', s2') /\
        Forall2 (fun c c' => mir (x :: anc) c (x' :: anc') c') post post' /\ Forall2 (fun c c' => addr c' = addr c - v_addr x + v_addr x') post post' /\ b_next s2' = b_next s2).
    { clear s s' s2 O SN Bl Be Ve X. induction post as [|c post IHp]; intros s s' s2 O SN IN Bl; cbn in Bl |- *.
      - injection Bl as <-. exists [], s'. repeat split; try constructor; exact SN.
      - apply bind_ret in Bl. destruct Bl as [[y sA] [B1 Bl]]. apply bind_ret in Bl. destruct Bl as [[ys sB] [B2 Bl]]. injection Bl as -> -> ->.
        assert (Ic : In c l) by (apply IN; left; reflexivity).
        destruct (build_ok_gen E M _ m _ _ _ _ _ O B1) as [Bc [_ [Oc _]]].
        edestruct (IH (x :: anc) (me_val c) s c sA (x' :: anc') (rebase (me_val c) (v_addr x) (v_addr x')) s') as [e' [s1' [D1 [D2 [D3 D4]]]]]; try eassumption.
        + eapply bs_part; [exact B|exact L|apply in_map; exact Ic].
        + exact (built_noload _ _ _ _ _ Bc).
        + destruct (IHp sA s1' s2 Oc D4 (fun z Iz => IN z (or_intror Iz)) B2) as [post' [s2' [E1 [E2 [E3 E4]]]]].
          exists (e' :: post'), s2'. rewrite D1. cbn [bind]. rewrite E1. cbn [bind]. split; [reflexivity|]. split; [constructor; assumption|]. split; [|exact E4].
          constructor; [|exact E3]. rewrite D2. reflexivity. }
    destruct (BL l s s' s2 O SN (fun z Iz => Iz) Bl) as [l' [s2' [B1 [B2 [B3 B4]]]]]. rewrite B1. cbn [bind].
    assert (AS : all_some (map Some l') = Some l') by (clear; induction l' as [|a l' IHl]; [reflexivity|cbn; rewrite IHl; reflexivity]). rewrite AS.
    rewrite (grow_twin _ _ x x' l l' sz B2 B3), G. cbn [bind]. unfold fresh in *. cbn [fst snd b_next] in *.
    eexists. eexists. split; [reflexivity|]. split; [reflexivity|]. cbn [b_next]. rewrite B4. split; [|reflexivity]. constructor; assumption.
  - subst w'. apply bind_ret in H. destruct H as [[y sA] [B1 H]]. destruct y as [c|]; [|discriminate]. cbn [fresh] in H. apply bind_ret in H. destruct H as [s2 [B2 H]]. injection H as <- <-.
    unfold register in B2. rewrite Tree in B2. injection B2 as <-.
    destruct (build_ok_gen E M _ m _ _ _ _ _ O B1) as [Bc [Vc [Oc [Gc _]]]].
    edestruct (IH (x :: anc) t s c sA (x' :: anc') (rebase t (number_at m (v_addr x) 8) (number_at m' (v_addr x') 8)) s') as [e' [s1' [D1 [D2 [D3 D4]]]]]; try eassumption.
    + eapply bs_ptr; [exact B|exact L].
    + unfold noload. cbn [rebase v_entry]. rewrite <- Vc. exact (built_noload _ _ _ _ _ Bc).
    + rewrite D1. cbn [bind]. unfold fresh, register. rewrite Tree. cbn [bind].
      eexists. eexists. split; [reflexivity|]. split; [reflexivity|]. cbn [b_next]. rewrite D4. split; [|reflexivity]. constructor; [exact B|]. constructor; [exact D3|constructor].
Qed.
Lemma map_twin : forall k mm, new_memory_map E M k m v = Ret (Some mm) ->
  exists mm', new_memory_map E M k m' v' = Ret (Some mm') /\ mm_off mm' = mm_off mm /\ mir [] (mm_top mm) [] (mm_top mm').
Proof.
  intros k mm H. unfold new_memory_map in H |- *. rewrite Tree in *. apply bind_ret in H. destruct H as [[x s] [B H]].
  destruct x as [top|]; [|discriminate]. injection H as <-.
  assert (O0 : bst_ok (Build_bst O [] [])) by (split; cbn; constructor || (intros ? []) || idtac).
  destruct (build_twin k [] v (Build_bst O [] []) top s [] v' (Build_bst O [] [])) as [e' [s1' [B' [V' [Mi SM]]]]]; try assumption.
  - apply bs_here.
  - exact (mr_load _ _ _ _ _ _ MR).
  - reflexivity.
  - rewrite B'. cbn [bind]. eexists. split; [reflexivity|]. split; [reflexivity|exact Mi].
Qed.
End Build.

Section Two.
Variable E : env.
Variable M : mode.
Variable feq : ctype -> Z -> Z -> bool.
Variable n0 : nat.
Notation n := (en_fuel E).
Notation d := (en_db E).
Hypothesis A : acyclic d n0.
Hypothesis N : n = (n0 + 3)%nat.
Hypothesis Tree : mo_tree M = true.
Variable m : mem.
Variable v : value.
Variable m' : mem.
Variables v1 v2 : value.
Hypothesis MR1 : mirrored E M m v m' v1.
Hypothesis MR2 : mirrored E M m v m' v2.
Hypothesis TV : traversable E M m v.
Hypothesis NV : mo_uptr M <> UPTR_as_values.
Hypothesis CM : comparable E M feq m v.
Hypothesis BM : bytes_ok m'.
Variable o : list (nat * Z).

Lemma twin_number : forall w anc x anc' x' s, mirrored E M m v m' w -> beside E M m v m' w anc x anc' x' -> scalar E M m anc x s false -> 0 <= s ->
  number_at m' (v_addr x') (Z.to_nat s) = number_at m (v_addr x) (Z.to_nat s).
Proof.
  intros w anc x anc' x' s MR B Sc Z. rewrite <- !load_number. pose proof (mr_scalar _ _ _ _ _ _ MR _ _ _ _ _ B Sc) as K.
  assert (G : forall k a b, (forall i, 0 <= i < Z.of_nat k -> m' (a + i) = m (b + i)) -> load m' a k = load m b k).
  { induction k as [|k IH]; intros a b H; [reflexivity|]. cbn [load]. f_equal.
    - specialize (H 0). rewrite !Z.add_0_r in H. apply H. lia.
    - f_equal. apply IH. intros i J. specialize (H (1 + i)). rewrite !Z.add_assoc in H. apply H. lia. }
  apply G. intros i Hi. apply K. lia.
Qed.
Lemma twins_equal : forall e anc anc1 e1 anc2 e2, built_ok E M m anc e -> mir E M m v m' v1 anc e anc1 e1 -> mir E M m v m' v2 anc e anc2 e2 ->
  equal_tree E M feq m' o o e1 e2 = Ret (false, true).
Proof.
  intros e. induction e as [i x s l ch F] using ment_ind2. intros anc anc1 e1 anc2 e2 Be M1 M2. rewrite equal_tree_eq. cbn [me_val] in *.
  destruct (built_info _ _ _ _ _ Be) as [ii [I1 I2]]. apply final_info_some in I1. cbn [me_val] in I1.
  pose proof (built_extent _ _ _ _ _ Be) as X. cbn [me_val me_size] in X.
  inversion M1 as [anc0 anc0' i' x0 x1 s' l' ch0 ch1 B1 F1]; subst. inversion M2 as [anc0 anc0' i' x0 x2 s' l' ch0 ch2 B2 F2]; subst.
  pose proof (beside_reaches _ _ _ _ _ _ _ _ _ _ B1) as Rc.
  pose proof (beside_type _ _ _ _ _ _ MR1 TV _ _ _ _ B1) as T1. pose proof (beside_type _ _ _ _ _ _ MR2 TV _ _ _ _ B2) as T2.
  erewrite here_body; [|apply (info_ret E n0 A N); cbn [me_val]; exact (type_info _ _ _ _ T1 I1)|apply (info_ret E n0 A N); cbn [me_val]; exact (type_info _ _ _ _ T2 I1)|].
  2: { repeat split; cbn [me_size me_ch me_loop me_id]; rewrite <- (forall2_length _ _ _ F1), <- (forall2_length _ _ _ F2); reflexivity. }
  assert (B : exists h, body E M feq m' (ME i x1 s l ch1) (ME i x2 s l ch2) (Some ii) (Some ii) = Ret h /\ pos h).
  { unfold body. destruct ii as [ | |z c| | |z en| | |[] z ml| | | | | ]; try (eexists; split; [reflexivity|exact I]); cbn [me_val me_ch me_size].
    - destruct (CM _ _ Rc) as [C1 _]. destruct (C1 _ _ I1) as [t [K1 [K2 K3]]]. destruct (tv_base _ _ _ _ TV _ _ _ _ Rc I1) as [t' [nm [encs [sg [K1' J1]]]]].
      assert (t' = t) by (eapply has_ctype_fun; eassumption). subst t'.
      apply table_fun in J1. destruct J1 as [_ [Zc _]].
      assert (Zr : 0 < z < 2 ^ 64) by (subst z; pose proof (ct_size_pos t); destruct t; cbn; lia).
      assert (Sz : size_of d x s).
      { inversion X as [anc0 y0 sz0 i0 I0 K0 S0|anc0 y0 sz0 ch0 zs0 L0 F0|anc0 y0 i0 I0 K0]; subst; [assumption| |pose proof (has_info_fun _ _ _ _ I1 I0) as <-; contradiction]. destruct (node_info _ _ _ _ _ _ _ L0) as [i0 [I0 K0]]. pose proof (has_info_fun _ _ _ _ I1 I0) as <-. contradiction. }
      pose proof (info_size E _ _ _ I1 Sz) as Q. cbn in Q. rewrite Z.mod_small in Q by lia. subst s.
      assert (Sc : scalar E M m anc x z false) by (eapply sr_plain; [exact I1|exact I|exact Sz]).
      pose proof (twin_number _ _ _ _ _ _ MR1 B1 Sc ltac:(lia)) as N1. pose proof (twin_number _ _ _ _ _ _ MR2 B2 Sc ltac:(lia)) as N2.
      unfold value_equal_base_type. erewrite (eq_base_make E feq _ _ _ t).
      2: apply all_types_all.
      2: { rewrite N. apply value_is_true; [exact A|]. exact (type_ctype _ _ _ _ T1 K1). }
      2: { rewrite N. apply value_is_true; [exact A|]. exact (type_ctype _ _ _ _ T2 K1). }
      2: { rewrite N. apply value_get_plain; [exact A|exact (type_ctype _ _ _ _ T1 K1)|]. apply T1. exact K2. }
      2: { rewrite N. apply value_get_plain; [exact A|exact (type_ctype _ _ _ _ T2 K1)|]. apply T2. exact K2. }
      rewrite <- Zc, N1, N2. assert (CE : c_equal feq t (number_at m (v_addr x) (Z.to_nat z)) (number_at m (v_addr x) (Z.to_nat z)) = true).
      { unfold c_equal. destruct (is_integer t) eqn:IT; [apply Z.eqb_refl|]. destruct K3 as [K3|[nm' [encs' [b [sg' [J1 J2]]]]]]; [apply c_integer_dec in K3; congruence|].
        apply table_fun in J1. destruct J1 as [_ [J1 _]]. rewrite <- Zc in J1. subst b. exact J2. }
      rewrite CE. eexists. split; reflexivity.
    - cbn [me_ch]. destruct ch1; [|eexists; split; [reflexivity|exact I]]. destruct (mo_uptr M); try (eexists; split; reflexivity). congruence.
    - destruct (CM _ _ Rc) as [_ C2]. specialize (C2 _ _ I1).
      assert (W : word z) by (unfold word; cbn in C2; intuition). assert (Zr : 0 < z < 2 ^ 64) by (unfold word in W; lia).
      assert (Sz : size_of d x s).
      { inversion X as [anc0 y0 sz0 i0 I0 K0 S0|anc0 y0 sz0 ch0 zs0 L0 F0|anc0 y0 i0 I0 K0]; subst; [assumption| |pose proof (has_info_fun _ _ _ _ I1 I0) as <-; contradiction]. destruct (node_info _ _ _ _ _ _ _ L0) as [i0 [I0 K0]]. pose proof (has_info_fun _ _ _ _ I1 I0) as <-. contradiction. }
      pose proof (info_size E _ _ _ I1 Sz) as Q. cbn in Q. rewrite Z.mod_small in Q by lia. subst s.
      assert (Sc : scalar E M m anc x z false) by (eapply sr_plain; [exact I1|exact I|exact Sz]).
      pose proof (twin_number _ _ _ _ _ _ MR1 B1 Sc ltac:(lia)) as N1. pose proof (twin_number _ _ _ _ _ _ MR2 B2 Sc ltac:(lia)) as N2.
      erewrite (enum_eq_make E).
      2: { rewrite N. eapply enum_read; [exact A|exact BM|exact (type_info _ _ _ _ T1 I1)|exact W]. }
      2: { rewrite N. eapply enum_read; [exact A|exact BM|exact (type_info _ _ _ _ T2 I1)|exact W]. }
      rewrite N1, N2, Z.eqb_refl. eexists. split; reflexivity.
    - destruct (mo_union M) eqn:UM; try (eexists; split; [reflexivity|exact I]). cbn [me_ch]. destruct ch1; [|eexists; split; [reflexivity|exact I]].
      inversion F1; subst.
      destruct (built_looks _ _ _ _ _ Be) as [w [_ [L K]]]. cbn [me_val me_size me_ch me_loop] in *.
      assert (Lw : looks E M m anc x (VNode s [])).
      { destruct w as [ |sz|sz l0|sz c|sz y|ca]; try contradiction.
        - exfalso. eapply union_view; [exact I1|exact L|exact I].
        - exfalso. eapply union_view; [exact I1|exact L|exact I].
        - destruct K as [_ [-> [_ G]]]. cbn in G. injection G as ->. exact L.
        - exfalso. eapply union_view; [exact I1|exact L|exact I].
        - exfalso. eapply union_view; [exact I1|exact L|exact I]. }
      assert (Sc : scalar E M m anc x s false) by (eapply sr_union; [exact I1|exact UM|exact Lw]).
      pose proof (mr_scalar _ _ _ _ _ _ MR1 _ _ _ _ _ B1 Sc) as N1. pose proof (mr_scalar _ _ _ _ _ _ MR2 _ _ _ _ _ B2 Sc) as N2.
      rewrite mem_equal_bytes; [|intros j J; rewrite N1, N2 by lia; reflexivity]. cbn [negb]. rewrite andb_false_r. eexists; split; [reflexivity|exact I]. }
  destruct B as [h [B P]]. rewrite B. cbn [bind]. destruct h as [r|[]]; [rewrite P; reflexivity|]. cbn [me_ch].
  assert (CH : forall c, In c ch -> built_ok E M m (x :: anc) c).
  { intros c Ic. inversion Be as [ | |anc0 i0 v0 sz sz' ch0 L Fc G|anc0 i0 v0 sz c0 L B0|anc0 i0 v0 ch0 L Fc]; subst; cbn [me_ch me_val] in *; try (destruct Ic; fail).
    - rewrite Forall_forall in Fc. apply Fc; exact Ic.
    - destruct Ic as [<-|[]]. exact B0.
    - rewrite Forall_forall in Fc. apply Fc; exact Ic. }
  clear M1 M2 Be B P X. revert ch1 ch2 F1 F2. induction F as [|a ch P F IH]; intros ch1 ch2 F1 F2.
  - inversion F1; inversion F2; subst. reflexivity.
  - inversion F1 as [|? b1 ? l1 G1 G1']; inversion F2 as [|? b2 ? l2 G2 G2']; subst. cbn [equal_list].
    rewrite (P _ _ _ _ _ (CH a (or_introl eq_refl)) G1 G2). cbn [bind]. rewrite IH; [reflexivity| |assumption|assumption]. intros c Ic. apply CH. right. exact Ic.
Qed.
End Two.

Lemma mirrored_equal : forall E M feq n0 m v m' v1 v2 k mm, acyclic (en_db E) n0 -> en_fuel E = (n0 + 3)%nat -> mo_tree M = true -> mo_uptr M <> UPTR_as_values ->
  mirrored E M m v m' v1 -> mirrored E M m v m' v2 -> traversable E M m v -> comparable E M feq m v -> bytes_ok m' ->
  new_memory_map E M k m v = Ret (Some mm) -> equal_ex E M feq k m' v1 v2 = Ret 1.
Proof.
  intros E M feq n0 m v m' v1 v2 k mm A N Tree NV MR1 MR2 TV CM BM H.
  destruct (map_twin E M n0 A N Tree m v m' v1 MR1 TV k mm H) as [mm1 [H1 [O1 M1]]].
  destruct (map_twin E M n0 A N Tree m v m' v2 MR2 TV k mm H) as [mm2 [H2 [O2 M2]]].
  apply (equal_ex_make E M feq k m' v1 v2 mm1 mm2 true H1 H2).
  pose proof (map_built _ _ _ _ _ _ H) as [Bu V _ _ _ _ _ _]. rewrite O1, O2.
  eapply (twins_equal E M feq n0 A N Tree m v m' v1 v2); eassumption.
Qed.
