(** Moved data are equal. *)
From Coq Require Import ZArith String List Bool Lia ZifyBool.
From Verif Require Import Base BaseProof EntryModel EntrySpec EntryProof ValueModel ValueSpec ValueProof ValueProof2 DeepModel DeepSpec DeepProof DeepProof2 DeepProof3 DeepProof4 DeepProof5 DeepProof8 CopySpec CopyProof MoveSpec MoveProof MoveProof2 MoveProof3.
Import ListNotations.
Open Scope Z_scope.

Section Map.
Variable E : env.
Variable M : mode.
Variable n0 : nat.
Notation n := (en_fuel E).
Notation d := (en_db E).
Hypothesis A : acyclic d n0.
Hypothesis N : n = (n0 + 3)%nat.
Variable m : mem.
Variable v : value.
Variable m' : mem.
Variable v' : value.
Variable R : list region.
Hypothesis RL : relocated E M m v m' v' R.
Hypothesis MV : movable E M m v.
Hypothesis NV : mo_uptr M <> UPTR_as_values.

Lemma map_move : forall k mm, new_memory_map E M k m v = Ret (Some mm) ->
  exists mm', new_memory_map E M k m' v' = Ret (Some mm') /\ me_val (mm_top mm') = v' /\ mirror E R (mm_top mm) (mm_top mm') /\ Forall2 (hmirror R) (hash_of mm) (hash_of mm').
Proof.
  intros k mm H. pose proof (map_built _ _ _ _ _ _ H) as [Bu V _ _ _ _ _ _]. unfold new_memory_map in H |- *. apply bind_ret in H. destruct H as [[x s] [B H]].
  destruct x as [top|]; [|discriminate].
  assert (Q : mm_top mm = top). { destruct (mo_tree M); injection H as <-; reflexivity. } rewrite Q in *.
  pose proof (built_extent _ _ _ _ _ Bu) as X. rewrite V in X. destruct (rl_top _ _ _ _ _ _ _ RL _ X) as [r [Ir [Rr Qr]]].
  assert (O0 : bst_ok (Build_bst O [] [])) by (split; cbn; constructor || (intros ? []) || idtac).
  destruct (build_move E M n0 A N m v m' v' R RL MV NV k [] v (Build_bst O [] []) top s [] v' (Build_bst O [] []) r) as [e' [s1' [B' [V' [Mi SM]]]]]; try assumption.
  - apply se_here.
  - constructor.
  - exact (rl_type _ _ _ _ _ _ _ RL).
  - exact (rl_load _ _ _ _ _ _ _ RL).
  - constructor; cbn; [reflexivity|split; reflexivity|constructor].
  - rewrite B'. cbn [bind]. destruct (mo_tree M); injection H as <-; eexists; (split; [reflexivity|]); cbn [mm_top hash_of mm_hash] in *; (split; [assumption|]); (split; [assumption|]); [constructor|exact (sm_hash _ _ _ SM)].
Qed.

(** offsets *)
Lemma off_move : forall k mm mm' B, new_memory_map E M k m v = Ret (Some mm) -> new_memory_map E M k m' v' = Ret (Some mm') -> Forall2 (hmirror R) (hash_of mm) (hash_of mm') ->
  (mo_tree M = false -> local E m /\ coherent E M m v /\ blocks_ok B /\ held E M m v B) ->
  forall i, off_of (mm_off mm') i = off_of (mm_off mm) i.
Proof.
  intros k mm mm' B H H' F P i. pose proof (map_built _ _ _ _ _ _ H') as [_ _ _ NA' NI' _ _ Off']. pose proof (map_built _ _ _ _ _ _ H) as [Bu V Ni NA NI From All Off].
  rewrite Off, Off'. destruct (mo_tree M); [reflexivity|]. specialize (All eq_refl). destruct (P eq_refl) as [L [C [OK Hd]]].
  pose proof (pointee_target _ _ _ _ _ Bu V L C) as PT. pose proof (target_pointee _ _ _ _ _ Bu V) as TP.
  assert (HP : forall h, In h (hash_of mm) -> exists w, v_addr w = h_addr h /\ pointee E M m v w (h_size h)).
  { intros h I. destruct (From h I) as [c [T ->]]. exists (me_val c). split; [reflexivity|]. apply TP. exact T. }
  assert (PH : forall w z, pointee E M m v w z -> exists h, In h (hash_of mm) /\ h_addr h = v_addr w /\ z <= h_size h).
  { intros w z Pw. destruct (PT w z Pw) as [c [T [<- <-]]]. apply All. exact T. }
  assert (BL : forall h, In h (hash_of mm) -> exists b s, In (b, s) B /\ start B (h_addr h) = b /\ 0 < h_size h /\ b <= h_addr h /\ h_addr h + h_size h <= b + s).
  { intros h I. destruct (HP h I) as [w [W Pw]]. destruct (Hd w _ Pw) as [Z [[b s] [Ib [[W1 W2] _]]]]. cbn in W1, W2. exists b, s. split; [exact Ib|].
    split; [|split; [exact Z|lia]]. eapply start_block; [exact OK|exact Ib|]. lia. }
  apply (offsets_move R (rl_fits _ _ _ _ _ _ _ RL) (rl_src _ _ _ _ _ _ _ RL) (rl_dst _ _ _ _ _ _ _ RL) (fun h => start B (h_addr h))); try assumption.
  - intros x X. destruct (BL x X) as [b [s [Ib [S [Z [L1 L2]]]]]]. destruct OK as [OK _]. specialize (OK _ _ Ib). lia.
  - intros x X. destruct (HP x X) as [w [W Pw]]. destruct (Hd w _ Pw) as [Z [[b s] [Ib [[W1 W2] [w' [z' [P' [A' [[A1 A2] A3]]]]]]]]]. cbn in *.
    destruct (PH _ _ P') as [o [O1 [O2 O3]]]. exists o.
    assert (Sx : start B (h_addr x) = b) by (eapply start_block; [exact OK|exact Ib|lia]).
    destruct (Hd w' _ P') as [Z' _].
    assert (So : start B (h_addr o) = b) by (eapply start_block; [exact OK|exact Ib|lia]).
    split; [exact O1|]. split; [congruence|]. split; [congruence|]. lia.
  - intros x o X Xo Q Lt. destruct (BL x X) as [b [s [Ib [S [Z [L1 L2]]]]]]. destruct (BL o Xo) as [b' [s' [Ib' [S' [Z' [L1' L2']]]]]].
    rewrite S, S' in *. destruct OK as [_ OK]. destruct (OK _ _ _ _ Ib Ib') as [K|[K|K]]; [injection K as -> ->; lia|lia|lia].
Qed.
End Map.

Lemma type_ctype : forall d x y k, same_type d x y -> has_ctype d x k -> has_ctype d y k.
Proof. intros d x y k [T _] (a & b & c & e & f & I & J & (g & h & i & F & G)). exists a, b, c, e, f. split; [exact I|]. split; [exact J|]. exists g, h, i. split; [apply T; exact F|exact G]. Qed.
Lemma mem_equal_bytes : forall m k a b, (forall i, 0 <= i < Z.of_nat k -> m (a + i) = m (b + i)) -> mem_equal m a b k = true.
Proof.
  intros m k. induction k as [|k IH]; intros a b H; [reflexivity|]. cbn [mem_equal]. apply andb_true_intro. split.
  - apply Z.eqb_eq. specialize (H 0). rewrite !Z.add_0_r in H. apply H. lia.
  - apply IH. intros i J. specialize (H (1 + i)). rewrite !Z.add_assoc in H. apply H. lia.
Qed.

Section Two.
Variable E : env.
Variable M : mode.
Variable feq : ctype -> Z -> Z -> bool.
Variable n0 : nat.
Notation n := (en_fuel E).
Notation d := (en_db E).
Hypothesis A : acyclic d n0.
Hypothesis N : n = (n0 + 3)%nat.
Variable m : mem.
Variable v : value.
Variable m' : mem.
Variables v1 v2 : value.
Variables R1 R2 : list region.
Hypothesis RL1 : relocated E M m v m' v1 R1.
Hypothesis RL2 : relocated E M m v m' v2 R2.
Hypothesis MV : movable E M m v.
Hypothesis NV : mo_uptr M <> UPTR_as_values.
Hypothesis CM : comparable E M feq m v.
Hypothesis BM : bytes_ok m'.
Variables o1 o2 : list (nat * Z).
Hypothesis OO : forall i, off_of o1 i = off_of o2 i.

Lemma mirror_bytes : forall R w anc x x' s, relocated E M m v m' w R -> sees E M m v anc x -> scalar E M m anc x s false -> mplace E R x x' s ->
  forall i, 0 <= i < s -> m' (v_addr x' + i) = m (v_addr x + i).
Proof. intros R w anc x x' s RL S Sc [_ [r [Ir [Rr Q]]]] i Hi. rewrite Q. eapply (rl_scalar _ _ _ _ _ _ _ RL); eassumption. Qed.
Lemma mirror_number : forall R w anc x x' s, relocated E M m v m' w R -> sees E M m v anc x -> scalar E M m anc x s false -> mplace E R x x' s -> 0 <= s ->
  number_at m' (v_addr x') (Z.to_nat s) = number_at m (v_addr x) (Z.to_nat s).
Proof.
  intros R w anc x x' s RL S Sc P Z. rewrite <- !load_number. pose proof (mirror_bytes _ _ _ _ _ _ RL S Sc P) as K.
  assert (G : forall k a b, (forall i, 0 <= i < Z.of_nat k -> m' (a + i) = m (b + i)) -> load m' a k = load m b k).
  { induction k as [|k IH]; intros a b H; [reflexivity|]. cbn [load]. f_equal.
    - specialize (H 0). rewrite !Z.add_0_r in H. apply H. lia.
    - f_equal. apply IH. intros i J. specialize (H (1 + i)). rewrite !Z.add_assoc in H. apply H. lia. }
  apply G. intros i Hi. apply K. lia.
Qed.
Lemma union_view : forall anc x z l w, has_info d x (IAggr AUnion z l) -> looks E M m anc x w -> match w with VLeaf _ | VLoop _ _ | VPtr _ _ | VCall _ => True | _ => False end -> False.
Proof.
  intros anc x z l w I L K. inversion L as [s i I' K' S|s t P S|s t p P P0 NL O H U S|s t p c P P0 LP S|s p y T NL S| | | | |i l0 I' K' C' H']; subst; try contradiction.
  - pose proof (has_info_fun _ _ _ _ I I') as <-. contradiction.
  - apply points_info in P. pose proof (has_info_fun _ _ _ _ I P). discriminate.
  - apply points_info in P. pose proof (has_info_fun _ _ _ _ I P). discriminate.
  - apply points_info in P. pose proof (has_info_fun _ _ _ _ I P). discriminate.
  - destruct (target_ptr _ _ _ _ _ _ _ T) as [t [q P]]. apply points_info in P. pose proof (has_info_fun _ _ _ _ I P). discriminate.
  - pose proof (has_info_fun _ _ _ _ I I') as <-. contradiction.
Qed.
Lemma two_equal : forall e anc e1 e2, built_ok E M m anc e -> reaches E M m v anc (me_val e) -> mirror E R1 e e1 -> mirror E R2 e e2 ->
  equal_tree E M feq m' o1 o2 e1 e2 = Ret (false, true).
Proof.
  intros e. induction e as [i x s l ch F] using ment_ind2. intros anc e1 e2 Be Rc M1 M2. pose proof (reaches_sees _ _ _ _ _ _ Rc) as S. rewrite equal_tree_eq. cbn [me_val] in *.
  destruct (built_info _ _ _ _ _ Be) as [ii [I1 I2]]. apply final_info_some in I1. cbn [me_val] in I1.
  pose proof (built_extent _ _ _ _ _ Be) as X. cbn [me_val me_size] in X.
  inversion M1 as [i' x0 x1 s' l' ch0 ch1 P1 F1]; subst. inversion M2 as [i' x0 x2 s' l' ch0 ch2 P2 F2]; subst.
  pose proof P1 as [T1 _]. pose proof P2 as [T2 _].
  erewrite here_body; [|apply (info_ret E n0 A N); cbn [me_val]; exact (type_info _ _ _ _ T1 I1)|apply (info_ret E n0 A N); cbn [me_val]; exact (type_info _ _ _ _ T2 I1)|].
  2: { repeat split; cbn [me_size me_ch me_loop me_id]; [rewrite <- (forall2_length _ _ _ F1), <- (forall2_length _ _ _ F2); reflexivity|apply OO]. }
  assert (B : exists h, body E M feq m' (ME i x1 s l ch1) (ME i x2 s l ch2) (Some ii) (Some ii) = Ret h /\ pos h).
  { unfold body. destruct ii as [ | |z c| | |z en| | |[] z ml| | | | | ]; try (eexists; split; [reflexivity|exact I]); cbn [me_val me_ch me_size].
    - destruct (CM _ _ Rc) as [C1 _]. destruct (C1 _ _ I1) as [t [K1 [K2 K3]]]. destruct (mv_base _ _ _ _ MV _ _ _ _ S I1) as [t' [nm [encs [sg [K1' J1]]]]].
      assert (t' = t) by (eapply has_ctype_fun; eassumption). subst t'.
      apply table_fun in J1. destruct J1 as [_ [Zc _]].
      assert (Zr : 0 < z < 2 ^ 64) by (subst z; pose proof (ct_size_pos t); destruct t; cbn; lia).
      assert (Sz : size_of d x s).
      { inversion X as [anc0 y0 sz0 i0 I0 K0 S0|anc0 y0 sz0 ch0 zs0 L0 F0|anc0 y0 i0 I0 K0]; subst; [assumption| |pose proof (has_info_fun _ _ _ _ I1 I0) as <-; contradiction]. destruct (node_info _ _ _ _ _ _ _ L0) as [i0 [I0 K0]]. pose proof (has_info_fun _ _ _ _ I1 I0) as <-. contradiction. }
      pose proof (info_size E _ _ _ I1 Sz) as Q. cbn in Q. rewrite Z.mod_small in Q by lia. subst s.
      assert (Sc : scalar E M m anc x z false) by (eapply sr_plain; [exact I1|exact I|exact Sz]).
      pose proof (mirror_number _ _ _ _ _ _ RL1 S Sc P1 ltac:(lia)) as N1. pose proof (mirror_number _ _ _ _ _ _ RL2 S Sc P2 ltac:(lia)) as N2.
      unfold value_equal_base_type. erewrite (eq_base_make E feq _ _ _ t).
      2: apply all_types_all.
      2: { rewrite N. apply value_is_true; [exact A|]. exact (type_ctype _ _ _ _ T1 K1). }
      2: { rewrite N. apply value_is_true; [exact A|]. exact (type_ctype _ _ _ _ T2 K1). }
      2: { rewrite N. apply value_get_plain; [exact A|exact (type_ctype _ _ _ _ T1 K1)|]. apply T1. exact K2. }
      2: { rewrite N. apply value_get_plain; [exact A|exact (type_ctype _ _ _ _ T2 K1)|]. apply T2. exact K2. }
      rewrite <- Zc, N1, N2. assert (CE : c_equal feq t (number_at m (v_addr x) (Z.to_nat z)) (number_at m (v_addr x) (Z.to_nat z)) = true).
      { unfold c_equal. destruct (is_integer t) eqn:IT; [apply Z.eqb_refl|]. destruct K3 as [K3|[nm' [encs' [b [sg' [J1 J2]]]]]]; [apply c_integer_dec in K3; congruence|].
        apply table_fun in J1. destruct J1 as [_ [J1 _]]. rewrite <- Zc in J1. subst b. exact J2. }
      rewrite CE. eexists. split; reflexivity.
    - cbn [me_ch]. destruct ch1; [|eexists; split; [reflexivity|exact I]]. destruct (mo_uptr M); try (eexists; split; reflexivity). congruence.
    - destruct (CM _ _ Rc) as [_ C2]. specialize (C2 _ _ I1).
      assert (W : word z) by (unfold word; cbn in C2; intuition). assert (Zr : 0 < z < 2 ^ 64) by (unfold word in W; lia).
      assert (Sz : size_of d x s).
      { inversion X as [anc0 y0 sz0 i0 I0 K0 S0|anc0 y0 sz0 ch0 zs0 L0 F0|anc0 y0 i0 I0 K0]; subst; [assumption| |pose proof (has_info_fun _ _ _ _ I1 I0) as <-; contradiction]. destruct (node_info _ _ _ _ _ _ _ L0) as [i0 [I0 K0]]. pose proof (has_info_fun _ _ _ _ I1 I0) as <-. contradiction. }
      pose proof (info_size E _ _ _ I1 Sz) as Q. cbn in Q. rewrite Z.mod_small in Q by lia. subst s.
      assert (Sc : scalar E M m anc x z false) by (eapply sr_plain; [exact I1|exact I|exact Sz]).
      pose proof (mirror_number _ _ _ _ _ _ RL1 S Sc P1 ltac:(lia)) as N1. pose proof (mirror_number _ _ _ _ _ _ RL2 S Sc P2 ltac:(lia)) as N2.
      erewrite (enum_eq_make E).
      2: { rewrite N. eapply enum_read; [exact A|exact BM|exact (type_info _ _ _ _ T1 I1)|exact W]. }
      2: { rewrite N. eapply enum_read; [exact A|exact BM|exact (type_info _ _ _ _ T2 I1)|exact W]. }
      rewrite N1, N2, Z.eqb_refl. eexists. split; reflexivity.
    - destruct (mo_union M) eqn:UM; try (eexists; split; [reflexivity|exact I]). cbn [me_ch]. destruct ch1; [|eexists; split; [reflexivity|exact I]].
      inversion F1; subst.
      destruct (built_looks _ _ _ _ _ Be) as [w [_ [L K]]]. cbn [me_val me_size me_ch me_loop] in *.
      assert (Lw : looks E M m anc x (VNode s [])).
      { destruct w as [ |sz|sz l0|sz c|sz y|ca]; try contradiction.
        - exfalso. exact (union_view _ _ _ _ _ I1 L I).
        - exfalso. exact (union_view _ _ _ _ _ I1 L I).
        - destruct K as [_ [-> [_ G]]]. cbn in G. injection G as ->. exact L.
        - exfalso. exact (union_view _ _ _ _ _ I1 L I).
        - exfalso. exact (union_view _ _ _ _ _ I1 L I). }
      assert (Sc : scalar E M m anc x s false) by (eapply sr_union; [exact I1|exact UM|exact Lw]).
      pose proof (mirror_bytes _ _ _ _ _ _ RL1 S Sc P1) as N1. pose proof (mirror_bytes _ _ _ _ _ _ RL2 S Sc P2) as N2.
      rewrite mem_equal_bytes; [|intros j J; rewrite N1, N2 by lia; reflexivity]. cbn [negb]. rewrite andb_false_r. eexists; split; [reflexivity|exact I]. }
  destruct B as [h [B P]]. rewrite B. cbn [bind]. destruct h as [r|[]]; [rewrite P; reflexivity|]. cbn [me_ch].
  assert (CH : forall c, In c ch -> built_ok E M m (x :: anc) c /\ reaches E M m v (x :: anc) (me_val c)).
  { intros c Ic. inversion Be as [ | |anc0 i0 v0 sz sz' ch0 L Fc G|anc0 i0 v0 sz c0 L B0|anc0 i0 v0 ch0 L Fc]; subst; cbn [me_ch me_val] in *; try (destruct Ic; fail).
    - apply look_sound in L; [|discriminate]. rewrite Forall_forall in Fc. split; [apply Fc; exact Ic|]. eapply re_node; try eassumption; apply in_map; exact Ic.
    - pose proof L as L'. apply look_sound in L; [|discriminate]. destruct Ic as [<-|[]]. split; [exact B0|]. eapply re_ptr; eassumption.
    - exfalso. apply look_sound in L; [|discriminate]. destruct (call_info _ _ _ _ _ _ L) as [ic [Hc Kc]]. exact (mv_data _ _ _ _ MV _ _ _ S Hc Kc). }
  clear M1 M2 Be P1 P2 B P. revert ch1 ch2 F1 F2. induction F as [|a ch P F IH]; intros ch1 ch2 F1 F2.
  - inversion F1; inversion F2; subst. reflexivity.
  - inversion F1 as [|? b1 ? l1 G1 G1']; inversion F2 as [|? b2 ? l2 G2 G2']; subst. cbn [equal_list]. destruct (CH a (or_introl eq_refl)) as [D1 D2].
    rewrite (P _ _ _ D1 D2 G1 G2). cbn [bind]. rewrite IH; [reflexivity| |assumption|assumption]. intros c Ic. apply CH. right. exact Ic.
Qed.
End Two.

Lemma relocated_equal : forall E M feq n0 m v m' v1 v2 R1 R2 k mm B, acyclic (en_db E) n0 -> en_fuel E = (n0 + 3)%nat ->
  relocated E M m v m' v1 R1 -> relocated E M m v m' v2 R2 -> movable E M m v -> comparable E M feq m v -> bytes_ok m' ->
  mo_uptr M <> UPTR_as_values ->
  (mo_tree M = false -> local E m /\ coherent E M m v /\ blocks_ok B /\ held E M m v B) ->
  new_memory_map E M k m v = Ret (Some mm) -> equal_ex E M feq k m' v1 v2 = Ret 1.
Proof.
  intros E M feq n0 m v m' v1 v2 R1 R2 k mm B A N RL1 RL2 MV CM BM NV HB H.
  destruct (map_move E M n0 A N m v m' v1 R1 RL1 MV NV k mm H) as [mm1 [H1 [V1 [M1 F1]]]].
  destruct (map_move E M n0 A N m v m' v2 R2 RL2 MV NV k mm H) as [mm2 [H2 [V2 [M2 F2]]]].
  apply (equal_ex_make E M feq k m' v1 v2 mm1 mm2 true H1 H2).
  pose proof (map_built _ _ _ _ _ _ H) as [Bu V _ _ _ _ _ _].
  eapply (two_equal E M feq n0 A N m v m' v1 v2 R1 R2); try eassumption.
  - intro i. rewrite (off_move E M n0 N m v m' v1 R1 RL1 k mm mm1 B H H1 F1 HB i), (off_move E M n0 N m v m' v2 R2 RL2 k mm mm2 B H H2 F2 HB i). reflexivity.
  - rewrite V. apply re_here.
Qed.
