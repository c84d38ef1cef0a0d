(** The start state of the traversal finds out what the specification says. *)
From Coq Require Import ZArith String List Bool Lia ZifyBool.
From Verif Require Import Base BaseProof EntryModel EntrySpec EntryProof ValueModel ValueSpec ValueProof ValueProof2 DeepModel DeepSpec DeepProof DeepProof2.
Import ListNotations.
Open Scope Z_scope.

Lemma swrap_int : forall c, swrap 32 c = int_of c.
Proof. reflexivity. Qed.
Lemma int_range : forall c, - 2 ^ 31 <= int_of c < 2 ^ 31.
Proof. intro c. unfold int_of. pose proof (Z.mod_pos_bound (c + 2 ^ 31) (2 ^ 32) eq_refl). change (2 ^ 32) with (2 ^ 31 + 2 ^ 31) in *. lia. Qed.

Section Look.
Variable E : env.
Variable M : mode.
Notation n := (en_fuel E).
Notation d := (en_db E).

Lemma final_info_some : forall v i, final_info E v = Ret (Some i) -> has_info d v i.
Proof.
  intros v i H. unfold final_info in H. apply bind_ret in H. destruct H as [[e|] [F H]]; [|discriminate].
  apply final_if_some in F. exists e. split; [apply F|]. injection H as <-. reflexivity.
Qed.
Lemma has_info_fun : forall v i i', has_info d v i -> has_info d v i' -> i = i'.
Proof. intros v i i' [e [A B]] [e' [A' B']]. pose proof (final_type_fun _ _ _ _ A A') as Q. injection Q as <-. congruence. Qed.
Lemma size_ret : forall p z, byte_size n d (Some p) = Ret (inl z) -> exists z', has_size d (Some p) z' /\ z = z' mod 2 ^ 64.
Proof. intros p z H. apply byte_size_spec in H. exact H. Qed.
Lemma pointer_ret : forall m v p, value_pointer n d m v = Ret (inr p) -> exists t, points d m v t p.
Proof.
  intros m v p H. unfold value_pointer in H. apply bind_ret in H. destruct H as [[e|] [F H]]; [|discriminate].
  apply final_if_some in F. destruct F as [F1 F2]. destruct (e_info (deref d e)) as [ | | |t| | | | | | | | | | ] eqn:I; try discriminate.
  exists t. split; [exists e; split; assumption|]. rewrite <- load_number. congruence.
Qed.
Lemma pointer_ret_no : forall m v x, value_pointer n d m v = Ret (inl x) -> forall t p, ~ points d m v t p.
Proof.
  intros m v x H t p [[e [P1 P2]] _]. unfold value_pointer in H. apply bind_ret in H. destruct H as [[e'|] [F H]]; [discriminate|].
  apply final_if_inv in F. destruct F as [f [F1 F2]]. pose proof (final_type_fun _ _ _ _ F1 P1) as ->. rewrite P2 in F2. cbn in F2. discriminate.
Qed.
Lemma points_fun : forall m v t p t' p', points d m v t p -> points d m v t' p' -> t = t' /\ p = p'.
Proof.
  intros m v t p t' p' [A ->] [B ->]. split; [|reflexivity]. pose proof (has_info_fun _ _ _ A B) as Q. congruence.
Qed.

Lemma members_sound : forall v l e k z c i ch, final_type d (Some (v_entry v)) (Some e) -> e_info (deref d e) = IAggr k z l -> (length l = i + c)%nat ->
  members_from E v c (Z.of_nat i) = Ret (Some ch) -> Forall2 (member_is d v) (skipn i l) ch.
Proof.
  intros v l e k z c. induction c as [|c IH]; intros i ch F I L H; cbn in H.
  - injection H as <-. rewrite skipn_all2 by lia. constructor.
  - apply bind_ret in H. destruct H as [[w|] [N H]]; [|discriminate].
    apply bind_ret in H. destruct H as [r [R H]]. destruct r as [r|]; [|discriminate]. cbn in H. injection H as <-.
    replace (Z.of_nat i + 1) with (Z.of_nat (S i)) in R by lia.
    assert (NZ : v_addr w <> 0).
    { unfold new_value_by_member_id in N. apply bind_ret in N. destruct N as [[e'|] [_ N]]; [|discriminate].
      apply bind_ret in N. destruct N as [mc [_ N]]. destruct ((Z.of_nat i <? 0) || (mc <=? Z.of_nat i)); [discriminate|].
      apply bind_ret in N. destruct N as [[q|] [_ N]]; [|discriminate]. destruct (e_info (deref d q)); try discriminate.
      injection N as N. apply new_value_some in N. destruct N as [_ [NZ ->]]. exact NZ. }
    destruct (member_sound _ _ _ _ _ _ N) as [l' [r' [mi [A1 [A2 [A3 [A4 [A5 A6]]]]]]]].
    assert (Q : l' = l). { eapply aggr_fun; [exact A1|]. exists e, k, z. split; assumption. } subst l'.
    rewrite Nat2Z.id in A3.
    assert (S : skipn i l = r' :: skipn (S i) l).
    { clear - A3. revert l A3. induction i as [|i IHi]; intros [|a l] A3; try discriminate; cbn in *; [congruence|]. apply IHi. exact A3. }
    rewrite S. constructor; [|apply IH; try assumption; lia].
    exists mi. split; [exact A4|]. split; [|exact NZ]. destruct w as [we wa]. cbn in *. subst. reflexivity.
Qed.
Lemma elements_sound : forall w c i ch, elements_from E w c (Z.of_nat i) = Ret (Some ch) ->
  length ch = c /\ (ch <> [] -> exists t k r z, has_info d w (IArray t k) /\ t = Some r /\ has_size d (Some (St r)) z /\
       forall j y, nth_error ch j = Some y -> element_is w r z (i + j) y).
Proof.
  intros w c. induction c as [|c IH]; intros i ch H; cbn in H.
  - injection H as <-. split; [reflexivity|]. intro N. exfalso. apply N. reflexivity.
  - apply bind_ret in H. destruct H as [[x|] [N H]]; [|discriminate].
    apply bind_ret in H. destruct H as [r [R H]]. destruct r as [r|]; [|discriminate]. cbn in H. injection H as <-.
    replace (Z.of_nat i + 1) with (Z.of_nat (S i)) in R by lia. destruct (IH _ _ R) as [I1 I2].
    destruct (element_sound _ _ _ _ _ _ N) as [t [k [z [A1 [A2 [A3 [A4 [A5 A6]]]]]]]].
    split; [cbn; lia|]. intros _. exists (Some t), k, t, z. split; [exact A1|]. split; [reflexivity|]. split; [exact A2|].
    intros j y J. destruct j as [|j]; cbn in J.
    + injection J as <-. rewrite Nat.add_0_r. split; [|exact A6]. destruct x as [xe xa]. cbn in *. subst. reflexivity.
    + destruct r as [|y0 r]; [destruct j; discriminate|]. destruct I2 as [t2 [k2 [r2 [z2 [B1 [B2 [B3 B4]]]]]]]; [discriminate|].
      assert (Q : IArray (Some t) k = IArray t2 k2) by (eapply has_info_fun; [exact A1|exact B1]). injection Q as <- <-.
      injection B2 as <-. assert (z2 = z) by (eapply has_size_fun; eassumption). subst z2.
      replace (i + S j)%nat with (S i + j)%nat by lia. apply B4. exact J.
Qed.
Lemma loop_sound : forall m p anc l r, loop_search E m p anc l = Ret r -> 0 < l ->
  (r = -1 /\ no_loop d m anc p) \/ (0 < r /\ loop_at d m anc p (r - l + 1)).
Proof.
  intros m p anc. induction anc as [|a anc IH]; intros l r H P; cbn in H.
  - left. split; [congruence|]. intros a t [].
  - apply bind_ret in H. destruct H as [[x|q] [V H]].
    + pose proof (pointer_ret_no _ _ _ V) as NP. destruct (IH _ _ H ltac:(lia)) as [[-> N]|[R [pre [b [post [t [-> [L [Q1 Q2]]]]]]]]].
      * left. split; [reflexivity|]. intros b t [<-|I]; [apply NP|apply N; exact I].
      * right. split; [exact R|]. exists (a :: pre), b, post, t. split; [reflexivity|]. split; [cbn [length]; lia|]. split; [exact Q1|].
        intros x' t' [<-|I]; [apply NP|apply Q2; exact I].
    + destruct (pointer_ret _ _ _ V) as [t T]. destruct (p =? q) eqn:PQ.
      * right. split; [injection H as <-; lia|]. exists [], a, anc, t. split; [reflexivity|]. split; [injection H as <-; cbn; lia|].
        split; [assert (p = q) by lia; subst; exact T|]. intros b t' [].
      * assert (NP : forall t', ~ points d m a t' p). { intros t' X. destruct (points_fun _ _ _ _ _ _ X T). lia. }
        destruct (IH _ _ H ltac:(lia)) as [[-> N]|[R [pre [b [post [t2 [-> [L [Q1 Q2]]]]]]]]].
        { left. split; [reflexivity|]. intros b t' [<-|I]; [apply NP|apply N; exact I]. }
        right. split; [exact R|]. exists (a :: pre), b, post, t2. split; [reflexivity|]. split; [cbn [length]; lia|]. split; [exact Q1|].
        intros x' t' [<-|I]; [apply NP|apply Q2; exact I].
Qed.
Lemma level_sound : forall m v anc r t p, level_introduced_loop E m v anc = Ret r -> points d m v t p ->
  (r = -1 /\ no_loop d m anc p) \/ (0 < r /\ loop_at d m anc p r).
Proof.
  intros m v anc r t p H T. unfold level_introduced_loop in H. destruct anc as [|a anc].
  - left. split; [congruence|]. intros a t' [].
  - apply bind_ret in H. destruct H as [[x|q] [V H]].
    + exfalso. eapply pointer_ret_no; eassumption.
    + destruct (pointer_ret _ _ _ V) as [t2 T2]. destruct (points_fun _ _ _ _ _ _ T T2) as [_ <-].
      destruct (loop_sound _ _ _ _ _ H ltac:(lia)) as [[A B]|[A B]]; [left|right]; (split; [exact A|]); try exact B.
      replace r with (r - 1 + 1) by lia. exact B.
Qed.

Lemma look_sound : forall m anc v w, look E M m anc v = Ret w -> w <> VFail -> looks E M m anc v w.
Proof.
  intros m anc v w H NF. pose proof (look_kind _ _ _ _ _ _ H) as LK. unfold look in H. destruct (en_va E (v_entry v)); [discriminate|]. rename H into K.
  apply bind_ret in K. destruct K as [f [F K]]. destruct f as [f|]; [|congruence].
  apply final_info_some in F.
  assert (SC : bind (byte_size n d (Some (v_entry v))) (fun z => Ret (match z with inl sz => VLeaf sz | inr _ => VFail end)) = Ret w ->
     (match f with IBase _ _ | IEnum _ _ => True | _ => False end) -> looks E M m anc v w).
  { intros L FI. apply bind_ret in L. destruct L as [[z|z] [S L]]; [|congruence]. apply size_ret in S.
    injection L as <-. eapply lk_scalar; eassumption. }
  assert (CC : callable f -> Ret (look_call E v) = Ret w -> looks E M m anc v w).
  { intros Cf L. unfold look_call in L. destruct (existsb _ _); injection L as <-; [congruence|]. destruct LK as [_ [LK1 LK2]].
    eapply lk_call; eassumption. }
  clear LK.
  destruct f as [ | |z c|t| |z l|t c| |k z l| |[|] ?|? ?|? ?| ]; try congruence; try (apply SC; [exact K|exact I]); try (apply CC; [exact I|exact K]); clear SC CC.
  - (* pointer *)
    unfold look_pointer in K. apply bind_ret in K. destruct K as [[sz|er] [S K]]; [|congruence]. apply size_ret in S.
    apply bind_ret in K. destruct K as [[er|p] [P K]]; [congruence|]. destruct (pointer_ret _ _ _ P) as [t' T].
    assert (t' = t). { pose proof (has_info_fun _ _ _ F (proj1 T)) as Q. congruence. } subst t'.
    destruct (p =? 0) eqn:P0.
    { injection K as <-. assert (p = 0) by lia. subst p. eapply lk_null; eassumption. }
    assert (NZ : p <> 0) by lia. apply bind_ret in K. destruct K as [lv [L K]].
    destruct (level_sound _ _ _ _ _ _ L T) as [[-> NL]|[Pos LA]].
    2:{ replace (0 <? lv) with true in K by lia. injection K as <-. eapply lk_loop; eassumption. }
    cbn [Z.ltb Z.compare] in K. apply bind_ret in K. destruct K as [[hr hv] [HD K]]. cbn [fst snd] in K.
    destruct (hr =? 0) eqn:HR; cbn [negb] in K; [|congruence]. assert (hr = 0) by lia. subst hr.
    destruct F as [e [F1 F2]].
    apply bind_ret in K. destruct K as [vp [VP K]]. apply bind_ret in K. destruct K as [dp [DP K]].
    assert (OP : vp || dp = true <-> opaque d t).
    { unfold is_void_pointer in VP. unfold is_declaration_pointer in DP. apply bind_ret in VP. destruct VP as [fx [FX VP]].
      rewrite FX in DP. cbn [bind] in DP. apply final_if_inv in FX. destruct FX as [f [X1 X2]].
      pose proof (final_type_fun _ _ _ _ F1 X1) as <-. rewrite F2 in X2. cbn in X2. subst fx. unfold pointer_target in *. rewrite F2 in *.
      injection VP as <-. injection DP as <-. destruct t; cbn; [tauto|]. split; intro; [exact I|reflexivity]. }
    destruct hv as [hv|].
    { cbn [bind] in K. assert (K' : bind (value_kind_is E hv is_array_info) (fun ha : bool => Ret (if ha then VPtr sz hv else VFail)) = Ret w).
      { destruct (vp || dp), (mo_uptr M); exact K. }
      apply bind_ret in K'. destruct K' as [[|] [A K']]; [|congruence]. injection K' as <-.
      eapply lk_target; try eassumption. eapply tg_handled; try eassumption. unfold value_kind_is in A. apply bind_ret in A. destruct A as [[ea|] [A1 A2]]; [|discriminate].
      apply final_if_some in A1. destruct A1 as [A1 A3]. destruct (e_info (deref d ea)) as [ | | | | | |t' c'| | | | | | | ] eqn:IE; try discriminate.
      exists t', c', ea. split; assumption. }
    destruct (vp || dp) eqn:OV.
    + pose proof (proj1 OP eq_refl) as O. destruct (mo_uptr M) eqn:MU; try congruence.
      * injection K as <-. eapply lk_opaque; try eassumption. left. exact MU.
      * injection K as <-. eapply lk_opaque; try eassumption. right. exact MU.
      * cbn [bind] in K. unfold new_value in K. rewrite P0 in K. apply bind_ret in K. destruct K as [[|] [A K]]; [|congruence].
        injection K as <-. eapply lk_target; try eassumption. eapply tg_byte; eassumption.
    + assert (O : ~ opaque d t). { intro O. apply (proj2 OP) in O. discriminate. }
      assert (K' : bind (new_element_count_value n d m v 1 true) (fun w0 => match w0 with None => Ret VFail | Some w0 => bind (value_kind_is E w0 is_array_info) (fun ha : bool => Ret (if ha then VPtr sz w0 else VFail)) end) = Ret w).
      { destruct (mo_uptr M); exact K. }
      apply bind_ret in K'. destruct K' as [[nv|] [NV K']]; [|congruence]. apply bind_ret in K'. destruct K' as [[|] [A K']]; [|congruence].
      injection K' as <-. destruct t as [t|]; [|exfalso; apply O; exact I].
      unfold new_element_count_value in NV. apply bind_ret in NV. destruct NV as [fx [FX NV]].
      apply final_if_inv in FX. destruct FX as [f [X1 X2]]. pose proof (final_type_fun _ _ _ _ F1 X1) as <-. rewrite F2 in X2. cbn in X2. subst fx.
      rewrite F2 in NV. cbn [is_pointer_info andb] in NV. rewrite load_number in NV. destruct T as [_ Tp]. rewrite <- Tp in NV. rewrite P0 in NV.
      apply bind_ret in NV. destruct NV as [[ne|] [NE NV]]; [|discriminate]. unfold new_element_count_entry in NE.
      apply bind_ret in NE. destruct NE as [fy [FY NE]]. apply final_if_inv in FY. destruct FY as [f [Y1 Y2]].
      pose proof (final_type_fun _ _ _ _ F1 Y1) as <-. rewrite F2 in Y2. cbn in Y2. subst fy. rewrite F2 in NE. injection NE as <-.
      injection NV as NV. apply new_value_some in NV. destruct NV as [_ [_ ->]].
      eapply lk_target; try eassumption. eapply tg_typed; try eassumption. split; [exists e; split; assumption|exact Tp].
  - (* array *)
    unfold look_array in K. apply bind_ret in K. destruct K as [c0 [C0 K]].
    assert (EC : forall x y tt k, element_count n d (Some (v_entry x)) = Ret y -> has_info d x (IArray tt k) -> y = int_of k).
    { intros x y tt k Q [e [G1 G2]]. unfold element_count in Q. apply bind_ret in Q. destruct Q as [fx [FX Q]].
      apply final_if_inv in FX. destruct FX as [f [X1 X2]]. pose proof (final_type_fun _ _ _ _ G1 X1) as <-. rewrite G2 in X2. cbn in X2. subst fx.
      unfold array_of in Q. rewrite G2 in Q. cbn in Q. injection Q as <-. reflexivity. }
    pose proof (EC _ _ _ _ C0 F) as Q0. subst c0.
    apply bind_ret in K. destruct K as [[loc|] [L K]]; [|congruence].
    assert (LW : int_of c <> -1 /\ loc = v \/ int_of c = -1 /\ (en_handler E m RQVST_flex_array_count (v :: anc) = Ret (0, Some loc)
                                \/ en_handler E m RQVST_flex_array_count (v :: anc) = Ret (0, None) /\ mo_flx M = FLXARR_ignore /\
                                   exists r, t = Some r /\ loc = array_at r 0 (v_addr v))).
    { destruct (int_of c =? -1) eqn:C1; [|left; split; [lia|congruence]]. right. split; [lia|].
      apply bind_ret in L. destruct L as [[hr hv] [HD L]]. cbn [fst snd] in L. destruct (hr =? 0) eqn:HR; cbn [negb] in L; [|discriminate].
      assert (hr = 0) by lia. subst hr. destruct hv as [hv|]; [left; injection L as <-; exact HD|]. right.
      destruct (mo_flx M); [discriminate|]. split; [exact HD|]. split; [reflexivity|]. destruct F as [e [F1 F2]].
      unfold new_element_count_value in L. apply bind_ret in L. destruct L as [fx [FX L]].
      apply final_if_inv in FX. destruct FX as [f [X1 X2]]. pose proof (final_type_fun _ _ _ _ F1 X1) as <-. rewrite F2 in X2. cbn in X2. subst fx.
      rewrite F2 in L. cbn [is_pointer_info andb] in L.
      apply bind_ret in L. destruct L as [[ne|] [NE NV]]; [|discriminate]. unfold new_element_count_entry in NE.
      apply bind_ret in NE. destruct NE as [fy [FY NE]]. apply final_if_inv in FY. destruct FY as [f [Y1 Y2]].
      pose proof (final_type_fun _ _ _ _ F1 Y1) as <-. rewrite F2 in Y2. cbn in Y2. subst fy. rewrite F2 in NE. destruct t as [t|]; [|discriminate].
      injection NE as <-. injection NV as NV. apply new_value_some in NV. destruct NV as [_ [_ ->]]. exists t. split; reflexivity. }
    apply bind_ret in K. destruct K as [c1 [C1 K]]. apply bind_ret in K. destruct K as [el [EL K]].
    assert (HI : exists tt k, has_info d loc (IArray tt k) \/ (forall t' k', ~ has_info d loc (IArray t' k')) /\ c1 = - EINVAL).
    { unfold element_count in C1. apply bind_ret in C1. destruct C1 as [[e'|] [X C1]].
      - apply final_if_some in X. destruct X as [X1 X2]. destruct (e_info (deref d e')) as [ | | | | | |t' c'| | | | | | | ] eqn:IE; try discriminate.
        exists t', c'. left. exists e'. split; assumption.
      - exists None, 0. right. split; [|injection C1 as <-; reflexivity]. intros t' k' [e' [Y1 Y2]]. apply final_if_inv in X. destruct X as [f [X1 X2]].
        pose proof (final_type_fun _ _ _ _ Y1 X1) as <-. rewrite Y2 in X2. discriminate. }
    destruct el as [el|]; [|congruence]. pose proof (elements_sound loc (Z.to_nat c1) 0 el EL) as [E1 E2].
    destruct HI as [tt [k [HI|[HI Q]]]].
    2:{ (* a handler that returned something else than an array *) subst c1. cbn in EL. injection EL as <-. injection K as <-.
        destruct LW as [[_ ->]|[C' [HD|[_ [_ [r [-> ->]]]]]]].
        - exfalso. eapply HI. exact F.
        - eapply lk_flex_other; eassumption.
        - exfalso. eapply HI. exists (Dy (Build_entry None false (IArray (Some r) 0))). split; [|reflexivity].
          exists []. apply res_stop. intros t' q' SF. inversion SF. }
    pose proof (EC _ _ _ _ C1 HI) as Q1. subst c1.
    assert (EA : elements_are d loc el).
    { exists tt, k. split; [exact HI|]. split; [exact E1|]. intro NE. destruct (E2 NE) as [t2 [k2 [r2 [z2 [B1 [B2 [B3 B4]]]]]]].
      pose proof (has_info_fun _ _ _ HI B1) as Q. injection Q as -> ->. exists r2, z2. split; [exact B2|]. split; [exact B3|]. exact B4. }
    destruct el as [|x r].
    + injection K as <-. eapply lk_array; try eassumption. reflexivity.
    + apply bind_ret in K. destruct K as [[sz|er] [S K]]; [|congruence]. injection K as <-. eapply lk_array; try eassumption. apply size_ret. exact S.
  - (* struct, union *)
    assert (MC : forall c, member_count n d (Some (v_entry v)) = Ret c -> c = Z.of_nat (length l)).
    { intros c Q. destruct F as [e [F1 F2]]. unfold member_count in Q. apply bind_ret in Q. destruct Q as [fx [FX Q]].
      apply final_if_inv in FX. destruct FX as [f [X1 X2]]. pose proof (final_type_fun _ _ _ _ F1 X1) as <-. rewrite F2 in X2. cbn in X2. subst fx.
      unfold members_of in Q. rewrite F2 in Q. injection Q as <-. reflexivity. }
    destruct k; [| |congruence]; unfold look_aggr in K; apply bind_ret in K; destruct K as [[sz|er] [S K]]; try congruence;
      apply size_ret in S; apply bind_ret in K; destruct K as [mc [MQ K]]; apply MC in MQ; subst mc.
    + apply bind_ret in K. destruct K as [[ch|] [ML K]]; [|congruence]. injection K as <-. rewrite Nat2Z.id in ML.
      pose proof F as [e [F1 F2]]. eapply lk_struct; [exact F| |exact S].
      exact (members_sound v l e AStruct z (length l) 0%nat ch F1 F2 eq_refl ML).
    + destruct (0 <? Z.of_nat (length l)) eqn:LL.
      * assert (l <> []) by (intros ->; discriminate).
        apply bind_ret in K. destruct K as [[hr hv] [HD K]]. cbn [fst snd] in K. destruct (hr =? 0) eqn:HR; cbn [negb] in K; [|congruence].
        assert (hr = 0) by lia. subst hr. destruct hv as [hv|].
        { injection K as <-. eapply lk_union; [exact F| |exact S]. right. exists hv. split; [reflexivity|]. split; [assumption|exact HD]. }
        destruct (mo_union M) eqn:MU; try congruence; injection K as <-; (eapply lk_union; [exact F| |exact S]); left; (split; [reflexivity|]); right; (split; [exact HD|congruence]).
      * injection K as <-. eapply lk_union; [exact F| |exact S]. left. split; [reflexivity|]. left. destruct l; [reflexivity|discriminate].
Qed.
End Look.
