(** Deep comparison: transitive, reflexive; what the values of a memory map are. *)
From Coq Require Import ZArith String List Bool Lia ZifyBool.
From Verif Require Import Base BaseProof EntryModel EntrySpec EntryProof ValueModel ValueSpec ValueProof ValueProof2 DeepModel DeepSpec DeepProof DeepProof2 DeepProof3 DeepProof4.
Import ListNotations.
Open Scope Z_scope.

Definition deep_info (i : info) : Prop :=
  match i with IBase _ _ | IEnum _ _ | IPointer _ | IAggr AStruct _ _ | IAggr AUnion _ _ | IArray _ _
  | IParam true _ | ISubprogram _ _ | ISubroutine _ _ => True | _ => False end.
Lemma look_info : forall E M m anc v w, look E M m anc v = Ret w -> w <> VFail -> exists i, final_info E v = Ret (Some i) /\ deep_info i.
Proof.
  intros E M m anc v w H NF. unfold look in H. destruct (en_va E (v_entry v)); [discriminate|]. apply bind_ret in H.
  destruct H as [f [F K]]. destruct f as [f|]; [|congruence]. exists f. split; [exact F|].
  destruct f as [ | | | | | | | |[]| |[|] ?| | | ]; try exact I; congruence.
Qed.

Section Eq2.
Variable E : env.
Variable M : mode.
Variable feq : ctype -> Z -> Z -> bool.
Notation n := (en_fuel E).
Notation d := (en_db E).
Notation g := (en_garbage E).

Lemma built_tree : forall m e x, in_tree x e -> forall anc, built_ok E M m anc e -> exists anc', built_ok E M m anc' x.
Proof.
  intros m e x I. induction I as [|e c I T IH]; intros anc B; [exists anc; exact B|].
  inversion B; subst; cbn [me_ch] in I; try (destruct I; fail).
  - rewrite Forall_forall in H0. eapply IH. apply H0. exact I.
  - destruct I as [<-|[]]. eapply IH. eassumption.
  - rewrite Forall_forall in H0. eapply IH. apply H0. exact I.
Qed.
Lemma built_info : forall m anc e, built_ok E M m anc e -> exists i, final_info E (me_val e) = Ret (Some i) /\ deep_info i.
Proof. intros m anc e B. inversion B; subst; cbn [me_val]; eapply look_info; try eassumption; discriminate. Qed.
Definition deep_tree (e : ment) : Prop := forall x, in_tree x e -> exists i, final_info E (me_val x) = Ret (Some i) /\ deep_info i.
Lemma built_deep : forall m anc e, built_ok E M m anc e -> deep_tree e.
Proof. intros m anc e B x T. destruct (built_tree _ _ _ T _ B) as [anc' B']. eapply built_info. exact B'. Qed.
Lemma deep_child : forall e c, deep_tree e -> In c (me_ch e) -> deep_tree c.
Proof. intros e c D I x T. apply D. eapply it_child; eassumption. Qed.

Definition pos (h : bool * bool + unit) : Prop := match h with inl r => r = (false, true) | inr _ => True end.
Hypothesis ftrans : forall c x y z, feq c x y = true -> feq c y z = true -> feq c x z = true.
Lemma leaf_pos : forall r, leaf_result r = (false, true) -> 0 < r.
Proof. intros r H. unfold leaf_result in H. destruct (r <? 0) eqn:Q; [discriminate|]. injection H as H. lia. Qed.
Lemma body_trans : forall m e1 e2 e3 i1 i2 i3 h h', deep_info i1 -> deep_info i2 -> deep_info i3 ->
  me_size e1 = me_size e2 -> length (me_ch e1) = length (me_ch e2) -> kind_of i1 = kind_of i2 -> kind_of i2 = kind_of i3 ->
  body E M feq m e1 e2 (Some i1) (Some i2) = Ret h -> body E M feq m e2 e3 (Some i2) (Some i3) = Ret h' -> pos h -> pos h' ->
  h = h' /\ body E M feq m e1 e3 (Some i1) (Some i3) = Ret h.
Proof.
  intros m e1 e2 e3 i1 i2 i3 h h' D1 D2 D3 S L K12 K23 H H' P P'.
  assert (LN : me_ch e1 = [] <-> me_ch e2 = []).
  { destruct (me_ch e1), (me_ch e2); cbn in L; try discriminate; split; intro; congruence. }
  assert (BB : forall (a b : res Z) r r', a = Ret r -> 0 < r -> b = Ret r' -> 0 < r' -> bind a (fun r => Ret (inl (leaf_result r) : bool * bool + unit)) = Ret h -> bind b (fun r => Ret (inl (leaf_result r) : bool * bool + unit)) = Ret h' -> h = h').
  { intros a b r r' -> R1 -> R2 A B. cbn [bind] in A, B. unfold leaf_result in *. replace (r <? 0) with false in A by lia. replace (r' <? 0) with false in B by lia.
    replace (r =? 0) with false in A by lia. replace (r' =? 0) with false in B by lia. congruence. }
  unfold body in *.
  destruct i1 as [ | | | | | | | |[]| |[|] ?| | | ]; try contradiction; destruct i2 as [ | | | | | | | |[]| |[|] ?| | | ]; try contradiction; try discriminate K12;
    destruct i3 as [ | | | | | | | |[]| |[|] ?| | | ]; try contradiction; try discriminate K23; cbv iota in H, H' |- *;
    try (match type of H with Ret _ = Ret _ => split; congruence end).
  - pose proof H as A. pose proof H' as B. apply bind_ret in A. destruct A as [r [R A]]. apply bind_ret in B. destruct B as [r' [R' B]].
    injection A as A. injection B as B. rewrite <- A in P. rewrite <- B in P'. apply leaf_pos in P. apply leaf_pos in P'.
    split; [exact (BB _ _ _ _ R P R' P' H H')|].
    destruct (eq_base_inv E feq _ _ _ _ _ R ltac:(lia)) as [c [x [y [I [A1 [A2 [G1 [G2 Q]]]]]]]].
    destruct (eq_base_inv E feq _ _ _ _ _ R' ltac:(lia)) as [c' [y' [z [I' [A1' [A2' [G1' [G2' Q']]]]]]]].
    assert (c' = c). { eapply has_ctype_fun; [eapply value_is_spec; [exact A1'|reflexivity]|eapply value_is_spec; [exact A2|reflexivity]]. } subst c'.
    rewrite G2 in G1'. injection G1' as <-.
    unfold value_equal_base_type. rewrite (eq_base_make E feq _ _ _ _ _ _ _ I A1 A2' G1 G2'). cbn [bind].
    assert (T : c_equal feq c x z = true).
    { destruct (c_equal feq c x y) eqn:C1; [|lia]. destruct (c_equal feq c y z) eqn:C2; [|lia]. unfold c_equal in *. destruct (is_integer c); [lia|].
      eapply ftrans; eassumption. }
    rewrite T. rewrite <- A. unfold leaf_result. replace (r <? 0) with false by lia. replace (r =? 0) with false by lia. reflexivity.
  - destruct (me_ch e1) as [|a1 l1] eqn:C1.
    + rewrite (proj1 LN eq_refl) in H'. destruct (mo_uptr M); cbv iota in H, H' |- *; try (match type of H with Ret _ = Ret _ => split; congruence end).
      pose proof H as A. pose proof H' as B. apply bind_ret in A. destruct A as [r [R A]]. apply bind_ret in B. destruct B as [r' [R' B]].
      injection A as A. injection B as B. rewrite <- A in P. rewrite <- B in P'. apply leaf_pos in P. apply leaf_pos in P'.
      split; [exact (BB _ _ _ _ R P R' P' H H')|].
      destruct (ptr_eq_inv E _ _ _ _ R ltac:(lia)) as [x [y [X [Y Q]]]]. destruct (ptr_eq_inv E _ _ _ _ R' ltac:(lia)) as [y' [z [Y' [W Q']]]].
      rewrite Y in Y'. assert (y' = y) by congruence. subst y'. rewrite (ptr_eq_make E _ _ _ _ _ X W). cbn [bind].
      replace (x =? z) with true. 2:{ destruct (x =? y) eqn:Q1; [|lia]. destruct (y =? z) eqn:Q2; lia. }
      rewrite <- A. unfold leaf_result. replace (r <? 0) with false by lia. replace (r =? 0) with false by lia. reflexivity.
    + destruct (me_ch e2) as [|a2 l2]; [discriminate L|split; congruence].
  - pose proof H as A. pose proof H' as B. apply bind_ret in A. destruct A as [r [R A]]. apply bind_ret in B. destruct B as [r' [R' B]].
    injection A as A. injection B as B. rewrite <- A in P. rewrite <- B in P'. apply leaf_pos in P. apply leaf_pos in P'.
    split; [exact (BB _ _ _ _ R P R' P' H H')|].
    destruct (enum_eq_inv E _ _ _ _ R ltac:(lia)) as [x [y [X [Y Q]]]]. destruct (enum_eq_inv E _ _ _ _ R' ltac:(lia)) as [y' [z [Y' [W Q']]]].
    rewrite Y in Y'. assert (y' = y) by congruence. subst y'. rewrite (enum_eq_make E _ _ _ _ _ X W). cbn [bind].
    replace (x =? z) with true. 2:{ destruct (x =? y) eqn:Q1; [|lia]. destruct (y =? z) eqn:Q2; lia. }
    rewrite <- A. unfold leaf_result. replace (r <? 0) with false by lia. replace (r =? 0) with false by lia. reflexivity.
  - destruct (mo_union M); try (match type of H with Ret _ = Ret _ => split; congruence end). destruct (me_ch e1) as [|a1 l1] eqn:C1.
    + rewrite (proj1 LN eq_refl) in H'. rewrite <- S in H'.
      destruct (0 <? me_size e1); cbn [andb] in *; [|split; congruence].
      destruct (mem_equal m (v_addr (me_val e1)) (v_addr (me_val e2)) (Z.to_nat (me_size e1))) eqn:Q1; cbn [negb] in H; [|injection H as <-; discriminate P].
      destruct (mem_equal m (v_addr (me_val e2)) (v_addr (me_val e3)) (Z.to_nat (me_size e1))) eqn:Q2; cbn [negb] in H'; [|injection H' as <-; discriminate P'].
      rewrite (mem_equal_trans _ _ _ _ _ Q1 Q2). cbn [negb]. split; congruence.
    + destruct (me_ch e2) as [|a2 l2]; [discriminate L|split; congruence].
Qed.
Lemma tree_trans : forall m o1 o2 o3 e1 e2 e3, deep_tree e1 -> deep_tree e2 -> deep_tree e3 ->
  equal_tree E M feq m o1 o2 e1 e2 = Ret (false, true) -> equal_tree E M feq m o2 o3 e2 e3 = Ret (false, true) ->
  equal_tree E M feq m o1 o3 e1 e3 = Ret (false, true).
Proof.
  intros m o1 o2 o3 e1. induction e1 as [i v s l ch F] using ment_ind2. intros e2 e3 D1 D2 D3 A B.
  rewrite equal_tree_eq in A, B |- *. apply bind_ret in A. destruct A as [h [H A]]. apply bind_ret in B. destruct B as [h' [H' B]].
  assert (P : pos h). { destruct h as [r|[]]; [injection A as ->; reflexivity|exact I]. }
  assert (P' : pos h'). { destruct h' as [r|[]]; [injection B as ->; reflexivity|exact I]. }
  destruct (here_inv _ _ _ _ _ _ _ _ _ H) as [f1 [f2 [F1 [F2 [[_ ->]|[S Bo]]]]]]; [discriminate P|].
  destruct (here_inv _ _ _ _ _ _ _ _ _ H') as [f2' [f3 [F2' [F3 [[_ ->]|[S' Bo']]]]]]; [discriminate P'|].
  rewrite F2 in F2'. assert (f2' = f2) by congruence. subst f2'.
  destruct (D1 _ (it_here _)) as [i1 [I1 J1]]. destruct (D2 _ (it_here _)) as [i2 [I2 J2]]. destruct (D3 _ (it_here _)) as [i3 [I3 J3]].
  assert (f1 = Some i1) by congruence. assert (f2 = Some i2) by congruence. assert (f3 = Some i3) by congruence. subst f1 f2 f3.
  pose proof S as [S1 [S2 [S3 [S4 S5]]]]. pose proof S' as [T1 [T2 [T3 [T4 T5]]]]. cbn [knd] in S5, T5.
  destruct (body_trans _ _ _ _ _ _ _ _ _ J1 J2 J3 S1 S2 S5 T5 Bo Bo' P P') as [<- Bt].
  erewrite here_body; [|exact F1|exact F3|]. 2:{ unfold same_head in *. cbn [knd] in *. intuition congruence. }
  rewrite Bt. cbn [bind]. destruct h as [r|[]]; [exact A|].
  clear H H' P P' Bo Bo' Bt S S' S1 S2 S3 S4 S5 T1 T2 T3 T4 T5 F1 F2 F3 I1 I2 I3 J1 J2 J3 F2'.
  cbn [me_ch] in *. assert (D1' : forall c, In c ch -> deep_tree c) by (intros c Ic; eapply deep_child; [exact D1|exact Ic]).
  assert (D2' : forall c, In c (me_ch e2) -> deep_tree c) by (intros c Ic; eapply deep_child; [exact D2|exact Ic]).
  assert (D3' : forall c, In c (me_ch e3) -> deep_tree c) by (intros c Ic; eapply deep_child; [exact D3|exact Ic]).
  clear D1 D2 D3. revert A B D2' D3'. generalize (me_ch e3) as l3. generalize (me_ch e2) as l2.
  induction F as [|a ch P F IH]; intros l2 l3 A B D2 D3.
  - destruct l2; [|discriminate]. exact B.
  - destruct l2 as [|b l2]; [discriminate|]. destruct l3 as [|c l3]; [discriminate|]. cbn [equal_list] in A, B |- *.
    apply bind_ret in A. destruct A as [[fa xa] [A1 A]]. apply bind_ret in A. destruct A as [[fas xas] [A2 A]].
    apply bind_ret in B. destruct B as [[fb xb] [B1 B]]. apply bind_ret in B. destruct B as [[fbs xbs] [B2 B]].
    injection A as Q1 Q2. injection B as Q3 Q4. destruct fa, fas; try discriminate. destruct fb, fbs; try discriminate.
    destruct xa, xas; try discriminate. destruct xb, xbs; try discriminate.
    rewrite (P b c); [|apply D1'; left; reflexivity|apply D2; left; reflexivity|apply D3; left; reflexivity|exact A1|exact B1]. cbn [bind].
    rewrite (IH ltac:(intros x Ix; apply D1'; right; exact Ix) l2 l3 A2 B2); [reflexivity| |]; intros x Ix; [apply D2|apply D3]; right; exact Ix.
Qed.

(** reflexivity *)
Definition self_eq (m : mem) (v : value) : Prop :=
  exists i, final_info E v = Ret (Some i) /\
  match i with
  | IBase _ _ => exists c x, value_is n d v c = Ret true /\ value_get n d g m v c = Ret (inr x) /\ c_equal feq c x x = true
  | IEnum _ _ => exists x, value_enumeration n d m v = Ret (inr x)
  | _ => True
  end.
Lemma pointer_info : forall m v t, final_info E v = Ret (Some (IPointer t)) -> exists p, value_pointer n d m v = Ret (inr p).
Proof.
  intros m v t H. unfold final_info in H. apply bind_ret in H. destruct H as [[e|] [F H]]; [|discriminate]. injection H as H.
  unfold value_pointer. unfold final_if in *. apply bind_ret in F. destruct F as [[x q] [F F']]. rewrite F. cbn [bind fst] in *.
  destruct x as [x|]; [|discriminate]. injection F' as ->. rewrite H. cbn [is_pointer_info bind]. eexists. reflexivity.
Qed.
Lemma tree_refl : forall m o e, (forall x, in_tree x e -> self_eq m (me_val x)) -> equal_tree E M feq m o o e e = Ret (false, true).
Proof.
  intros m o e. induction e as [i v s l ch F] using ment_ind2. intros A. rewrite equal_tree_eq.
  destruct (A _ (it_here _)) as [ii [I1 I2]]. erewrite here_body; [|exact I1|exact I1|repeat split].
  assert (B : exists h, body E M feq m (ME i v s l ch) (ME i v s l ch) (Some ii) (Some ii) = Ret h /\ pos h).
  { unfold body. destruct ii as [ | | | | | | | |[]| | | | | ]; try (eexists; split; [reflexivity|exact I]).
    - destruct I2 as [c [x [C1 [C2 C3]]]]. unfold value_equal_base_type. rewrite (eq_base_make E feq _ _ _ _ _ _ _ (all_types_all c) C1 C1 C2 C2).
      rewrite C3. eexists. split; reflexivity.
    - cbn [me_ch]. destruct ch; [|eexists; split; [reflexivity|exact I]]. destruct (mo_uptr M); try (eexists; split; reflexivity).
      destruct (pointer_info m _ _ I1) as [p Q]. rewrite (ptr_eq_make E _ _ _ _ _ Q Q). rewrite Z.eqb_refl. eexists. split; reflexivity.
    - destruct I2 as [x Q]. rewrite (enum_eq_make E _ _ _ _ _ Q Q). rewrite Z.eqb_refl. eexists. split; reflexivity.
    - destruct (mo_union M); try (eexists; split; [reflexivity|exact I]). cbn [me_ch]. destruct ch; [|eexists; split; [reflexivity|exact I]].
      rewrite mem_equal_refl. cbn [negb]. rewrite andb_false_r. eexists; split; [reflexivity|exact I]. }
  destruct B as [h [B P]]. rewrite B. cbn [bind]. destruct h as [r|[]]; [rewrite P; reflexivity|]. cbn [me_ch].
  clear B P I1 I2. assert (A' : forall c, In c ch -> forall x, in_tree x c -> self_eq m (me_val x)).
  { intros c Ic x Ix. apply A. eapply it_child; [exact Ic|exact Ix]. }
  clear A. induction F as [|a ch P F IH]; [reflexivity|]. cbn [equal_list]. rewrite P by (apply A'; left; reflexivity). cbn [bind].
  rewrite IH; [reflexivity|]. intros c Ic. apply A'. right. exact Ic.
Qed.
(** in general: the same map compared with itself is never found different *)
Lemma tree_self : forall m o e f c, (forall k x, feq k x x = true) -> equal_tree E M feq m o o e e = Ret (f, c) -> c = true.
Proof.
  intros m o e. induction e as [i v s l ch F] using ment_ind2. intros f c R H. rewrite equal_tree_eq in H. apply bind_ret in H.
  destruct H as [h [H1 H]]. destruct (here_inv _ _ _ _ _ _ _ _ _ H1) as [f1 [f2 [F1 [F2 [[S _]|[S B]]]]]].
  { exfalso. apply S. rewrite F1 in F2. assert (f1 = f2) by congruence. subst f2. repeat split. }
  rewrite F1 in F2. assert (f2 = f1) by congruence. subst f2.
  assert (LR : forall r, (0 <= r -> r <> 0) -> snd (leaf_result r) = true).
  { intros r Hr. unfold leaf_result. destruct (r <? 0) eqn:Q; [reflexivity|]. cbn. specialize (Hr ltac:(lia)). lia. }
  assert (G : match h with inl r => snd r = true | inr _ => True end).
  { unfold body in B. destruct f1 as [[ | | | | | | | |[]| | | | | ]|]; try (injection B as <-; exact I).
    - apply bind_ret in B. destruct B as [r [Rr B]]. injection B as <-. apply LR. intro P.
      destruct (eq_base_inv E feq _ _ _ _ _ Rr P) as [k [x [y [_ [_ [_ [G1 [G2 Q]]]]]]]]. rewrite G1 in G2. assert (y = x) by congruence. subst y.
      assert (C : c_equal feq k x x = true). { unfold c_equal. destruct (is_integer k); [lia|apply R]. } rewrite C in Q. lia.
    - cbn [me_ch] in B. destruct ch; [|injection B as <-; exact I]. destruct (mo_uptr M); try (injection B as <-; reflexivity).
      apply bind_ret in B. destruct B as [r [Rr B]]. injection B as <-. apply LR. intro P.
      destruct (ptr_eq_inv E _ _ _ _ Rr P) as [x [y [G1 [G2 Q]]]]. rewrite G1 in G2. assert (y = x) by congruence. subst y. rewrite Z.eqb_refl in Q. lia.
    - apply bind_ret in B. destruct B as [r [Rr B]]. injection B as <-. apply LR. intro P.
      destruct (enum_eq_inv E _ _ _ _ Rr P) as [x [y [G1 [G2 Q]]]]. rewrite G1 in G2. assert (y = x) by congruence. subst y. rewrite Z.eqb_refl in Q. lia.
    - destruct (mo_union M); try (injection B as <-; exact I). cbn [me_ch] in B. destruct ch; [|injection B as <-; exact I].
      rewrite mem_equal_refl in B. cbn [negb] in B. rewrite andb_false_r in B. injection B as <-. exact I. }
  destruct h as [r|[]]; [injection H as ->; exact G|]. cbn [me_ch] in H. clear H1 B G F1 S. revert f c H.
  induction F as [|a ch P F IH]; intros f c H; [injection H as <- <-; reflexivity|]. cbn [equal_list] in H.
  apply bind_ret in H. destruct H as [[fa xa] [A1 A]]. apply bind_ret in A. destruct A as [[fas xas] [A2 A]]. injection A as <- <-.
  rewrite (P _ _ R A1), (IH _ _ A2). reflexivity.
Qed.

(** whole comparisons *)
Lemma equal_ex_inv : forall k m v1 v2 r, equal_ex E M feq k m v1 v2 = Ret r ->
  r = - EFAULT \/ exists m1 m2, new_memory_map E M k m v1 = Ret (Some m1) /\ new_memory_map E M k m v2 = Ret (Some m2) /\
    exists f c, equal_tree E M feq m (mm_off m1) (mm_off m2) (mm_top m1) (mm_top m2) = Ret (f, c) /\ r = if f then - EFAULT else if c then 1 else 0.
Proof.
  intros k m v1 v2 r H. unfold equal_ex in H. apply bind_ret in H. destruct H as [[m1|] [A H]]; [|left; congruence].
  apply bind_ret in H. destruct H as [[m2|] [B H]]; [|left; congruence]. apply bind_ret in H. destruct H as [[f c] [T H]].
  right. exists m1, m2. split; [exact A|]. split; [exact B|]. exists f, c. split; [exact T|congruence].
Qed.
Lemma equal_ex_make : forall k m v1 v2 m1 m2 c, new_memory_map E M k m v1 = Ret (Some m1) -> new_memory_map E M k m v2 = Ret (Some m2) ->
  equal_tree E M feq m (mm_off m1) (mm_off m2) (mm_top m1) (mm_top m2) = Ret (false, c) -> equal_ex E M feq k m v1 v2 = Ret (if c then 1 else 0).
Proof. intros k m v1 v2 m1 m2 c A B T. unfold equal_ex. rewrite A. cbn [bind]. rewrite B. cbn [bind]. rewrite T. reflexivity. Qed.
Lemma equal_sym : forall k m v1 v2 r, (forall c x y, feq c x y = feq c y x) -> equal_ex E M feq k m v1 v2 = Ret r -> 0 <= r -> equal_ex E M feq k m v2 v1 = Ret r.
Proof.
  intros k m v1 v2 r S H P. destruct (equal_ex_inv _ _ _ _ _ H) as [->|[m1 [m2 [A [B [f [c [T ->]]]]]]]]; [exfalso; apply P; reflexivity|].
  destruct f; [exfalso; apply P; reflexivity|]. eapply equal_ex_make; [exact B|exact A|]. apply tree_sym; assumption.
Qed.
Lemma equal_trans : forall k m v1 v2 v3, equal_ex E M feq k m v1 v2 = Ret 1 -> equal_ex E M feq k m v2 v3 = Ret 1 -> equal_ex E M feq k m v1 v3 = Ret 1.
Proof.
  intros k m v1 v2 v3 H H'. destruct (equal_ex_inv _ _ _ _ _ H) as [Q|[m1 [m2 [A [B [f [c [T Q]]]]]]]]; [discriminate|].
  destruct (equal_ex_inv _ _ _ _ _ H') as [Q'|[m2' [m3 [A' [B' [f' [c' [T' Q']]]]]]]]; [discriminate|].
  rewrite B in A'. assert (m2' = m2) by congruence. subst m2'. destruct f; [discriminate|]. destruct c; [|discriminate]. destruct f'; [discriminate|]. destruct c'; [|discriminate].
  apply (equal_ex_make k m v1 v3 m1 m3 true A B'). eapply tree_trans; [| | |exact T|exact T'].
  - eapply built_deep. eapply mo_built. eapply map_built. exact A.
  - eapply built_deep. eapply mo_built. eapply map_built. exact B.
  - eapply built_deep. eapply mo_built. eapply map_built. exact B'.
Qed.
Lemma equal_self : forall k m v r, (forall c x, feq c x x = true) -> equal_ex E M feq k m v v = Ret r -> r = 1 \/ r = - EFAULT.
Proof.
  intros k m v r R H. destruct (equal_ex_inv _ _ _ _ _ H) as [->|[m1 [m2 [A [B [f [c [T ->]]]]]]]]; [right; reflexivity|].
  rewrite A in B. assert (m2 = m1) by congruence. subst m2. rewrite (tree_self _ _ _ _ _ R T). destruct f; [right|left]; reflexivity.
Qed.
Lemma equal_refl : forall k m v mm, new_memory_map E M k m v = Ret (Some mm) -> (forall x, in_tree x (mm_top mm) -> self_eq m (me_val x)) ->
  equal_ex E M feq k m v v = Ret 1.
Proof. intros k m v mm A S. apply (equal_ex_make k m v v mm mm true A A). apply tree_refl. exact S. Qed.

(** values of the tree are below the top value *)
Lemma tree_reaches : forall m v e x, in_tree x e -> forall anc, built_ok E M m anc e -> reaches E M m v anc (me_val e) -> exists anc', reaches E M m v anc' (me_val x) /\ built_ok E M m anc' x.
Proof.
  intros m v e x I. induction I as [|e c I T IH]; intros anc B R; [exists anc; split; assumption|].
  inversion B as [ | |anc0 i v0 sz sz' ch L F G|anc0 i v0 sz c0 L B0|anc0 i v0 ch L F]; subst; cbn [me_ch me_val] in *; try (destruct I; fail).
  - apply look_sound in L; [|discriminate]. rewrite Forall_forall in F. eapply IH; [apply F; exact I|].
    eapply re_node; [exact R|exact L|]. apply in_map. exact I.
  - apply look_sound in L; [|discriminate]. destruct I as [<-|[]]. eapply IH; [exact B0|]. eapply re_ptr; [exact R|exact L].
  - apply look_sound in L; [|discriminate]. rewrite Forall_forall in F. eapply IH; [apply F; exact I|].
    eapply re_call; [exact R|exact L|]. apply in_map. exact I.
Qed.
Lemma comparable_self : forall k m v mm n0, acyclic d n0 -> n = (n0 + 3)%nat -> bytes_ok m -> new_memory_map E M k m v = Ret (Some mm) -> comparable E M feq m v ->
  forall x, in_tree x (mm_top mm) -> self_eq m (me_val x).
Proof.
  intros k m v mm n0 A N BM H C x X. pose proof (map_built _ _ _ _ _ _ H) as [B V _ _ _ _ _ _].
  destruct (tree_reaches m v _ _ X [] B) as [anc [R B']]. { rewrite V. apply re_here. }
  destruct (built_info _ _ _ B') as [i [I1 I2]]. exists i. split; [exact I1|]. apply final_info_some in I1.
  destruct (C _ _ R) as [C1 C2]. destruct i as [ | |z c| | |z l| | | | | | | | ]; try exact I.
  - destruct (C1 _ _ I1) as [t [T1 [T2 T3]]]. exists t, (number_at m (v_addr (me_val x)) (Z.to_nat (ct_size t))).
    rewrite N. split; [apply value_is_true; assumption|]. split; [apply value_get_plain; assumption|].
    unfold c_equal. destruct (is_integer t) eqn:IT; [apply Z.eqb_refl|]. destruct T3 as [T3|[name [encs [b [sg [J1 J2]]]]]]; [apply c_integer_dec in T3; congruence|].
    apply table_fun in J1. destruct J1 as [_ [J1 _]]. subst b. exact J2.
  - exists (as_signed (8 * z) (number_at m (v_addr (me_val x)) (Z.to_nat z))). rewrite N. eapply enum_read; try eassumption.
    specialize (C2 _ _ I1). unfold word. cbn in C2. intuition.
Qed.
Lemma equal_refl_ok : forall k m v mm n0, acyclic d n0 -> n = (n0 + 3)%nat -> bytes_ok m -> new_memory_map E M k m v = Ret (Some mm) -> comparable E M feq m v ->
  equal_ex E M feq k m v v = Ret 1.
Proof. intros k m v mm n0 A N BM H C. eapply equal_refl; [exact H|]. eapply comparable_self; eassumption. Qed.
End Eq2.
