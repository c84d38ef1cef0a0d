(** The start state of the traversal finds out all the specification says. *)
From Coq Require Import ZArith String List Bool Lia ZifyBool.
From Verif Require Import Base BaseProof EntryModel EntrySpec EntryProof ValueModel ValueSpec ValueProof ValueProof2 DeepModel DeepSpec DeepProof DeepProof2 DeepProof3 DeepProof4 DeepProof5 DeepProof8.
Import ListNotations.
Open Scope Z_scope.

Section Complete.
Variable E : env.
Variable M : mode.
Variable n0 : nat.
Notation n := (en_fuel E).
Notation d := (en_db E).
Hypothesis A : acyclic d n0.
Hypothesis N : n = (n0 + 3)%nat.

Lemma info_ret : forall v i, has_info d v i -> final_info E v = Ret (Some i).
Proof. intros v i [e [F I]]. unfold final_info. rewrite N, (final_if_type d n0 _ e) by assumption. cbn [bind]. rewrite I. reflexivity. Qed.
Lemma size_make : forall v z, size_of d v z -> byte_size n d (Some (v_entry v)) = Ret (inl z).
Proof.
  intros v z [y [H ->]]. rewrite N. destruct (byte_size_total d n0 (Some (v_entry v)) A) as [x X]. rewrite X. apply byte_size_spec in X.
  destruct x as [x|er]; [|exfalso; destruct X as [_ X]; exact (X _ H)]. destruct X as [z [HS ->]].
  rewrite (has_size_fun _ _ _ HS _ H). reflexivity.
Qed.
Lemma pointer_make : forall m v t p, points d m v t p -> value_pointer n d m v = Ret (inr p).
Proof. intros m v t p [[e [F I]] ->]. rewrite N. apply pointer_read; [exact A|]. exists e, t. split; assumption. Qed.
Lemma pointer_not : forall m v, (forall t p, ~ points d m v t p) -> exists x, value_pointer n d m v = Ret (inl x).
Proof.
  intros m v H. destruct (value_pointer n d m v) as [[x|p]| | |] eqn:V; [exists x; reflexivity| | | |].
  - exfalso. destruct (pointer_ret _ _ _ _ V) as [t T]. exact (H _ _ T).
  - exfalso. unfold value_pointer in V. rewrite N in V. destruct (final_if_total d n0 (Some (v_entry v)) is_pointer_info A) as [x X]. rewrite X in V. destruct x; discriminate.
  - exfalso. unfold value_pointer in V. rewrite N in V. destruct (final_if_total d n0 (Some (v_entry v)) is_pointer_info A) as [x X]. rewrite X in V. destruct x; discriminate.
  - exfalso. unfold value_pointer in V. rewrite N in V. destruct (final_if_total d n0 (Some (v_entry v)) is_pointer_info A) as [x X]. rewrite X in V. destruct x; discriminate.
Qed.
Lemma pointer_total : forall m v, exists x, value_pointer n d m v = Ret x.
Proof.
  intros m v. unfold value_pointer. rewrite N. destruct (final_if_total d n0 (Some (v_entry v)) is_pointer_info A) as [x X]. rewrite X. cbn [bind]. destruct x; eexists; reflexivity.
Qed.
Lemma search_total : forall m p anc l, exists r, loop_search E m p anc l = Ret r.
Proof.
  intros m p anc. induction anc as [|a anc IH]; intro l; [eexists; reflexivity|]. cbn. destruct (pointer_total m a) as [x X]. rewrite X. cbn [bind].
  destruct x as [x|q]; [apply IH|]. destruct (p =? q); [eexists; reflexivity|apply IH].
Qed.
Lemma level_total : forall m v anc, exists r, level_introduced_loop E m v anc = Ret r.
Proof.
  intros m v anc. unfold level_introduced_loop. destruct anc as [|a anc]; [eexists; reflexivity|].
  destruct (pointer_total m v) as [x X]. rewrite X. cbn [bind]. destruct x; [eexists; reflexivity|apply search_total].
Qed.
Lemma level_none : forall m v anc t p, points d m v t p -> no_loop d m anc p -> exists r, level_introduced_loop E m v anc = Ret r /\ (0 <? r) = false.
Proof.
  intros m v anc t p P L. destruct (level_total m v anc) as [r X]. exists r. split; [exact X|].
  destruct (level_sound _ _ _ _ _ _ _ X P) as [[-> _]|[_ Q]]; [reflexivity|]. exfalso. eapply loop_excl; eassumption.
Qed.
Lemma level_some : forall m v anc t p l, points d m v t p -> loop_at d m anc p l -> level_introduced_loop E m v anc = Ret l.
Proof.
  intros m v anc t p l P L. destruct (level_total m v anc) as [r X].
  destruct (level_sound _ _ _ _ _ _ _ X P) as [[-> Q]|[_ Q]]; [exfalso; eapply loop_excl; eassumption|]. rewrite X. f_equal. eapply loop_fun; eassumption.
Qed.
Lemma members_make : forall v k z l ch, has_info d v (IAggr k z l) -> Forall2 (member_is d v) l ch -> members_from E v (length l) 0 = Ret (Some ch).
Proof.
  intros v k z l ch I F.
  assert (G : forall pre post ch, l = pre ++ post -> Forall2 (member_is d v) post ch -> members_from E v (length post) (Z.of_nat (length pre)) = Ret (Some ch)).
  { intros pre post. revert pre. induction post as [|r post IH]; intros pre ch0 Q F0; inversion F0 as [|? w ? ch1 MI F1]; subst; [reflexivity|].
    cbn [length members_from]. destruct MI as [mi [I1 [I2 I3]]]. subst w. cbn [v_addr] in I3. rewrite N. rewrite (member_complete d n0 v _ (pre ++ r :: post) r mi); [ |exact A| |lia| |exact I1|exact I3].
    - cbn [bind]. replace (Z.of_nat (length pre) + 1) with (Z.of_nat (length (pre ++ [r]))) by (rewrite app_length; cbn; lia).
      rewrite (IH (pre ++ [r]) ch1); [reflexivity|rewrite <- app_assoc; reflexivity|exact F1].
    - destruct I as [e [J1 J2]]. exists e, k, z. split; assumption.
    - rewrite Nat2Z.id. rewrite nth_error_app2, Nat.sub_diag by lia. reflexivity. }
  exact (G [] l ch eq_refl F).
Qed.
Lemma element_make : forall w t c z i y, has_info d w (IArray (Some t) c) -> has_size d (Some (St t)) z -> (i < Z.to_nat (int_of c))%nat -> element_is w t z i y ->
  new_value_by_element_id n d w (Z.of_nat i) true = Ret (Some y).
Proof.
  intros v t c z i y [e [F I]] HS L [-> NZ]. cbn [v_addr] in NZ. unfold new_value_by_element_id. rewrite N. rewrite (final_if_type d n0 _ e) by auto. rewrite I. cbn [is_array_info bind].
  assert (F' : final_type d (Some e) (Some e)) by (eapply final_type_self; eauto).
  unfold element_count, element_entry. rewrite (final_if_type d n0 _ e) by auto. rewrite I. cbn [is_array_info bind]. unfold array_of. rewrite I. cbn [fst snd].
  rewrite swrap_int. destruct (Z.ltb_spec (int_of c) 0); [lia|]. destruct (Z.ltb_spec (Z.of_nat i) 0); [lia|]. destruct (Z.leb_spec (int_of c) (Z.of_nat i)); [lia|].
  cbn [orb]. change (lift (Some t)) with (Some (St t)). cbn [bind].
  destruct (byte_size_total d n0 (Some (St t)) A) as (x & X). rewrite X. cbn [bind]. apply byte_size_spec in X. destruct x as [y|er].
  - destruct X as (z' & HS' & ->). assert (z' = z) by (eapply has_size_fun; eauto). subst z'.
    rewrite uwrap_mul_add. unfold new_value, uwrap. destruct (Z.eqb_spec ((v_addr v + z * Z.of_nat i) mod 2 ^ 64) 0); [contradiction|reflexivity].
  - destruct X as (_ & X). exfalso. eapply X; eauto.
Qed.
Lemma elements_make : forall w t c ch, has_info d w (IArray t c) -> elements_are d w ch -> elements_from E w (Z.to_nat (int_of c)) 0 = Ret (Some ch).
Proof.
  intros w t c ch I [t' [c' [I' [L K]]]]. pose proof (has_info_fun _ _ _ _ I I') as Q. injection Q as <- <-.
  assert (G : forall pre post, ch = pre ++ post -> elements_from E w (length post) (Z.of_nat (length pre)) = Ret (Some post)).
  { intros pre post. revert pre. induction post as [|y post IH]; intros pre Q; [reflexivity|].
    destruct K as [r [z [Kt [Ks Ke]]]]; [subst ch; destruct pre; discriminate|]. subst t.
    cbn [length elements_from]. rewrite (element_make w r c z (length pre) y); [|exact I|exact Ks| |].
    - cbn [bind]. replace (Z.of_nat (length pre) + 1) with (Z.of_nat (length (pre ++ [y]))) by (rewrite app_length; cbn; lia).
      rewrite (IH (pre ++ [y])); [reflexivity|rewrite <- app_assoc; exact Q].
    - rewrite <- L, Q, app_length. cbn. lia.
    - apply Ke. rewrite Q. rewrite nth_error_app2, Nat.sub_diag by lia. reflexivity. }
  rewrite <- L. exact (G [] ch eq_refl).
Qed.
Lemma count_make : forall w t c, has_info d w (IArray t c) -> element_count n d (Some (v_entry w)) = Ret (int_of c).
Proof.
  intros w t c [e [F I]]. unfold element_count. rewrite N, (final_if_type d n0 _ e) by assumption. rewrite I. cbn [is_array_info bind]. unfold array_of. rewrite I. cbn [snd]. rewrite swrap_int. reflexivity.
Qed.
Lemma count_other : forall w, (forall t c, ~ has_info d w (IArray t c)) -> element_count n d (Some (v_entry w)) = Ret (- EINVAL).
Proof.
  intros w H. unfold element_count. rewrite N. destruct (final_if_total d n0 (Some (v_entry w)) is_array_info A) as [x X]. rewrite X. cbn [bind].
  destruct x as [e|]; [|reflexivity]. exfalso. apply final_if_some in X. destruct X as [F I]. destruct (e_info (deref d e)) as [ | | | | | |t c| | | | | | | ] eqn:Q; try discriminate.
  apply (H t c). exists e. split; assumption.
Qed.
Lemma kind_make : forall w t c, has_info d w (IArray t c) -> value_kind_is E w is_array_info = Ret true.
Proof. intros w t c [e [F I]]. unfold value_kind_is. rewrite N, (final_if_type d n0 _ e) by assumption. rewrite I. reflexivity. Qed.
Lemma opaque_make : forall v t, has_info d v (IPointer t) -> exists vp dp, is_void_pointer n d (Some (v_entry v)) = Ret vp /\ is_declaration_pointer n d (Some (v_entry v)) = Ret dp /\
  (vp || dp = true <-> opaque d t).
Proof.
  intros v t [e [F I]]. unfold is_void_pointer, is_declaration_pointer. rewrite N, (final_if_type d n0 _ e) by assumption. rewrite I. cbn [is_pointer_info bind].
  unfold pointer_target. rewrite I. destruct t as [t|]; (eexists; eexists; split; [reflexivity|]; split; [reflexivity|]); cbn; [tauto|]. split; intro; [exact Logic.I|reflexivity].
Qed.
Lemma array_at_info : forall t c p, has_info d (array_at t c p) (IArray (Some t) c).
Proof.
  intros t c p. exists (Dy (Build_entry None false (IArray (Some t) c))). split; [|reflexivity]. exists []. apply res_stop. intros t' q' SF. inversion SF.
Qed.
Lemma one_make : forall m v t p, points d m v (Some t) p -> p <> 0 -> new_element_count_value n d m v 1 true = Ret (Some (array_at t 1 p)).
Proof.
  intros m v t p [[e [F I]] Q] NZ. unfold new_element_count_value, new_element_count_entry. rewrite N, !(final_if_type d n0 _ e) by assumption. rewrite I. cbn [is_array_info is_pointer_info orb bind andb].
  rewrite load_number, <- Q. rewrite ?I. cbn [is_pointer_info andb bind]. unfold new_value. replace (p =? 0) with false by lia. reflexivity.
Qed.
Lemma none_make : forall m v t c, has_info d v (IArray (Some t) c) -> v_addr v <> 0 -> new_element_count_value n d m v 0 true = Ret (Some (array_at t 0 (v_addr v))).
Proof.
  intros m v t c [e [F I]] NZ. unfold new_element_count_value, new_element_count_entry. rewrite N, !(final_if_type d n0 _ e) by assumption. rewrite I. cbn [is_array_info is_pointer_info orb bind andb].
  rewrite ?I. cbn [is_array_info is_pointer_info orb bind andb]. rewrite ?I. cbn [is_array_info is_pointer_info orb bind andb]. unfold new_value. replace (v_addr v =? 0) with false by lia. reflexivity.
Qed.
Lemma member_count_make : forall v k z l, has_info d v (IAggr k z l) -> member_count n d (Some (v_entry v)) = Ret (Z.of_nat (length l)).
Proof.
  intros v k z l [e [F I]]. unfold member_count. rewrite N, (final_if_type d n0 _ e) by assumption. rewrite I. cbn [is_aggr_info bind]. unfold members_of. rewrite I. reflexivity.
Qed.

Definition noload (v : value) : Prop := en_va E (v_entry v) = false.
Lemma look_noload : forall m anc v w, look E M m anc v = Ret w -> noload v.
Proof. intros m anc v w H. unfold look in H. unfold noload. destruct (en_va E (v_entry v)); [discriminate|reflexivity]. Qed.
Lemma look_complete : forall m anc v w, v_addr v <> 0 -> noload v -> looks E M m anc v w -> look E M m anc v = Ret w.
Proof.
  intros m anc v w VA NLd L. unfold look.
  rewrite NLd.
  assert (PI : forall t p, points d m v t p -> final_info E v = Ret (Some (IPointer t))) by (intros t p P; apply info_ret; eapply points_info; exact P).
  inversion L as [sz i I K S|sz t P S|sz t p P NZ NL O HD U S|sz t p l P NZ LA S|sz p w' T NL S|sz l z ch I F S|sz l z ch I K S|sz t c ch w' I K EA S|t c w' I C HD NA|i l I K C H]; subst.
  - rewrite (info_ret _ _ I). cbn [bind]. destruct i; try contradiction; rewrite (size_make _ _ S); reflexivity.
  - rewrite (PI _ _ P). cbn [bind]. unfold look_pointer. rewrite (size_make _ _ S). cbn [bind]. rewrite (pointer_make _ _ _ _ P). reflexivity.
  - rewrite (PI _ _ P). cbn [bind]. unfold look_pointer. rewrite (size_make _ _ S). cbn [bind]. rewrite (pointer_make _ _ _ _ P). cbn [bind].
    replace (p =? 0) with false by lia. destruct (level_none _ _ _ _ _ P NL) as [r [R1 R2]]. rewrite R1. cbn [bind]. rewrite R2, HD. cbn [bind fst snd Z.eqb negb].
    destruct (opaque_make _ _ (points_info _ _ _ _ _ P)) as [vp [dp [V1 [V2 V3]]]]. rewrite V1. cbn [bind]. rewrite V2. cbn [bind]. rewrite (proj2 V3 O). destruct U as [-> | ->]; reflexivity.
  - rewrite (PI _ _ P). cbn [bind]. unfold look_pointer. rewrite (size_make _ _ S). cbn [bind]. rewrite (pointer_make _ _ _ _ P). cbn [bind].
    replace (p =? 0) with false by lia. rewrite (level_some _ _ _ _ _ _ P LA). cbn [bind]. replace (0 <? l) with true; [reflexivity|].
    destruct LA as [pre [a [post [t' [_ [-> _]]]]]]. lia.
  - destruct (target_points _ _ _ _ _ _ _ T) as [NZ [t P]]. rewrite (PI _ _ P). cbn [bind]. unfold look_pointer. rewrite (size_make _ _ S). cbn [bind]. rewrite (pointer_make _ _ _ _ P). cbn [bind].
    replace (p =? 0) with false by lia. destruct (level_none _ _ _ _ _ P NL) as [r [R1 R2]]. rewrite R1. cbn [bind]. rewrite R2.
    destruct (opaque_make _ _ (points_info _ _ _ _ _ P)) as [vp [dp [V1 [V2 V3]]]].
    inversion T as [t' w2 P' _ HD [t2 [c2 I2]]|t' P' _ HD O|t' P' _ HD O U]; subst; destruct (points_fun _ _ _ _ _ _ _ P P') as [-> _]; rewrite HD; cbn [bind fst snd Z.eqb negb];
      rewrite V1; cbn [bind]; rewrite V2; cbn [bind].
    + cbn [bind]. destruct (vp || dp), (mo_uptr M); cbn [bind]; rewrite (kind_make _ _ _ I2); reflexivity.
    + destruct (vp || dp); [exfalso; apply O, V3; reflexivity|]. destruct (mo_uptr M); rewrite (one_make _ _ _ _ P' NZ); cbn [bind]; rewrite (kind_make _ _ _ (array_at_info _ _ _)); reflexivity.
    + rewrite (proj2 V3 O), U. cbn [bind]. unfold new_value. replace (p =? 0) with false by lia. fold (array_at (en_uchar E) 1 p). rewrite (kind_make _ _ _ (array_at_info _ _ _)). reflexivity.
  - rewrite (info_ret _ _ I). cbn [bind]. unfold look_aggr. rewrite (size_make _ _ S). cbn [bind]. rewrite (member_count_make _ _ _ _ I). cbn [bind]. rewrite Nat2Z.id, (members_make _ _ _ _ _ I F). reflexivity.
  - rewrite (info_ret _ _ I). cbn [bind]. unfold look_aggr. rewrite (size_make _ _ S). cbn [bind]. rewrite (member_count_make _ _ _ _ I). cbn [bind].
    destruct K as [[-> [-> |[HD U]]]|[w [-> [NE HD]]]].
    + reflexivity.
    + destruct (0 <? Z.of_nat (length l)); [|reflexivity]. rewrite HD. cbn [bind fst snd Z.eqb negb]. destruct (mo_union M); [congruence|reflexivity|reflexivity].
    + assert (0 <? Z.of_nat (length l) = true) as -> by (destruct l; [congruence|reflexivity]). rewrite HD. reflexivity.
  - rewrite (info_ret _ _ I). cbn [bind]. unfold look_array. rewrite (count_make _ _ _ I). cbn [bind].
    assert (G : forall x : res (option value), x = Ret (Some w') -> bind x (fun local => match local with None => Ret VFail | Some w =>
       bind (element_count n d (Some (v_entry w))) (fun c => bind (elements_from E w (Z.to_nat c) 0) (fun l =>
       match l with None => Ret VFail | Some [] => Ret (VNode 0 []) | Some (x :: r) => bind (byte_size n d (Some (v_entry w))) (fun z => Ret (match z with inl sz => VNode sz (x :: r) | inr _ => VFail end)) end)) end) = Ret (VNode sz ch)).
    { intros x ->. cbn [bind]. pose proof EA as [t' [c' [I' _]]]. rewrite (count_make _ _ _ I'). cbn [bind]. rewrite (elements_make _ _ _ _ I' EA). cbn [bind].
      destruct ch as [|y ch]; [subst sz; reflexivity|]. rewrite (size_make _ _ S). reflexivity. }
    apply G. destruct K as [[C ->]|[C [HD|[HD [MF [r [-> ->]]]]]]].
    + replace (int_of c =? -1) with false by lia. reflexivity.
    + rewrite C. cbn [Z.eqb]. replace (-1 =? -1) with true by reflexivity. rewrite HD. reflexivity.
    + rewrite C. replace (-1 =? -1) with true by reflexivity. rewrite HD. cbn [bind fst snd Z.eqb negb]. rewrite MF. apply (none_make _ _ _ c); assumption.
  - rewrite (info_ret _ _ I). cbn [bind]. unfold look_array. rewrite (count_make _ _ _ I). cbn [bind]. rewrite C. replace (-1 =? -1) with true by reflexivity. rewrite HD. cbn [bind fst snd Z.eqb negb].
    rewrite (count_other _ NA). reflexivity.
  - rewrite (info_ret _ _ I). cbn [bind]. unfold look_call.
    replace (existsb (fun w => v_addr w =? 0) (en_items E (v_addr v))) with false.
    + destruct i as [ | | | | | | | | | |[|] ?| | | ]; try contradiction; reflexivity.
    + symmetry. clear - H. induction H as [|y l Y H IH]; [reflexivity|]. cbn. rewrite IH, orb_false_r. apply Z.eqb_neq. exact Y.
Qed.
End Complete.
