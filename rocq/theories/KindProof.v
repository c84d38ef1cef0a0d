(** Proofs about the kinds of types. *)
From Coq Require Import ZArith String List Bool Lia.
From Verif Require Import Base EntryModel EntrySpec EntryProof QuerySpec QueryProof QueryModel ValueModel.
Import ListNotations.
Open Scope Z_scope.

Definition flagged (w : info -> bool) n d p : res bool := bind (final_if n d p w) (fun f => Ret (non_null f)).
Lemma flagged_spec : forall w n d p b, flagged w n d p = Ret b -> (b = true <-> exists i, shape d p i /\ w i = true).
Proof.
  unfold flagged. intros w n d p b H. ptr H. pose proof (found _ _ _ _ _ E) as K. destruct x as [e|]; cbn [non_null].
  - destruct K as (F & W). split; auto. intros _. exists (e_info (deref d e)). split; auto. apply shape_final; auto.
  - split; [discriminate|]. intros (i & Q & W). rewrite (K _ Q) in W. discriminate.
Qed.
Lemma base_flag : forall n d p b, is_base_type n d p = Ret b -> (b = true <-> exists z c, shape d p (IBase z c)).
Proof.
  intros n d p b H. rewrite (flagged_spec is_base_info _ _ _ _ H). split.
  - intros ([] & Q & W); try discriminate. eauto.
  - intros (z & c & Q). eexists; split; [exact Q|reflexivity].
Qed.
Lemma members_flag : forall n d p b, has_members_flag n d p = Ret b -> (b = true <-> exists l, has_members d p l).
Proof.
  intros n d p b H. rewrite (flagged_spec is_aggr_info _ _ _ _ H). unfold has_members. split.
  - intros ([] & Q & W); try discriminate. eauto.
  - intros (l & k & z & Q). eexists; split; [exact Q|reflexivity].
Qed.
Lemma elements_flag : forall n d p b, has_elements_flag n d p = Ret b -> (b = true <-> exists t c, shape d p (IArray t c)).
Proof.
  intros n d p b H. rewrite (flagged_spec is_array_info _ _ _ _ H). split.
  - intros ([] & Q & W); try discriminate. eauto.
  - intros (z & c & Q). eexists; split; [exact Q|reflexivity].
Qed.
Lemma enum_flag : forall n d p b, is_enumeration n d p = Ret b -> (b = true <-> exists z l, shape d p (IEnum z l)).
Proof.
  intros n d p b H. rewrite (flagged_spec is_enum_info _ _ _ _ H). split.
  - intros ([] & Q & W); try discriminate. eauto.
  - intros (z & c & Q). eexists; split; [exact Q|reflexivity].
Qed.
Lemma params_flag : forall n d p b, has_parameters_flag n d p = Ret b -> (b = true <-> exists l, has_params d p l).
Proof.
  intros n d p b H. rewrite (flagged_spec is_fun_info _ _ _ _ H). unfold has_params. split.
  - intros ([] & Q & W); try discriminate; eauto.
  - intros (l & t & [Q|Q]); eexists; split; try exact Q; reflexivity.
Qed.
Lemma flags_spec : forall n d p b,
  (is_base_type n d p = Ret b -> (b = true <-> exists z c, shape d p (IBase z c))) /\
  (has_members_flag n d p = Ret b -> (b = true <-> exists l, has_members d p l)) /\
  (has_elements_flag n d p = Ret b -> (b = true <-> exists t c, shape d p (IArray t c))) /\
  (is_enumeration n d p = Ret b -> (b = true <-> exists z l, shape d p (IEnum z l))) /\
  (has_parameters_flag n d p = Ret b -> (b = true <-> exists l, has_params d p l)).
Proof. intros. repeat split; try (apply base_flag; assumption); try (apply (base_flag _ _ _ _ H)); try apply (members_flag _ _ _ _ H);
  try apply (elements_flag _ _ _ _ H); try apply (enum_flag _ _ _ _ H); try apply (params_flag _ _ _ _ H). Qed.

Lemma shape_fun : forall d p i j, shape d p i -> shape d p j -> i = j.
Proof. intros d p i j (nm & e & F & _ & <-) Q. apply (shape_is _ _ _ _ F Q). Qed.
Definition wanted : list (info -> bool) := [is_base_info; is_pointer_info; is_aggr_info; is_array_info; is_enum_info; is_fun_info].
Lemma wanted_one : forall i j f g x, nth_error wanted i = Some f -> nth_error wanted j = Some g -> f x = true -> g x = true -> i = j.
Proof.
  intros i j f g x. unfold wanted.
  do 6 (destruct i as [|i]; [do 6 (destruct j as [|j]; [cbn; intros F G; injection F as <-; injection G as <-; destruct x; try discriminate; reflexivity|]); cbn; destruct j; discriminate|]).
  cbn. destruct i; discriminate.
Qed.
Lemma one_kind : forall n m d p i j f g,
  nth_error [is_base_type; is_pointer; has_members_flag; has_elements_flag; is_enumeration; has_parameters_flag] i = Some f ->
  nth_error [is_base_type; is_pointer; has_members_flag; has_elements_flag; is_enumeration; has_parameters_flag] j = Some g ->
  f n d p = Ret true -> g m d p = Ret true -> i = j.
Proof.
  intros n m d p i j f g F G Hf Hg.
  change [is_base_type; is_pointer; has_members_flag; has_elements_flag; is_enumeration; has_parameters_flag] with (map flagged wanted) in F, G.
  rewrite nth_error_map in F, G. destruct (nth_error wanted i) as [wf|] eqn:Wf; [|discriminate]. destruct (nth_error wanted j) as [wg|] eqn:Wg; [|discriminate].
  cbn [option_map] in F, G. injection F as <-. injection G as <-.
  destruct (proj1 (flagged_spec _ _ _ _ _ Hf) eq_refl) as (x & Sx & X). destruct (proj1 (flagged_spec _ _ _ _ _ Hg) eq_refl) as (y & Sy & Y).
  pose proof (shape_fun _ _ _ _ Sx Sy). subst y. eapply wanted_one; eauto.
Qed.

(** base types *)
Lemma base_info_spec : forall n d p,
  (forall x, base_type_name n d p = Ret x -> forall nm, x = Some nm <-> exists z c, declared d p (Some nm) (IBase z c)) /\
  (forall x, base_type_byte_size n d p = Ret x -> (exists z c, shape d p (IBase z c) /\ x = inl z) \/ ((forall z c, ~ shape d p (IBase z c)) /\ x = inr (- EINVAL))) /\
  (forall x, base_type_encoding n d p = Ret x -> (exists z c, shape d p (IBase z c) /\ x = inl c) \/ ((forall z c, ~ shape d p (IBase z c)) /\ x = inr (- EINVAL))).
Proof.
  intros n d p. unfold base_type_name, base_type_byte_size, base_type_encoding. destruct (final_if n d p is_base_info) as [f| | |] eqn:E; cbn [bind].
  2,3,4: repeat split; intros; discriminate.
  pose proof (found _ _ _ _ _ E) as K. destruct f as [e|].
  - destruct K as (F & W). unfold base_of. destruct (e_info (deref d e)) as [ | |z c| | | | | | | | | | | ] eqn:I; try discriminate.
    assert (Sh : shape d p (IBase z c)) by (exists (e_name (deref d e)), e; auto).
    split; [|split].
    + intros x H nm. injection H as <-. split.
      * intros N. exists z, c, e. auto.
      * intros (z' & c' & D). apply (declared_is _ _ _ _ _ F D).
    + intros x H. injection H as <-. left. eauto.
    + intros x H. injection H as <-. left. eauto.
  - split; [|split].
    + intros x H nm. injection H as <-. split; [discriminate|]. intros (z & c & D). assert (Q : shape d p (IBase z c)) by (eexists; eauto). specialize (K _ Q). discriminate.
    + intros x H. injection H as <-. right. split; auto. intros z c Q. specialize (K _ Q). discriminate.
    + intros x H. injection H as <-. right. split; auto. intros z c Q. specialize (K _ Q). discriminate.
Qed.

(** enumerators by number *)
Lemma enum_cases : forall n d p x, final_if n d p is_enum_info = Ret x ->
  match x with
  | Some e => (exists z, shape d p (IEnum z (enumerators_of d e))) /\ forall z l, shape d p (IEnum z l) -> l = enumerators_of d e
  | None => forall z l, ~ shape d p (IEnum z l)
  end.
Proof.
  intros n d p x H. pose proof (found _ _ _ _ _ H) as K. destruct x as [e|].
  - destruct K as (F & W). unfold enumerators_of. pose proof (shape_final _ _ _ F) as Sh.
    destruct (e_info (deref d e)) eqn:I; try discriminate. split; eauto.
    intros z' l' Q. pose proof (shape_is _ _ _ _ F Q). congruence.
  - intros z l Q. specialize (K _ Q). discriminate.
Qed.
Lemma enum_info_spec : forall n d p k x, enumeration_info n d p k = Ret x ->
  forall y, x = Some y <-> exists z l, shape d p (IEnum z l) /\ 0 <= k /\ nth_error l (Z.to_nat k) = Some y.
Proof.
  unfold enumeration_info. intros n d p k x' H y. ptr H. pose proof (enum_cases _ _ _ _ E) as K. destruct x as [e|].
  - destruct K as ((z & Sh) & U). rewrite Z.geb_leb. destruct (Z.ltb_spec k 0); cbn [orb].
    + split; [discriminate|]. intros (z' & l & _ & P & _). lia.
    + destruct (Z.leb_spec (Z.of_nat (length (enumerators_of d e))) k).
      * split; [discriminate|]. intros (z' & l & Q & _ & N). rewrite (U _ _ Q) in N.
        assert (nth_error (enumerators_of d e) (Z.to_nat k) <> None) by congruence. apply nth_error_Some in H1. lia.
      * split; [eauto 6|]. intros (z' & l & Q & _ & N). rewrite (U _ _ Q) in N. exact N.
  - split; [discriminate|]. intros (z & l & Q & _). destruct (K _ _ Q).
Qed.
Lemma enum_size_spec : forall n d p c, enumeration_info_size n d p = Ret c ->
  (exists z l, shape d p (IEnum z l) /\ c = Z.of_nat (length l)) \/ ((forall z l, ~ shape d p (IEnum z l)) /\ c = 0).
Proof.
  unfold enumeration_info_size. intros n d p c H. ptr H. pose proof (enum_cases _ _ _ _ E) as K. destruct x as [e|].
  - left. destruct K as ((z & Sh) & _). eauto.
  - right. auto.
Qed.
(** walking over the numbers from 0 finds the name that enumeration_to_name gives *)
Lemma enum_walk : forall n m d p v x nm, enumeration_to_name n d p v = Ret x ->
  (forall k, exists y, enumeration_info m d p k = Ret y) ->
  (x = Some nm <-> exists k, enumeration_info m d p k = Ret (Some (Some nm, v)) /\
                             forall j o w, j < k -> enumeration_info m d p j = Ret (Some (o, w)) -> w <> v).
Proof.
  intros n m d p v x nm H T. rewrite (enumerator_spec _ _ _ _ _ H nm). split.
  - intros (z & pre & post & Q & NN). exists (Z.of_nat (length pre)). split.
    + destruct (T (Z.of_nat (length pre))) as (y & Y). rewrite Y. f_equal. apply (enum_info_spec _ _ _ _ _ Y).
      exists z, (pre ++ (Some nm, v) :: post). split; [exact Q|]. split; [lia|]. rewrite Nat2Z.id, nth_error_app2, Nat.sub_diag by lia. reflexivity.
    + intros j o w J Y. destruct (proj1 (enum_info_spec _ _ _ _ _ Y _) eq_refl) as (z' & l & Q' & P & N).
      pose proof (shape_fun _ _ _ _ Q Q') as X. injection X as _ <-. rewrite nth_error_app1 in N by lia.
      apply (NN (o, w)). eapply nth_error_In; eauto.
  - intros (k & Y & L). destruct (proj1 (enum_info_spec _ _ _ _ _ Y _) eq_refl) as (z & l & Q & P & N).
    destruct (nth_error_split _ _ N) as (pre & post & -> & Len). exists z, pre, post. split; [exact Q|].
    intros (o & w) I. destruct (In_nth_error _ _ I) as (j & J). assert (LJ : (j < length pre)%nat) by (apply nth_error_Some; congruence).
    destruct (T (Z.of_nat j)) as (y & Yj). cbn [snd].
    apply (L (Z.of_nat j) o w); [lia|]. rewrite Yj. f_equal. apply (enum_info_spec _ _ _ _ _ Yj).
    eexists _, _. split; [exact Q|]. split; [lia|]. rewrite Nat2Z.id, nth_error_app1 by lia. exact J.
Qed.
Lemma enum_info_total : forall n d p, acyclic d n -> forall k, exists y, enumeration_info (n + 3) d p k = Ret y.
Proof. intros n d p A k. unfold enumeration_info. destruct (final_if_total d n p is_enum_info A) as (x & ->). cbn [bind]. eauto. Qed.

(** results *)
Lemma result_spec : forall n d p,
  (forall x, result_type n d p = Ret x -> forall q, x = Some q <-> exists t l, (shape d p (ISubprogram (Some t) l) \/ shape d p (ISubroutine (Some t) l)) /\ q = St t) /\
  (forall b, has_result n d p = Ret b -> (b = true <-> exists t l, shape d p (ISubprogram (Some t) l) \/ shape d p (ISubroutine (Some t) l))).
Proof.
  intros n d p. unfold result_type, has_result. destruct (final_if n d p is_fun_info) as [f| | |] eqn:E; cbn [bind].
  2,3,4: repeat split; intros; discriminate.
  pose proof (found _ _ _ _ _ E) as K. destruct f as [e|].
  - destruct K as (F & W).
    assert (L : forall t, result_of d e = Some t <-> exists l, shape d p (ISubprogram (Some t) l) \/ shape d p (ISubroutine (Some t) l)).
    { intros t. unfold result_of. split.
      - pose proof (shape_final _ _ _ F) as Sh. destruct (e_info (deref d e)) eqn:I; try discriminate; intros ->; eauto.
      - intros (l & [Q|Q]); rewrite (shape_is _ _ _ _ F Q); reflexivity. }
    split.
    + intros x H q. injection H as <-. destruct (result_of d e) as [t|]; cbn [lift option_map]; split.
      * intros Q. injection Q as <-. destruct (proj1 (L t) eq_refl) as (l & Q). eauto.
      * intros (t' & l & Q & ->). assert (X : Some t = Some t') by (apply L; eauto). congruence.
      * discriminate.
      * intros (t' & l & Q & ->). assert (X : None = Some t') by (apply L; eauto). discriminate.
    + intros b H. injection H as <-. destruct (result_of d e) as [t|]; cbn [non_null]; split; auto.
      * intros _. destruct (proj1 (L t) eq_refl) as (l & Q). eauto.
      * discriminate.
      * intros (t' & l & Q). assert (X : None = Some t') by (apply L; eauto). discriminate.
  - split.
    + intros x H q. injection H as <-. split; [discriminate|]. intros (t & l & [Q|Q] & _); specialize (K _ Q); discriminate.
    + intros b H. injection H as <-. split; [discriminate|]. intros (t & l & [Q|Q]); specialize (K _ Q); discriminate.
Qed.

(** members and parameters themselves *)
Lemma same_type : forall d e t o, stands_for (e_info (deref d e)) t o -> forall f, final_type d (Some e) f <-> final_type d (lift t) f.
Proof.
  intros d e t o St' f. split.
  - intros (qs & R). inversion R as [|? Fk|? t' q' qs' f' St'' R']; subst.
    + destruct (Fk _ _ St').
    + assert (t' = t) as -> by (destruct St'; inversion St''; reflexivity). exists qs'. exact R'.
  - intros (qs & R). eexists. eapply res_step; eauto.
Qed.
Lemma member_entry_spec : forall d p q, member_entry d (Some p) = Some q ->
  is_member d (Some p) = true /\ forall f, final_type d (Some p) f <-> final_type d (Some q) f.
Proof.
  unfold member_entry, is_member, entry_kind. intros d p q H. destruct (e_info (deref d p)) eqn:I; try discriminate.
  split; [reflexivity|]. rewrite <- H. eapply same_type. rewrite I. constructor.
Qed.
Lemma parameter_entry_spec : forall d p q, parameter_entry d (Some p) = Some q ->
  is_parameter d (Some p) = true /\ is_unspecified_parameter d (Some p) = false /\ forall f, final_type d (Some p) f <-> final_type d (Some q) f.
Proof.
  unfold parameter_entry, is_parameter, is_unspecified_parameter, entry_kind. intros d p q H. destruct (e_info (deref d p)) eqn:I; try discriminate.
  destruct unspecified; [discriminate|]. split; [reflexivity|]. split; [reflexivity|]. rewrite <- H. eapply same_type. rewrite I. constructor.
Qed.

(** the C types *)
Lemma ctype_fits : forall n d p c, entry_is n d p c = Ret true -> exists enc, fits_base d p (ct_name c) enc (ct_size c).
Proof.
  intros n d p c H. unfold entry_is in H. destruct (check_base_type n d p (ct_name c) (ct_enc c) (ct_size c)) as [a| | |] eqn:E; try discriminate.
  cbn [bind] in H. pose proof (check_base_spec _ _ _ _ _ _ _ E) as (_ & B). destruct (Z.eqb_spec a 0) as [A|A].
  - exists (ct_enc c). apply B. exact A.
  - destruct c; try discriminate. destruct (check_base_type n d p (ct_name CChar) 9 (ct_size CChar)) as [b| | |] eqn:E'; try discriminate.
    cbn [bind] in H. pose proof (check_base_spec _ _ _ _ _ _ _ E') as (_ & B'). injection H as H. apply Z.eqb_eq in H. exists 9. apply B'. exact H.
Qed.
Lemma one_ctype : forall n m d p c c', entry_is n d p c = Ret true -> entry_is m d p c' = Ret true -> c = c'.
Proof.
  intros n m d p c c' H H'. destruct (ctype_fits _ _ _ _ H) as (e1 & z & x & (e & F & N & _) & _).
  destruct (ctype_fits _ _ _ _ H') as (e2 & z' & x' & D & _). destruct (declared_is _ _ _ _ _ F D) as (N' & _).
  assert (X : ct_name c = ct_name c') by congruence. destruct c, c'; try reflexivity; discriminate.
Qed.
Lemma has_size_base : forall d p z c w, shape d p (IBase z c) -> has_size d p w -> w = z.
Proof.
  intros d p z c w (nm & e & (qs & R) & _ & I) Hw. apply (size_of_final _ _ _ _ R) in Hw. eapply has_size_fun; [exact Hw|]. eapply hs_base; eauto.
Qed.
Lemma ctype_size : forall n d p c, entry_is n d p c = Ret true -> forall z, has_size d p z -> z = 0 \/ z = ct_size c.
Proof.
  intros n d p c H z Hz. destruct (ctype_fits _ _ _ _ H) as (enc & z' & x & D & _ & Z'). assert (Q : shape d p (IBase z' x)) by (eexists; eauto).
  rewrite (has_size_base _ _ _ _ _ Q Hz). exact Z'.
Qed.
Lemma ctype_is_base : forall n m d p c b, entry_is n d p c = Ret true -> is_base_type m d p = Ret b -> b = true.
Proof.
  intros n m d p c b H Hb. destruct (ctype_fits _ _ _ _ H) as (enc & z & x & D & _). apply (base_flag _ _ _ _ Hb). exists z, x. eexists; eauto.
Qed.
Lemma ctype_declared : forall n d p c, entry_is n d p c = Ret true -> exists z e, declared d p (Some (ct_name c)) (IBase z e) /\ (z = 0 \/ z = ct_size c).
Proof. intros n d p c H. destruct (ctype_fits _ _ _ _ H) as (enc & z & x & D & _ & Z'). eauto. Qed.
