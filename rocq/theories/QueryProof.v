(** Proofs about the questions that may be asked about a type. *)
From Coq Require Import ZArith String List Bool Lia.
From Verif Require Import Base EntryModel EntrySpec EntryProof QuerySpec.
Import ListNotations.
Open Scope Z_scope.

(** what was found, or that nothing of the wanted kind is there *)
Lemma found : forall n d p w x, final_if n d p w = Ret x ->
  match x with
  | Some e => final_type d p (Some e) /\ w (e_info (deref d e)) = true
  | None => forall i, shape d p i -> w i = false
  end.
Proof.
  intros n d p w x H. destruct (final_if_inv _ _ _ _ _ H) as (f & F & ->). destruct f as [e|].
  - destruct (w (e_info (deref d e))) eqn:W; auto. intros i (nm & e' & F' & _ & <-).
    pose proof (final_type_fun _ _ _ _ F F') as K. injection K as <-. exact W.
  - intros i (nm & e' & F' & _). pose proof (final_type_fun _ _ _ _ F F'). discriminate.
Qed.
Lemma shape_final : forall d p e, final_type d p (Some e) -> shape d p (e_info (deref d e)).
Proof. intros. exists (e_name (deref d e)), e. auto. Qed.
Lemma shape_is : forall d p e i, final_type d p (Some e) -> shape d p i -> e_info (deref d e) = i.
Proof. intros d p e i F (nm & e' & F' & _ & <-). pose proof (final_type_fun _ _ _ _ F F') as K. injection K as <-. auto. Qed.
Lemma declared_is : forall d p e nm i, final_type d p (Some e) -> declared d p nm i -> e_name (deref d e) = nm /\ e_info (deref d e) = i.
Proof. intros d p e nm i F (e' & F' & <- & <-). pose proof (final_type_fun _ _ _ _ F F') as K. injection K as <-. auto. Qed.

Lemma pointer_cases : forall n d p x, final_if n d p is_pointer_info = Ret x ->
  match x with
  | Some e => shape d p (IPointer (pointer_target d e)) /\ forall t, shape d p (IPointer t) -> t = pointer_target d e
  | None => forall t, ~ shape d p (IPointer t)
  end.
Proof.
  intros n d p x H. pose proof (found _ _ _ _ _ H) as K. destruct x as [e|].
  - destruct K as (F & W). unfold pointer_target. pose proof (shape_final _ _ _ F) as Sh.
    destruct (e_info (deref d e)) eqn:I; try discriminate. split; auto.
    intros t' St'. pose proof (shape_is _ _ _ _ F St'). congruence.
  - intros t St'. specialize (K _ St'). discriminate.
Qed.
Ltac ptr H := match type of H with bind (final_if ?n ?d ?p ?w) _ = _ =>
  destruct (final_if n d p w) as [x| | |] eqn:E; try discriminate; cbn [bind] in H; injection H as <- end.

Lemma is_pointer_spec : forall n d p b, is_pointer n d p = Ret b -> (b = true <-> exists t, shape d p (IPointer t)).
Proof.
  unfold is_pointer. intros n d p b H. ptr H. pose proof (pointer_cases _ _ _ _ E) as K. destruct x as [e|].
  - split; eauto. intros _. eexists; apply K.
  - split; [discriminate|]. intros (t & T). destruct (K t T).
Qed.
Lemma is_void_spec : forall n d p b, is_void_pointer n d p = Ret b -> (b = true <-> shape d p (IPointer None)).
Proof.
  unfold is_void_pointer. intros n d p b H. ptr H. pose proof (pointer_cases _ _ _ _ E) as K. destruct x as [e|].
  - destruct K as (K1 & K2). destruct (pointer_target d e) eqn:T; split; auto; try discriminate.
    intros Q. specialize (K2 _ Q). discriminate.
  - split; [discriminate|]. intros T. destruct (K _ T).
Qed.
Lemma is_declaration_spec : forall n d p b, is_declaration_pointer n d p = Ret b ->
  (b = true <-> exists t, shape d p (IPointer (Some t)) /\ e_declaration (d t) = true).
Proof.
  unfold is_declaration_pointer. intros n d p b H. ptr H. pose proof (pointer_cases _ _ _ _ E) as K. destruct x as [e|].
  - destruct K as (K1 & K2). destruct (pointer_target d e) eqn:T; split; eauto; try discriminate.
    + intros (t & Q & D). specialize (K2 _ Q). injection K2 as <-. auto.
    + intros (t & Q & D). specialize (K2 _ Q). discriminate.
  - split; [discriminate|]. intros (t & T & _). destruct (K _ T).
Qed.
Lemma pointer_entry_spec : forall n d p x, pointer_entry n d p = Ret x ->
  forall q, x = Some q <-> exists t, shape d p (IPointer (Some t)) /\ q = St t.
Proof.
  unfold pointer_entry. intros n d p y H q. ptr H. pose proof (pointer_cases _ _ _ _ E) as K. destruct x as [e|].
  - destruct K as (K1 & K2). destruct (pointer_target d e) eqn:T; cbn [lift option_map]; split.
    + intros Q. injection Q as <-. eauto.
    + intros (t & Q & ->). specialize (K2 _ Q). congruence.
    + discriminate.
    + intros (t & Q & _). specialize (K2 _ Q). discriminate.
  - split; [discriminate|]. intros (t & T & _). destruct (K _ T).
Qed.
Lemma element_entry_spec : forall n d p x, element_entry n d p = Ret x ->
  forall q, x = Some q <-> exists t c, shape d p (IArray (Some t) c) /\ q = St t.
Proof.
  unfold element_entry. intros n d p y H q. ptr H. pose proof (found _ _ _ _ _ E) as K. destruct x as [e|].
  - destruct K as (F & W). unfold array_of. pose proof (shape_final _ _ _ F) as Sh.
    destruct (e_info (deref d e)) as [ | | | | | |t c| | | | | | | ] eqn:I; try discriminate. cbn [fst].
    destruct t as [t|]; cbn [lift option_map]; split; try discriminate.
    + intros Q. injection Q as <-. eauto.
    + intros (t' & c' & Q & ->). pose proof (shape_is _ _ _ _ F Q). congruence.
    + intros (t' & c' & Q & ->). pose proof (shape_is _ _ _ _ F Q). congruence.
  - split; [discriminate|]. intros (t & c & T & _). specialize (K _ T). discriminate.
Qed.

(** the two lists: members and parameters *)
Lemma members_cases : forall n d p x, final_if n d p is_aggr_info = Ret x ->
  match x with
  | Some e => has_members d p (members_of d e) /\ forall l, has_members d p l -> l = members_of d e
  | None => forall l, ~ has_members d p l
  end.
Proof.
  intros n d p x H. pose proof (found _ _ _ _ _ H) as K. destruct x as [e|].
  - destruct K as (F & W). unfold members_of. pose proof (shape_final _ _ _ F) as Sh.
    destruct (e_info (deref d e)) eqn:I; try discriminate. split; [unfold has_members; eauto|].
    intros l' (k' & z & Q). pose proof (shape_is _ _ _ _ F Q). congruence.
  - intros l (k & z & Q). specialize (K _ Q). discriminate.
Qed.
Lemma params_cases : forall n d p x, final_if n d p is_fun_info = Ret x ->
  match x with
  | Some e => has_params d p (params_of d e) /\ forall l, has_params d p l -> l = params_of d e
  | None => forall l, ~ has_params d p l
  end.
Proof.
  intros n d p x H. pose proof (found _ _ _ _ _ H) as K. destruct x as [e|].
  - destruct K as (F & W). unfold params_of. pose proof (shape_final _ _ _ F) as Sh.
    destruct (e_info (deref d e)) eqn:I; try discriminate; (split; [unfold has_params; eauto|]);
      intros l' (t' & [Q|Q]); pose proof (shape_is _ _ _ _ F Q); congruence.
  - intros l (t & [Q|Q]); specialize (K _ Q); discriminate.
Qed.
Lemma loop_answer : forall d (has : list ref -> Prop) l nm, has l -> index_answer d has nm (name_loop d l nm 0).
Proof.
  intros d has l nm L. destruct (name_loop_spec d nm l 0 ltac:(lia)) as [(pre & r & post & -> & N & NN & E)|(NN & E)]; rewrite E.
  - left. exists (pre ++ r :: post), (length pre). rewrite Z.add_0_l. split; [exact L|]. split; [|reflexivity]. split.
    + exists r. rewrite nth_error_app2, Nat.sub_diag by lia. auto.
    + intros j x J Nx. apply NN. rewrite nth_error_app1 in Nx by lia. eapply nth_error_In; eauto.
  - right; left. exists l. auto.
Qed.
Lemma nth_answer : forall (has : list ref -> Prop) l k, has l -> (forall l', has l' -> l' = l) ->
  forall q, nth_id l k = Some q <-> at_index has k q.
Proof.
  intros has l k L U q. rewrite nth_id_spec. unfold at_index. split.
  - intros (P & r & N & ->). eauto 8.
  - intros (l' & r & L' & P & N & ->). rewrite (U _ L') in N. eauto.
Qed.
Lemma member_count_spec : forall n d p c, member_count n d p = Ret c -> count_answer (has_members d p) c.
Proof.
  unfold member_count. intros n d p c H. ptr H. pose proof (members_cases _ _ _ _ E) as K. destruct x as [e|].
  - left. exists (members_of d e). split; [apply K|reflexivity].
  - right. auto.
Qed.
Lemma member_index_spec : forall n d p nm c, member_name_to_id n d p nm = Ret c -> index_answer d (has_members d p) nm c.
Proof.
  unfold member_name_to_id. intros n d p nm c H. ptr H. pose proof (members_cases _ _ _ _ E) as K. destruct x as [e|].
  - apply loop_answer. apply K.
  - right. right. auto.
Qed.
Lemma member_at_spec : forall n d p k x, by_member_id n d p k = Ret x -> forall q, x = Some q <-> at_index (has_members d p) k q.
Proof.
  unfold by_member_id. intros n d p k y H q. ptr H. pose proof (members_cases _ _ _ _ E) as K. destruct x as [e|].
  - apply nth_answer; apply K.
  - split; [discriminate|]. intros (l & r & L & _). destruct (K _ L).
Qed.
Lemma param_count_spec : forall n d p c, parameters_count n d p = Ret c -> count_answer (has_params d p) c.
Proof.
  unfold parameters_count. intros n d p c H. ptr H. pose proof (params_cases _ _ _ _ E) as K. destruct x as [e|].
  - left. exists (params_of d e). split; [apply K|reflexivity].
  - right. auto.
Qed.
Lemma param_index_spec : forall n d p nm c, parameter_name_to_id n d p nm = Ret c -> index_answer d (has_params d p) nm c.
Proof.
  unfold parameter_name_to_id. intros n d p nm c H. ptr H. pose proof (params_cases _ _ _ _ E) as K. destruct x as [e|].
  - apply loop_answer. apply K.
  - right. right. auto.
Qed.
Lemma param_at_spec : forall n d p k x, by_parameter_id n d p k = Ret x -> forall q, x = Some q <-> at_index (has_params d p) k q.
Proof.
  unfold by_parameter_id. intros n d p k y H q. ptr H. pose proof (params_cases _ _ _ _ E) as K. destruct x as [e|].
  - apply nth_answer; apply K.
  - split; [discriminate|]. intros (l & r & L & _). destruct (K _ L).
Qed.

(** enumerators *)
Lemma enum_loop_spec : forall l v nm, enum_loop l v = Some nm <->
  exists pre post, l = pre ++ (Some nm, v) :: post /\ forall y, In y pre -> snd y <> v.
Proof.
  induction l as [|[m c] l IH]; intros v nm; cbn [enum_loop].
  - split; [discriminate|]. intros ([|? ?] & post & K & _); discriminate.
  - destruct (Z.eqb_spec c v) as [->|N].
    + split.
      * intros ->. exists [], l. split; [reflexivity|intros ? []].
      * intros ([|a pre] & post & K & NN); injection K; [congruence|]. intros _ <-. exfalso. apply (NN (m, v)); [left; reflexivity|reflexivity].
    + rewrite IH. split.
      * intros (pre & post & -> & NN). exists ((m, c) :: pre), post. split; [reflexivity|]. intros y [<-|Y]; [exact N|auto].
      * intros ([|a pre] & post & K & NN); injection K; [congruence|]. intros -> <-. exists pre, post.
        split; [reflexivity|]. intros y Y. apply NN. right; exact Y.
Qed.
Lemma enumerator_spec : forall n d p v x, enumeration_to_name n d p v = Ret x ->
  forall nm, x = Some nm <-> exists z pre post, shape d p (IEnum z (pre ++ (Some nm, v) :: post)) /\ forall y, In y pre -> snd y <> v.
Proof.
  unfold enumeration_to_name. intros n d p v y H nm. ptr H. pose proof (found _ _ _ _ _ E) as K. destruct x as [e|].
  - destruct K as (F & W). unfold enumerators_of. pose proof (shape_final _ _ _ F) as Sh.
    destruct (e_info (deref d e)) as [ | | | | |z l| | | | | | | | ] eqn:I; try discriminate. rewrite enum_loop_spec. split.
    + intros (pre & post & -> & NN). eauto 6.
    + intros (z' & pre & post & Q & NN). pose proof (shape_is _ _ _ _ F Q) as J. rewrite I in J. injection J as _ ->. eauto.
  - split; [discriminate|]. intros (z & pre & post & Q & _). specialize (K _ Q). discriminate.
Qed.

(** base types *)
Lemma check_base_spec : forall n d p nm enc size x, check_base_type n d p nm enc size = Ret x ->
  (x = 0 \/ x = - EINVAL) /\ (x = 0 <-> fits_base d p nm enc size).
Proof.
  unfold check_base_type. intros n d p nm enc size x H. destruct (final_if n d p is_base_info) as [f| | |] eqn:E; try discriminate.
  cbn [bind] in H. pose proof (found _ _ _ _ _ E) as K. destruct f as [e|].
  - destruct K as (F & W). destruct (e_name (deref d e)) as [m|] eqn:N; [|discriminate].
    destruct (e_info (deref d e)) as [ | |z c| | | | | | | | | | | ] eqn:I; try discriminate.
    assert (B : String.eqb m nm && ((c =? 0) || (c =? enc)) && ((z =? 0) || (z =? size)) = true <-> fits_base d p nm enc size).
    { rewrite !andb_true_iff, !orb_true_iff, !Z.eqb_eq, String.eqb_eq. split.
      - intros ((-> & C) & Z'). exists z, c. split; [exists e; auto|auto].
      - intros (z' & c' & D & C & Z'). destruct (declared_is _ _ _ _ _ F D) as (J1 & J2). rewrite N in J1. rewrite I in J2.
        injection J1 as ->. injection J2 as -> ->. auto. }
    destruct (_ && _ && _); injection H as <-.
    + split; auto. split; auto. intros _. apply B. reflexivity.
    + split; auto. split; [discriminate|]. intros Q. apply B in Q. discriminate.
  - injection H as <-. split; auto. split; [discriminate|]. intros (z & c & D & _). assert (Q : shape d p (IBase z c)) by (eexists; eauto).
    specialize (K _ Q). discriminate.
Qed.
Lemma check_base_abort : forall n d p nm enc size, check_base_type n d p nm enc size = Abort -> exists z c, declared d p None (IBase z c).
Proof.
  unfold check_base_type. intros n d p nm enc size H. destruct (final_if n d p is_base_info) as [f| | |] eqn:E; try discriminate.
  - cbn [bind] in H. pose proof (found _ _ _ _ _ E) as K. destruct f as [e|]; [|discriminate].
    destruct K as (F & W). destruct (e_name (deref d e)) as [m|] eqn:N.
    + destruct (e_info (deref d e)); try discriminate. destruct (_ && _ && _); discriminate.
    + destruct (e_info (deref d e)) as [ | |z c| | | | | | | | | | | ] eqn:I; try discriminate. exists z, c, e. auto.
  - exfalso. clear H. unfold final_if in E. destruct (final_entry n d p no_quals) as [[f q]| | |] eqn:G; try discriminate.
    + cbn [bind fst] in E. destruct f; discriminate.
    + clear E. unfold final_entry in G. destruct p as [e|]; [|discriminate]. revert G. generalize no_quals at 1 as acc. generalize no_quals as out.
      generalize (Some e) as p. clear. induction n as [|n IH]; intros p out acc; cbn [final_loop]; [discriminate|].
      destruct p as [e|]; [|discriminate]. destruct (e_info (deref d e)) as [ | | | | | | | | | |u t| | | ]; try discriminate; try apply IH.
      destruct u; [discriminate|apply IH].
Qed.

(** arrays made of a pointer or an array *)
Lemma new_count_spec : forall n d p count a x, new_element_count_entry n d p count a = Ret x ->
  forall q, x = Some q <-> a = true /\ exists t, leads_to d p t /\ q = Dy (Build_entry None false (IArray (Some t) count)).
Proof.
  unfold new_element_count_entry. intros n d p count a x H q. destruct p as [p|].
  - destruct (final_if n d (Some p) _) as [f| | |] eqn:E; try discriminate. cbn [bind] in H.
    pose proof (found _ _ _ _ _ E) as K. destruct f as [e|].
    + destruct K as (F & W). pose proof (shape_final _ _ _ F) as Sh.
      set (o := match e_info (deref d e) with IArray t _ => t | IPointer t => t | _ => None end) in *.
      assert (L : forall t, leads_to d (Some p) t <-> o = Some t).
      { intros t. unfold leads_to, o. split.
        - intros [Q|(c & Q)]; rewrite (shape_is _ _ _ _ F Q); reflexivity.
        - destruct (e_info (deref d e)) eqn:I; try discriminate; intros ->; eauto. }
      destruct o as [t|]; injection H as <-.
      * destruct a.
        -- split.
           ++ intros Q. injection Q as <-. split; auto. exists t. split; auto. apply L. reflexivity.
           ++ intros (_ & t' & T & ->). apply L in T. congruence.
        -- split; [discriminate|]. intros (? & _); discriminate.
      * split; [discriminate|]. intros (_ & t' & T & _). apply L in T. discriminate.
    + injection H as <-. split; [discriminate|]. intros (_ & t & [Q|(c & Q)] & _); specialize (K _ Q); discriminate.
  - injection H as <-. split; [discriminate|]. intros (_ & t & [Q|(c & Q)] & _); destruct Q as (nm & e & (qs & R) & _); inversion R.
Qed.
Lemma new_count_size : forall d t count z, 0 < count -> has_size d (Some (St t)) z ->
  has_size d (Some (Dy (Build_entry None false (IArray (Some t) count)))) (count * z).
Proof. intros d t count z P Hz. eapply hs_array; [reflexivity|exact P|exact Hz]. Qed.
Lemma new_count_sized : forall n d p count a q t z, new_element_count_entry n d p count a = Ret (Some q) -> leads_to d p t ->
  0 < count -> has_size d (Some (St t)) z -> has_size d (Some q) (count * z).
Proof.
  intros n d p count a q t z H L P Hz. destruct (proj1 (new_count_spec _ _ _ _ _ _ H q) eq_refl) as (_ & t' & L' & ->).
  assert (t' = t) as ->; [|apply new_count_size; auto].
  destruct L as [(m & e & F & _ & I)|(c & m & e & F & _ & I)]; destruct L' as [Q|(c' & Q)];
    pose proof (shape_is _ _ _ _ F Q); congruence.
Qed.

Lemma queries_end : forall d n p, acyclic d n ->
  (exists b, is_pointer (n + 3) d p = Ret b) /\ (exists b, is_void_pointer (n + 3) d p = Ret b) /\
  (exists b, is_declaration_pointer (n + 3) d p = Ret b) /\ (exists x, pointer_entry (n + 3) d p = Ret x) /\
  (exists x, element_entry (n + 3) d p = Ret x) /\
  (exists c, member_count (n + 3) d p = Ret c) /\ (forall nm, exists c, member_name_to_id (n + 3) d p nm = Ret c) /\
  (forall k, exists x, by_member_id (n + 3) d p k = Ret x) /\
  (exists c, parameters_count (n + 3) d p = Ret c) /\ (forall nm, exists c, parameter_name_to_id (n + 3) d p nm = Ret c) /\
  (forall k, exists x, by_parameter_id (n + 3) d p k = Ret x) /\
  (forall v, exists x, enumeration_to_name (n + 3) d p v = Ret x) /\
  (forall count a, exists x, new_element_count_entry (n + 3) d p count a = Ret x) /\
  ((forall z c, ~ declared d p None (IBase z c)) -> forall nm enc size, exists x, check_base_type (n + 3) d p nm enc size = Ret x).
Proof.
  intros d n p A.
  assert (T : forall w, exists x, final_if (n + 3) d p w = Ret x) by (intros w; apply final_if_total; auto).
  unfold is_pointer, is_void_pointer, is_declaration_pointer, pointer_entry, element_entry, member_count, member_name_to_id,
    by_member_id, parameters_count, parameter_name_to_id, by_parameter_id, enumeration_to_name.
  repeat split; intros; try (match goal with |- context [final_if (n + 3) d p ?w] => destruct (T w) as (x & ->) end; cbn [bind]; eauto; fail).
  - unfold new_element_count_entry. destruct p as [p|]; [|eauto]. destruct (T (fun i => is_array_info i || is_pointer_info i)) as (x & ->). cbn [bind].
    destruct x; [|eauto]. destruct (match e_info (deref d e) with IArray t _ => t | IPointer t => t | _ => None end); eauto.
  - destruct (check_base_type (n + 3) d p nm enc size) as [x| | |] eqn:E; eauto;
      try (destruct (check_base_abort _ _ _ _ _ _ E) as (z & c & D); destruct (H z c D));
      exfalso; unfold check_base_type in E; destruct (T is_base_info) as (x & Q); rewrite Q in E; cbn [bind] in E;
      (destruct x as [e|]; [|discriminate]); destruct (e_name (deref d e)); try discriminate;
      destruct (e_info (deref d e)); try discriminate; destruct (_ && _ && _); discriminate.
Qed.
