(** Termination of the deep functions. *)
From Coq Require Import ZArith String List Bool Lia ZifyBool.
From Verif Require Import Base BaseProof EntryModel EntrySpec EntryProof ValueModel ValueSpec ValueProof ValueProof2 DeepModel DeepSpec DeepProof DeepProof2 DeepProof3 DeepProof4 DeepProof5.
Import ListNotations.
Open Scope Z_scope.

Notation runs x := (x <> OutOfFuel).
Lemma bind_runs : forall {A B} (x : res A) (f : A -> res B), runs x -> (forall a, x = Ret a -> runs (f a)) -> runs (bind x f).
Proof. intros A B x f X F. destruct x; cbn; try discriminate; [apply F; reflexivity|contradiction]. Qed.
Lemma ret_runs : forall {A} (x : res A), (exists a, x = Ret a) -> runs x.
Proof. intros A x [a ->]. discriminate. Qed.

Section Term.
Variable E : env.
Variable M : mode.
Variable n0 : nat.
Notation n := (en_fuel E).
Notation d := (en_db E).
Hypothesis A : acyclic d n0.
Hypothesis N : n = (n0 + 3)%nat.

Lemma final_if_runs : forall p w, runs (final_if n d p w).
Proof. intros p w. apply ret_runs. rewrite N. apply final_if_total. exact A. Qed.
Lemma byte_size_runs : forall p, runs (byte_size n d p).
Proof. intros p. apply ret_runs. rewrite N. apply byte_size_total. exact A. Qed.
Lemma final_entry_runs : forall p q, runs (final_entry n d p q).
Proof. intros p q. apply ret_runs. rewrite N. apply final_entry_total. exact A. Qed.
Ltac step := first
  [ discriminate
  | apply final_if_runs | apply byte_size_runs | apply final_entry_runs | assumption
  | match goal with |- runs (bind _ _) => apply bind_runs; [|intros] end
  | match goal with |- runs (match ?x with _ => _ end) => destruct x end ].
Ltac go := repeat step.
Lemma final_info_runs : forall v, runs (final_info E v).
Proof. intro v. unfold final_info. go. Qed.
Lemma kind_is_runs : forall v w, runs (value_kind_is E v w).
Proof. intros. unfold value_kind_is. go. Qed.
Lemma pointer_runs : forall m v, runs (value_pointer n d m v).
Proof. intros. unfold value_pointer. go. Qed.
Lemma loop_runs : forall m p anc l, runs (loop_search E m p anc l).
Proof.
  intros m p anc. induction anc as [|a anc IH]; intro l; [discriminate|]. cbn. apply bind_runs; [apply pointer_runs|].
  intros [x|q] _; [apply IH|]. destruct (p =? q); [discriminate|apply IH].
Qed.
Lemma member_runs : forall v i a, runs (new_value_by_member_id n d v i a).
Proof. intros. unfold new_value_by_member_id, member_count, by_member_id. go. Qed.
Lemma element_runs : forall v i a, runs (new_value_by_element_id n d v i a).
Proof. intros. unfold new_value_by_element_id, element_count, element_entry. go. Qed.
Lemma members_runs : forall v c i, runs (members_from E v c i).
Proof. intros v c. induction c as [|c IH]; intro i; [discriminate|]. cbn. apply bind_runs; [apply member_runs|]. intros [w|] _; [|discriminate]. apply bind_runs; [apply IH|]. discriminate. Qed.
Lemma elements_runs : forall v c i, runs (elements_from E v c i).
Proof. intros v c. induction c as [|c IH]; intro i; [discriminate|]. cbn. apply bind_runs; [apply element_runs|]. intros [w|] _; [|discriminate]. apply bind_runs; [apply IH|]. discriminate. Qed.
Lemma count_value_runs : forall m v c a, runs (new_element_count_value n d m v c a).
Proof. intros. unfold new_element_count_value, new_element_count_entry. go. Qed.
Hypothesis HR : forall m ev l, runs (en_handler E m ev l).
Lemma look_runs : forall m anc v, runs (look E M m anc v).
Proof.
  intros m anc v. unfold look.
  assert (L1 : forall k, runs (look_aggr E M m k anc v)).
  { intro k. unfold look_aggr, member_count. go; try apply HR; try apply members_runs. }
  assert (L2 : runs (look_array E M m anc v)).
  { unfold look_array, element_count. go; try apply HR; try apply elements_runs; try apply count_value_runs. }
  assert (L3 : runs (look_pointer E M m anc v)).
  { unfold look_pointer, is_void_pointer, is_declaration_pointer, level_introduced_loop.
    go; try apply HR; try apply pointer_runs; try apply loop_runs; try apply count_value_runs; try apply kind_is_runs; go; try apply kind_is_runs. }
  go; try apply final_info_runs; try apply L1; go.
Qed.
End Term.

Section Rank.
Variable E : env.
Variable M : mode.
Variable n0 : nat.
Variable rank : ref -> nat.
Notation n := (en_fuel E).
Notation d := (en_db E).
Hypothesis Rb : forall r, (rank r < n0)%nat.
Hypothesis Rn : forall r t, nested (e_info (d r)) t -> (rank t < rank r)%nat.
Hypothesis N : n = (n0 + 3)%nat.
Hypothesis T : tame E.
Variable ks : nat.
Variable sd : Z -> nat.
Hypothesis Co : objects d.
Hypothesis Cb : forall a, (sd a < ks)%nat.
Hypothesis Cd : forall a w i, In w (en_items E a) -> has_info d w i -> callable i -> (sd (v_addr w) < sd a)%nat.

Definition er (p : eptr) : nat := match p with St r => rank r | Dy _ => n0 end.
Lemma er_le : forall p, (er p <= n0)%nat.
Proof. intros [r|e]; cbn; [specialize (Rb r)|]; lia. Qed.
Lemma er_nested : forall p t, nested (e_info (deref d p)) t -> (rank t < er p)%nat.
Proof. intros [r|e] t X; cbn in *; [apply Rn; exact X|apply Rb]. Qed.
Lemma er_final : forall p f, final_type d (Some p) (Some f) -> (er f <= er p)%nat.
Proof.
  intros p f [qs R]. remember (Some p) as p0 eqn:Q0. remember (Some f) as f0 eqn:Q1. revert p Q0. induction R as [|e K|e t q qs f' S R IH]; intros p Q0; try discriminate.
  - injection Q0 as ->. injection Q1 as ->. lia.
  - injection Q0 as ->. destruct t as [t|]; [|inversion R; congruence]. specialize (IH Q1 (St t) eq_refl). cbn [er] in IH.
    assert (rank t < er p)%nat; [|lia]. apply er_nested. left. left. exists q. exact S.
Qed.
Lemma rank_acyclic : acyclic d n0.
Proof. exists rank. split; [exact Rb|]. intros r t C. apply Rn. left. exact C. Qed.

Definition depth (m : mem) (anc : list value) (k : nat) : Prop :=
  exists ps, NoDup ps /\ length ps = k /\ forall p, In p ps -> 0 < p < 2 ^ 64 /\ exists a t, In a anc /\ points d m a t p.
Lemma depth_step : forall m anc k v, depth m anc k -> depth m (v :: anc) k.
Proof.
  intros m anc k v [ps [D [L Q]]]. exists ps. split; [exact D|]. split; [exact L|]. intros p I. destruct (Q p I) as [R [a [t [X Y]]]].
  split; [exact R|]. exists a, t. split; [right; exact X|exact Y].
Qed.
Lemma depth_ptr : forall m anc k v t p, bytes_ok m -> depth m anc k -> points d m v t p -> p <> 0 -> no_loop d m anc p -> depth m (v :: anc) (S k).
Proof.
  intros m anc k v t p B [ps [D [L Q]]] P NZ NL. exists (p :: ps). split; [|split].
  - constructor; [|exact D]. intro I. destruct (Q p I) as [_ [a [t' [X Y]]]]. exact (NL a t' X Y).
  - cbn. lia.
  - intros q [<-|I].
    + split; [|exists v, t; split; [left; reflexivity|exact P]]. destruct P as [_ ->]. pose proof (number_range m (v_addr v) 8 B) as X. change (8 * Z.of_nat 8) with 64 in X. lia.
    + destruct (Q q I) as [R [a [t' [X Y]]]]. split; [exact R|]. exists a, t'. split; [right; exact X|exact Y].
Qed.
Variable big : nat.
Hypothesis Hbig : Z.of_nat big = 2 ^ 64.
Lemma depth_big : forall m anc k, depth m anc k -> (k <= big)%nat.
Proof.
  intros m anc k [ps [D [<- Q]]].
  assert (I : incl (map Z.to_nat ps) (seq 0 big)).
  { intros i I. apply in_map_iff in I. destruct I as [p [<- I]]. destruct (Q p I) as [R _]. apply in_seq. lia. }
  rewrite <- (map_length Z.to_nat ps). rewrite <- (seq_length big 0). apply NoDup_incl_length; [|exact I].
  clear I. induction ps as [|p ps IH]; [constructor|]. inversion D as [|? ? D1 D2]. subst. cbn. constructor.
  - intro I. apply in_map_iff in I. destruct I as [q [X Y]]. apply D1.
    destruct (Q p (or_introl eq_refl)) as [R _]. destruct (Q q (or_intror Y)) as [R' _]. assert (q = p) by lia. subst. exact Y.
  - apply IH; [exact D2|]. intros q Y. apply Q. right. exact Y.
Qed.

(** children are of smaller rank *)
Lemma node_rank : forall m anc v sz ch y, looks E M m anc v (VNode sz ch) -> In y ch -> (er (v_entry y) < er (v_entry v))%nat.
Proof.
  intros m anc v sz ch y L I. destruct T as [_ [TU TF]].
  assert (G : forall i t, has_info d v i -> nested i t -> v_entry y = St t -> (er (v_entry y) < er (v_entry v))%nat).
  { intros i t [e [F Q]] X ->. pose proof (er_final _ _ F). rewrite <- Q in X. apply er_nested in X. cbn [er]. lia. }
  inversion L as [| | | | |sz' l z ch' H F S|sz' l z ch' H F S|sz' t c ch' w H W EA S|t c w H C F NA|]; subst.
  - assert (X : exists r, In r l /\ member_is d v r y).
    { clear - F I. induction F as [|r w l ch X F IH]; [destruct I|]. destruct I as [<-|I]; [exists r; split; [left; reflexivity|exact X]|].
      destruct (IH I) as [r' [R1 R2]]. exists r'. split; [right; exact R1|exact R2]. }
    destruct X as [r [R1 [mi [R2 [-> _]]]]]. eapply G; [exact H| |reflexivity]. right. exists AStruct, z, l. split; [reflexivity|exact R1].
  - destruct F as [[-> _]|[w [-> [_ F]]]]; [destruct I|]. destruct I as [<-|[]]. destruct (TU _ _ _ _ _ _ H F) as [r [mi [R1 [R2 _]]]].
    eapply G; [exact H| |exact R2]. right. exists AUnion, z, l. split; [reflexivity|exact R1].
  - destruct EA as [t' [c' [H' [_ X]]]]. destruct X as [r [zz [-> [_ X]]]]; [intro Q; subst; destruct I|].
    apply In_nth_error in I. destruct I as [i I]. destruct (X _ _ I) as [-> _]. cbn [v_entry].
    assert (DY : forall t0 c0, v_entry w = Dy (Build_entry None false (IArray (Some t0) c0)) -> r = t0).
    { intros t0 c0 Q. destruct H' as [e [F1 F2]]. rewrite Q in F1.
      assert (Some e = Some (Dy (Build_entry None false (IArray (Some t0) c0)))).
      { eapply final_type_fun; [exact F1|]. exists []. apply res_stop. intros t1 q1 SF. inversion SF. }
      assert (e = Dy (Build_entry None false (IArray (Some t0) c0))) by congruence. subst e. cbn in F2. congruence. }
    assert (GG : forall i t, has_info d v i -> nested i t -> (rank t < er (v_entry v))%nat).
    { intros i0 t0 [e [F Q]] Y. pose proof (er_final _ _ F). rewrite <- Q in Y. apply er_nested in Y. lia. }
    cbn [er]. destruct W as [[_ ->]|[_ [F|[_ [_ [r0 [-> ->]]]]]]].
    + eapply GG; [exact H'|]. left. right. left. exists c'. reflexivity.
    + destruct (TF _ _ _ _ _ _ H F) as [t0 [c1 [-> H1]]]. rewrite (DY _ _ H1). eapply GG; [exact H|]. left. right. left. exists c. reflexivity.
    + rewrite (DY r0 0 eq_refl). eapply GG; [exact H|]. left. right. left. exists c. reflexivity.
  - destruct I.
Qed.

(** parts of objects are objects *)
Lemma sized_object : forall p z, has_size d p z -> forall r f, p = Some (St r) -> final_type d p (Some f) -> ~ callable (e_info (deref d f)).
Proof.
  intros p z H. induction H; intros r f Q [qs R]; injection Q as ->;
    (inversion R as [|e0 K|e0 t0 q0 qs0 f0 SF R']; subst; [|try (match goal with X : e_info _ = _ |- _ => rewrite X in SF end; inversion SF; fail)]).
  all: try (match goal with X : e_info _ = _ |- _ => rewrite X end; exact (fun x => x)).
  - exfalso. eapply K; eassumption.
  - assert (X : t0 = t) by (inversion H; inversion SF; congruence). subst t0. destruct t as [t|]; [|inversion R'].
    eapply IHhas_size; [reflexivity|]. exists qs0. exact R'.
  - destruct Co as [_ C2]. cbn in H. rewrite (C2 _ _ H) in H0. inversion H0.
Qed.
Lemma part_object : forall m anc v sz ch y i, looks E M m anc v (VNode sz ch) -> In y ch -> has_info d y i -> ~ callable i.
Proof.
  intros m anc v sz ch y i L I HI. destruct T as [_ [TU _]].
  assert (G : forall r mi, v_entry y = St r -> e_info (d r) = IMember mi -> ~ callable i).
  { intros r mi Q X. eapply (proj1 Co); [exact X|]. unfold has_info in *. rewrite <- Q. exact HI. }
  inversion L as [| | | | |sz' l z ch' H F S|sz' l z ch' H F S|sz' t c ch' w H W EA S|t c w H C F NA|]; subst.
  - assert (X : exists r, In r l /\ member_is d v r y).
    { clear - F I. induction F as [|r w l ch X F IH]; [destruct I|]. destruct I as [<-|I]; [exists r; split; [left; reflexivity|exact X]|].
      destruct (IH I) as [r' [R1 R2]]. exists r'. split; [right; exact R1|exact R2]. }
    destruct X as [r [R1 [mi [R2 [-> _]]]]]. eapply G; [reflexivity|exact R2].
  - destruct F as [[-> _]|[w [-> [_ F]]]]; [destruct I|]. destruct I as [<-|[]]. destruct (TU _ _ _ _ _ _ H F) as [r [mi [R1 [R2 R3]]]].
    eapply G; eassumption.
  - destruct EA as [t' [c' [H' [_ X]]]]. destruct X as [r [zz [-> [Sz X]]]]; [intro Q; subst; destruct I|].
    apply In_nth_error in I. destruct I as [j I]. destruct (X _ _ I) as [Y _]. destruct HI as [f [Ff <-]]. rewrite Y in Ff.
    eapply sized_object; [exact Sz|reflexivity|exact Ff].
  - destruct I.
Qed.

Lemma grow_runs : forall v l sz, runs (grow v sz l).
Proof. intros v l. induction l as [|c l IH]; intro sz; [discriminate|]. cbn. destruct (v_addr (me_val c) <? v_addr v); [discriminate|apply IH]. Qed.
Lemma register_runs : forall s c, runs (register M s c).
Proof.
  intros s c. unfold register. destruct (mo_tree M); [discriminate|]. destruct (hfind _ _) as [p|]; [|discriminate].
  destruct (existsb _ _); [discriminate|]. destruct (_ <? _); discriminate.
Qed.
Definition is_call (v : value) : bool := match final_info E v with Ret (Some i) => is_call_info i | _ => false end.
Lemma is_call_yes : forall v, is_call v = true -> exists i, has_info d v i /\ callable i.
Proof.
  intros v H. unfold is_call in H. destruct (final_info E v) as [[i|]| | |] eqn:F; try discriminate. exists i.
  split; [apply final_info_some; exact F|]. destruct i as [ | | | | | | | | | |[|] ?| | | ]; try discriminate; exact I.
Qed.
(** bound on the depth below a value up to the next pointer *)
Definition budget (v : value) : nat := if is_call v then ((sd (v_addr v) + 1) * (n0 + 2))%nat else (er (v_entry v) + 1)%nat.
Lemma budget_le : forall v, (budget v <= (ks + 1) * (n0 + 2))%nat.
Proof.
  intro v. unfold budget. destruct (is_call v).
  - apply Nat.mul_le_mono_r. specialize (Cb (v_addr v)). lia.
  - pose proof (er_le (v_entry v)). rewrite Nat.mul_add_distr_r. lia.
Qed.
Lemma budget_pos : forall v, (1 <= budget v)%nat.
Proof. intro v. unfold budget. destruct (is_call v); [rewrite Nat.mul_add_distr_r|]; lia. Qed.
Lemma budget_item : forall v w, is_call v = true -> In w (en_items E (v_addr v)) -> (budget w < budget v)%nat.
Proof.
  intros v w V I. unfold budget at 2. rewrite V. unfold budget. destruct (is_call w) eqn:W.
  - destruct (is_call_yes _ W) as [i [I1 I2]]. pose proof (Cd _ _ _ I I1 I2) as L.
    apply Nat.mul_lt_mono_pos_r; lia.
  - pose proof (er_le (v_entry w)). rewrite Nat.mul_add_distr_r. lia.
Qed.
Lemma budget_part : forall m anc v sz ch y, looks E M m anc v (VNode sz ch) -> In y ch -> (budget y < budget v)%nat.
Proof.
  intros m anc v sz ch y L I. pose proof (node_rank _ _ _ _ _ _ L I) as R. unfold budget at 1.
  destruct (is_call y) eqn:Y.
  - destruct (is_call_yes _ Y) as [i [I1 I2]]. exfalso. exact (part_object _ _ _ _ _ _ _ L I I1 I2).
  - unfold budget. destruct (is_call v); [|lia]. pose proof (er_le (v_entry v)). rewrite Nat.mul_add_distr_r. lia.
Qed.
Notation width := ((ks + 1) * (n0 + 2))%nat.
Lemma build_runs : forall m, bytes_ok m -> forall k anc v s j, depth m anc j -> ((big - j) * width + budget v <= k)%nat -> runs (build E M k m anc v s).
Proof.
  intros m B k. induction k as [|k IH]; intros anc v s j D K.
  { pose proof (budget_pos v). set (q := ((big - j) * width)%nat) in K. clearbody q. lia. }
  rewrite build_eq.
  apply bind_runs; [apply (look_runs E M n0 rank_acyclic N); apply T|]. intros w W.
  assert (BL : forall l s, (forall c, In c l -> (budget c < budget v)%nat) -> runs (build_list E M k m (v :: anc) l s)).
  { intros l. induction l as [|c l IHl]; intros s0 I; [discriminate|]. cbn. apply bind_runs.
    - eapply IH; [apply depth_step; exact D|]. pose proof (I c (or_introl eq_refl)). revert K. generalize ((big - j) * width)%nat. lia.
    - intros [x s1] _. apply bind_runs; [apply IHl; intros y Y; apply I; right; exact Y|]. intros [xs s2] _. discriminate. }
  destruct w as [|sz|sz l|sz ch|sz t|ch]; try discriminate; cbn [fresh].
  - apply look_sound in W; [|discriminate].
    apply bind_runs; [apply BL; intros c C; eapply budget_part; eassumption|]. intros [rs s1] _. destruct (all_some rs); [|discriminate].
    apply bind_runs; [apply grow_runs|]. discriminate.
  - apply look_sound in W; [|discriminate].
    assert (P : exists t' p, points d m v t' p /\ p <> 0 /\ no_loop d m anc p).
    { inversion W as [| | | |sz' p w TG NL S| | | | |]; subst. inversion TG; subst; eexists; eexists; (split; [eassumption|split; assumption]). }
    destruct P as [t' [p [P1 [P2 P3]]]]. pose proof (depth_ptr _ _ _ _ _ _ B D P1 P2 P3) as D'. pose proof (depth_big _ _ _ D') as DB.
    apply bind_runs.
    + eapply IH; [exact D'|]. pose proof (budget_le t). pose proof (budget_pos v). assert (X : ((big - j) * width = (big - S j) * width + width)%nat).
      { replace (big - j)%nat with (S (big - S j))%nat by lia. rewrite Nat.mul_succ_l. reflexivity. }
      rewrite X in K. revert K H. generalize ((big - S j) * width)%nat. generalize width. intros. lia.
    + intros [x s1] _. destruct x as [c|]; [|discriminate]. apply bind_runs; [apply register_runs|]. discriminate.
  - destruct (look_kind _ _ _ _ _ _ W) as [[i [Fi Ci]] [Q _]].
    assert (V : is_call v = true).
    { unfold is_call. rewrite Fi. destruct i as [ | | | | | | | | | |[|] ?| | | ]; try contradiction; reflexivity. }
    apply bind_runs; [apply BL; intros c C; apply budget_item; [exact V|rewrite <- Q; exact C]|]. intros [rs s1] _. destruct (all_some rs); discriminate.
Qed.
Lemma map_runs : forall m v k, bytes_ok m -> (big * width + width <= k)%nat -> runs (new_memory_map E M k m v).
Proof.
  intros m v k B K. unfold new_memory_map. apply bind_runs; [|intros [x s] _; destruct x; [destruct (mo_tree M)|]; discriminate].
  eapply (build_runs m B k [] v _ 0%nat).
  - exists []. split; [constructor|]. split; [reflexivity|]. intros p [].
  - pose proof (budget_le v). rewrite Nat.sub_0_r. revert K H. generalize (big * width)%nat. generalize width. intros. lia.
Qed.
End Rank.

Section Ops.
Variable E : env.
Variable M : mode.
Variable n0 : nat.
Notation n := (en_fuel E).
Notation d := (en_db E).
Notation g := (en_garbage E).
Hypothesis A : acyclic d n0.
Hypothesis N : n = (n0 + 3)%nat.
Lemma shl_runs : forall a k, runs (shl_int a k).
Proof. intros. unfold shl_int. destruct (_ || _); discriminate. Qed.
Lemma sub_runs : forall a k, runs (sub_int a k).
Proof. intros. unfold sub_int. cbv zeta. destruct (_ || _); discriminate. Qed.
Lemma offsets_runs : forall mi, runs (bitfield_offsets mi).
Proof. intros mi. unfold bitfield_offsets. cbv zeta. destruct (m_bit_offset mi); [destruct (_ =? 0); discriminate|]. destruct (m_data_bit_offset mi); discriminate. Qed.
Ltac step := first
  [ discriminate | assumption
  | apply (final_if_runs E n0 A N) | apply (byte_size_runs E n0 A N) | apply (final_entry_runs E n0 A N)
  | apply shl_runs | apply sub_runs | apply offsets_runs
  | match goal with |- runs (bind _ _) => apply bind_runs; [|intros] end
  | match goal with |- runs (match ?x with _ => _ end) => destruct x end ].
Ltac go := repeat step.
Lemma check_runs : forall p name enc w, runs (check_base_type n d p name enc w).
Proof. intros. unfold check_base_type. go. Qed.
Lemma is_runs : forall v c, runs (value_is n d v c).
Proof. intros. unfold value_is, entry_is. apply bind_runs; [apply check_runs|]. intros a _. destruct c; try discriminate. destruct (a =? 0); [discriminate|]. apply bind_runs; [apply check_runs|discriminate]. Qed.
Lemma read_runs : forall m mi b w sg, runs (bitfield_read g m mi b w sg).
Proof. intros. unfold bitfield_read, bf_extract. go. Qed.
Lemma write_runs : forall m mi b w x, runs (bitfield_write g m mi b w x).
Proof. intros. unfold bitfield_write, bf_insert. go. Qed.
Lemma base_runs : forall m v name enc w, runs (value_base_type n d g m v name enc w).
Proof. intros. unfold value_base_type. go; try apply check_runs; apply read_runs. Qed.
Lemma set_base_runs : forall m v name enc w x, runs (value_set_base_type n d g m v name enc w x).
Proof. intros. unfold value_set_base_type. go; try apply check_runs; apply write_runs. Qed.
Lemma get_runs : forall m v c, runs (value_get n d g m v c).
Proof. intros. unfold value_get. apply bind_runs; [apply base_runs|]. intros a _. destruct c, a; try discriminate. apply bind_runs; [apply base_runs|discriminate]. Qed.
Lemma set_runs : forall m v c x, runs (value_set n d g m v c x).
Proof. intros. unfold value_set. apply bind_runs; [apply set_base_runs|]. intros a _. destruct c; try discriminate. destruct (fst a =? 0); [discriminate|]. apply bind_runs; [apply set_base_runs|discriminate]. Qed.
Lemma enum_runs : forall m v, runs (value_enumeration n d m v).
Proof. intros. unfold value_enumeration, enum_size. go. Qed.
Lemma set_enum_runs : forall m v x, runs (value_set_enumeration n d m v x).
Proof. intros. unfold value_set_enumeration, enum_size. go. Qed.
Lemma set_pointer_runs : forall m v x, runs (value_set_pointer n d m v x).
Proof. intros. unfold value_set_pointer. go. Qed.
Lemma equal_loop_runs : forall feq m v1 v2 l, runs (equal_loop feq n d g m v1 v2 l).
Proof.
  intros feq m v1 v2 l. induction l as [|c l IH]; [discriminate|]. cbn. apply bind_runs; [apply is_runs|]. intros [|] _; [|exact IH].
  apply bind_runs; [apply is_runs|]. intros [|] _; [|discriminate]. apply bind_runs; [apply get_runs|]. intros [x|x] _; [discriminate|].
  apply bind_runs; [apply get_runs|]. intros [y|y] _; discriminate.
Qed.
Lemma copy_loop_runs : forall m v1 v2 l, runs (copy_loop n d g m v1 v2 l).
Proof.
  intros m v1 v2 l. induction l as [|c l IH]; [discriminate|]. cbn. apply bind_runs; [apply is_runs|]. intros [|] _; [|exact IH].
  apply bind_runs; [apply is_runs|]. intros [|] _; [|discriminate]. apply bind_runs; [apply get_runs|]. intros [x|x] _; [discriminate|].
  apply bind_runs; [apply set_runs|]. discriminate.
Qed.
Lemma equal_enum_runs : forall m v1 v2, runs (value_equal_enumeration n d m v1 v2).
Proof. intros. unfold value_equal_enumeration. apply bind_runs; [apply enum_runs|]. intros [x|x] _; (apply bind_runs; [try discriminate; apply enum_runs|discriminate]). Qed.
Lemma equal_pointer_runs : forall m v1 v2, runs (value_equal_pointer n d m v1 v2).
Proof. intros. unfold value_equal_pointer. apply bind_runs; [apply (pointer_runs E n0 A N)|]. intros [x|x] _; (apply bind_runs; [try discriminate; apply (pointer_runs E n0 A N)|discriminate]). Qed.
Lemma copy_enum_runs : forall m v1 v2, runs (value_copy_enumeration n d m v1 v2).
Proof. intros. unfold value_copy_enumeration. apply bind_runs; [apply enum_runs|]. intros [x|x] _; [discriminate|]. apply bind_runs; [apply set_enum_runs|discriminate]. Qed.
Lemma copy_pointer_runs : forall m v1 v2, runs (value_copy_pointer n d m v1 v2).
Proof. intros. unfold value_copy_pointer. apply bind_runs; [apply (pointer_runs E n0 A N)|]. intros [x|x] _; [discriminate|]. apply bind_runs; [apply set_pointer_runs|discriminate]. Qed.

Lemma equal_here_runs : forall feq m o1 o2 e1 e2, runs (equal_here E M feq m o1 o2 e1 e2).
Proof.
  intros. unfold equal_here. apply bind_runs; [apply (final_info_runs E n0 A N)|]. intros f1 _. apply bind_runs; [apply (final_info_runs E n0 A N)|]. intros f2 _.
  cbv zeta. destruct (_ || _); [discriminate|].
  destruct f1 as [[ | | | | | | | |[]| | | | | ]|]; try discriminate; destruct f2 as [[ | | | | | | | |[]| | | | | ]|]; try discriminate.
  - apply bind_runs; [apply equal_loop_runs|discriminate].
  - destruct (me_ch e1); [|discriminate]. destruct (mo_uptr M); try discriminate. apply bind_runs; [apply equal_pointer_runs|discriminate].
  - apply bind_runs; [apply equal_enum_runs|discriminate].
  - destruct (mo_union M); try discriminate. destruct (me_ch e1); [|discriminate]. destruct (_ && _); discriminate.
Qed.
Lemma equal_tree_runs : forall feq m o1 o2 e1 e2, runs (equal_tree E M feq m o1 o2 e1 e2).
Proof.
  intros feq m o1 o2 e1. induction e1 as [i v s l ch F] using ment_ind2. intro e2. rewrite equal_tree_eq. apply bind_runs; [apply equal_here_runs|].
  intros [r|[]] _; [discriminate|]. cbn [me_ch]. generalize (me_ch e2) as l2. induction F as [|a ch P F IH]; intro l2; [destruct l2; discriminate|].
  destruct l2 as [|b l2]; [discriminate|]. cbn [equal_list]. apply bind_runs; [apply P|]. intros [f c] _. apply bind_runs; [apply IH|]. intros [fs cs] _. discriminate.
Qed.

Variable ord : list hent -> list hent.
Variable cal : nat -> Z -> Z.
Variable same_decl : option eptr -> option eptr -> res bool.
Hypothesis SD : forall a b, runs (same_decl a b).
Lemma copy_here_runs : forall off tab anc e dst s, runs (copy_here E M cal off tab anc e dst s).
Proof.
  intros. unfold copy_here. apply bind_runs; [apply (final_info_runs E n0 A N)|]. intros f _. cbv zeta.
  destruct f as [[ | | | | | | | |[]| | | | | ]|]; try discriminate.
  - apply bind_runs; [apply copy_loop_runs|]. discriminate.
  - destruct (me_ch e) as [|c r].
    + destruct (0 <? me_loop e).
      * destruct (nth_error _ _); [|discriminate]. apply bind_runs; [apply (kind_is_runs E n0 A N)|]. intros [|] _; [|discriminate]. apply bind_runs; [apply copy_pointer_runs|discriminate].
      * destruct (mo_uptr M); try discriminate; (apply bind_runs; [first [apply set_pointer_runs|apply copy_pointer_runs]|discriminate]).
    + destruct (child_block _ _ _ _ _ _) as [a s']. destruct (a =? 0); [discriminate|]. apply bind_runs; [apply (pointer_runs E n0 A N)|].
      intros [x|p] _; [discriminate|]. destruct (p =? 0); [discriminate|]. apply bind_runs; [apply set_pointer_runs|discriminate].
  - apply bind_runs; [apply copy_enum_runs|]. discriminate.
  - destruct (me_ch e); [|discriminate]. destruct (mo_union M); try discriminate; destruct (0 <? me_size e); discriminate.
Qed.
Definition copy_list off tab anc (e : ment) (over : option Z) (ptr : bool) (dst : value) :=
  fix go (l : list ment) (s : cst) : res (bool * cst) :=
    match l with
    | [] => Ret (true, s)
    | c :: r =>
      let a := match over with
               | Some a => a
               | None => uwrap 64 (v_addr dst + uwrap 64 (v_addr (me_val c) - v_addr (me_val e)))
               end in
      if a =? 0 then Abort
      else
        (do '(b, s) <- copy_tree E M cal off tab (dst :: anc) c (Build_value (v_entry (me_val c)) a) s;
        do '(bs, s) <- go r s;
        Ret (b && bs, if negb b && ptr && mo_tree M then log s (EvLibcFree a) else s))%res
    end.
Definition store_list (dst : Z) :=
  fix go (l : list ment) (s : cst) : res cst :=
    match l with
    | [] => Ret s
    | c :: r =>
      let w := me_val c in
      let a := en_buf E (c_bufs s) in
      match e_info (deref d (v_entry w)) with
      | IParam true _ => (do s <- storage_copy E c a (append_item E s dst (v_entry w) (c_mem s)); go r s)%res
      | _ =>
        (do z <- byte_size n d (Some (v_entry w));
        match z with
        | inr _ => Abort
        | inl sz => if sz =? 0 then Abort else go r (append_item E s dst (v_entry w) (copy_bytes (c_mem s) (v_addr w) (zero_fill (c_mem s) a sz) a sz))
        end)%res
      end
    end.
Lemma storage_copy_eq : forall e dst s, storage_copy E e dst s = store_list dst (me_ch e) s.
Proof. intros [] dst s. reflexivity. Qed.
Definition copy_args off tab anc (dst : value) :=
  fix go (l : list ment) (ds : list value) (s : cst) : res (bool * cst) :=
    match l, ds with
    | [], _ => Ret (true, s)
    | c :: r, w :: dr =>
      if v_addr w =? 0 then Abort
      else (do '(b, s) <- copy_tree E M cal off tab (dst :: anc) c w s;
            do '(bs, s) <- go r dr s;
            Ret (b && bs, s))%res
    | _ :: _, [] => Abort
    end.
Lemma copy_tree_eq : forall off tab anc e dst s, copy_tree E M cal off tab anc e dst s =
  (do f <- final_info E (me_val e);
   if match f with Some i => is_call_info i | None => false end then
     match c_items s (v_addr dst) with
     | _ :: _ => Ret (false, s)
     | [] => do s <- storage_copy E e (v_addr dst) s;
             copy_args off tab anc dst (me_ch e) (c_items s (v_addr dst)) s
     end
   else
   do '(h, s) <- copy_here E M cal off tab anc e dst s;
   match h with
   | None => Ret (false, s)
   | Some over =>
     let ptr := match f with Some (IPointer _) => true | _ => false end in
     copy_list off tab anc e over ptr dst (me_ch e) s
   end)%res.
Proof. intros off tab anc [] dst s. reflexivity. Qed.
Lemma storage_runs : forall e dst s, runs (storage_copy E e dst s).
Proof.
  intro e. induction e as [i v sz l ch F] using ment_ind2. intros dst s. rewrite storage_copy_eq. cbn [me_ch]. revert s.
  induction F as [|a ch P F IH]; intro s; [discriminate|]. cbn [store_list]. cbv zeta.
  assert (K : runs (bind (byte_size n d (Some (v_entry (me_val a)))) (fun z => match z with
        | inr _ => Abort
        | inl sz => if sz =? 0 then Abort else store_list dst ch (append_item E s dst (v_entry (me_val a)) (copy_bytes (c_mem s) (v_addr (me_val a)) (zero_fill (c_mem s) (en_buf E (c_bufs s)) sz) (en_buf E (c_bufs s)) sz))
        end))).
  { apply bind_runs; [apply (byte_size_runs E n0 A N)|]. intros [z|z] _; [destruct (z =? 0); [discriminate|apply IH]|discriminate]. }
  destruct (e_info _) as [ | | | | | | | | | |[|] ?| | | ]; try exact K. apply bind_runs; [apply P|]. intros s1 _. apply IH.
Qed.
Lemma copy_tree_runs : forall off tab e anc dst s, runs (copy_tree E M cal off tab anc e dst s).
Proof.
  intros off tab e. induction e as [i v sz l ch F] using ment_ind2. intros anc dst s. rewrite copy_tree_eq.
  apply bind_runs; [apply (final_info_runs E n0 A N)|]. intros f _.
  destruct (match f with Some i => is_call_info i | None => false end).
  { destruct (c_items s (v_addr dst)); [|discriminate]. apply bind_runs; [apply storage_runs|]. intros s1 _. cbn [me_ch].
    generalize (c_items s1 (v_addr dst)) as ds. revert s1. induction F as [|a ch P F IH]; intros s1 ds; [discriminate|]. destruct ds as [|w ds]; [discriminate|].
    cbn [copy_args]. destruct (v_addr w =? 0); [discriminate|]. apply bind_runs; [apply P|]. intros [b s2] _. apply bind_runs; [apply IH|]. intros [bs s3] _. discriminate. }
  apply bind_runs; [apply copy_here_runs|]. intros [[over|] s1] _; [|discriminate].
  cbv zeta. cbn [me_ch]. generalize (ME i v sz l ch) as e0. intro e0.
  generalize (match f with Some (IPointer _) => true | _ => false end) as ptr. intro ptr. clear f.
  revert s1. induction F as [|a ch P F IH]; intro s1; [discriminate|]. cbn [copy_list]. cbv zeta. destruct (_ =? 0); [discriminate|].
  apply bind_runs; [apply P|]. intros [b s2] _. apply bind_runs; [apply IH|]. intros [bs s3] _. discriminate.
Qed.
End Ops.

Lemma deep_terminates : forall E M n0, finite_types (en_db E) n0 -> en_fuel E = (n0 + 3)%nat -> tame E -> finite_calls E ->
  exists k0, forall k, (k0 <= k)%nat -> forall m v, bytes_ok m -> new_memory_map E M k m v <> OutOfFuel.
Proof.
  intros E M n0 [rank [R1 R2]] N T [C1 [ks [sd [C2 C3]]]]. exists (Z.to_nat (2 ^ 64) * ((ks + 1) * (n0 + 2)) + (ks + 1) * (n0 + 2))%nat. intros k K m v B.
  eapply (map_runs E M n0 rank R1 R2 N T ks sd C1 C2 C3); [|exact B|exact K]. apply Z2Nat.id. apply Z.pow_nonneg. discriminate.
Qed.
Lemma finite_acyclic : forall d n, finite_types d n -> acyclic d n.
Proof. intros d n [rank [A B]]. exists rank. split; [exact A|]. intros r t C. apply B. left. exact C. Qed.
Lemma all_terminate : forall E M n0, finite_types (en_db E) n0 -> en_fuel E = (n0 + 3)%nat -> tame E -> finite_calls E ->
  exists k0, forall k, (k0 <= k)%nat ->
    (forall ord m v, bytes_ok m -> free_ex E M ord k m v <> OutOfFuel) /\
    (forall feq m v1 v2, bytes_ok m -> equal_ex E M feq k m v1 v2 <> OutOfFuel) /\
    (forall ord cal sd src dst s, bytes_ok (c_mem s) -> (forall a b, sd a b <> OutOfFuel) -> copy_ex E M ord cal sd k src dst s <> OutOfFuel).
Proof.
  intros E M n0 Fi N T Fc. pose proof (finite_acyclic _ _ Fi) as A.
  destruct (deep_terminates E M n0 Fi N T Fc) as [k1 K1]. destruct (deep_terminates E (dag M) n0 Fi N T Fc) as [k2 K2].
  exists (Nat.max k1 k2). intros k K. split; [|split].
  - intros ord m v B. unfold free_ex. apply bind_runs; [apply K2; [lia|exact B]|]. discriminate.
  - intros feq m v1 v2 B. unfold equal_ex. apply bind_runs; [apply K1; [lia|exact B]|]. intros [m1|] _; [|discriminate].
    apply bind_runs; [apply K1; [lia|exact B]|]. intros [m2|] _; [|discriminate]. apply bind_runs; [apply (equal_tree_runs E M n0 A N)|].
    intros [f c] _. discriminate.
  - intros ord cal sd src dst s B SD. unfold copy_ex. apply bind_runs; [apply (final_if_runs E n0 A N)|]. intros f1 _.
    apply bind_runs; [apply (final_if_runs E n0 A N)|]. intros f2 _. destruct f1; [|discriminate]. destruct f2; [|discriminate].
    apply bind_runs; [apply SD|]. intros [|] _; [|discriminate]. cbn [negb]. apply bind_runs; [apply K1; [lia|exact B]|].
    intros [mm|] _; [|discriminate]. destruct (if mo_tree M then _ else _) as [[ok s1] tab]. destruct ok; cbn [negb]; [|discriminate].
    apply bind_runs; [apply (copy_tree_runs E M n0 A N)|]. intros [b s2] _. destruct b; discriminate.
Qed.
