(** Deep copies: the translation of addresses and the invariant of the traversal. *)
From Coq Require Import ZArith String List Bool Lia ZifyBool Permutation.
From Verif Require Import Base BaseProof EntryModel EntrySpec EntryProof ValueModel ValueSpec ValueProof ValueProof2 DeepModel DeepSpec
  DeepProof DeepProof2 DeepProof4 DeepProof5 DeepProof6 DeepProof7 DeepProof8 CopySpec.
Import ListNotations.
Open Scope Z_scope.

(** * Memory *)
Lemma store_copy : forall m n a b v i, bytes_ok m -> v mod 2 ^ (8 * Z.of_nat n) = number_at m a n -> 0 <= i < Z.of_nat n ->
  store m b n v (b + i) = m (a + i).
Proof.
  intros m n a b v i B V I. apply byte_bits_ext; [apply store_bytes_ok; exact B|apply B|]. intros j J. rewrite store_bit by exact J.
  replace ((b <=? b + i) && (b + i <? b + Z.of_nat n)) with true by lia. replace (8 * (b + i - b) + j) with (j + i * 8) by lia.
  rewrite <- (Z.mod_pow2_bits_low v (8 * Z.of_nat n)) by lia. rewrite V, <- load_number, (load_bit m B) by lia.
  rewrite Z.div_add by discriminate. rewrite Z.mod_add by discriminate. rewrite Z.div_small, Z.mod_small by lia. reflexivity.
Qed.
Lemma store_out : forall m a n v x, ~ (a <= x < a + Z.of_nat n) -> store m a n v x = m x.
Proof. intros m a n v x H. rewrite store_get. destruct ((a <=? x) && (x <? a + Z.of_nat n)) eqn:Q; [lia|reflexivity]. Qed.
Lemma number_ext : forall n m m' a, (forall x, a <= x < a + Z.of_nat n -> m x = m' x) -> number_at m a n = number_at m' a n.
Proof. intros n m m' a H. rewrite <- !load_number. apply load_ext. exact H. Qed.
Lemma number_store : forall m a x, 0 <= x < 2 ^ 64 -> number_at (store m a 8 x) a 8 = x.
Proof. intros m a x H. rewrite <- load_number, load_store. apply uwrap_small. exact H. Qed.

Lemma set_base_store : forall n d g m v name enc w x m', plain d v -> value_set_base_type n d g m v name enc w x = Ret (0, m') ->
  m' = store m (v_addr v) (Z.to_nat w) x.
Proof.
  intros n d g m v name enc w x m' P H. unfold value_set_base_type in H. apply bind_ret in H. destruct H as [[f q] [F H]]. cbn [fst snd] in H.
  destruct f as [e|]; [|inversion H]. destruct (q_const q); [inversion H|]. apply bind_ret in H. destruct H as [r [C H]].
  destruct (negb (r =? 0)) eqn:NR; [assert (r = 0) by congruence; lia|].
  destruct (member_or (e_info (deref d (v_entry v)))) as [(mi & I)|I].
  - rewrite I in H. destruct (P mi I) as (P1 & P2 & P3). unfold plain_member in H. rewrite P1, P2, P3 in H. injection H as <-. reflexivity.
  - rewrite (not_member _ _ _ _ I) in H. injection H as <-. reflexivity.
Qed.
Lemma value_set_store : forall n d g m v c x m', plain d v -> value_set n d g m v c x = Ret (0, m') -> m' = store m (v_addr v) (Z.to_nat (ct_size c)) x.
Proof.
  intros n d g m v c x m' P H. unfold value_set in H. apply bind_ret in H. destruct H as [[s1 m1] [A H]]. cbn [fst snd] in H.
  assert (CC : c = CChar \/ c <> CChar) by (destruct c; auto; right; discriminate). destruct CC as [->|CC].
  - destruct (Z.eqb_spec s1 0) as [->|NZ].
    + injection H as <-. eapply set_base_store; eassumption.
    + pose proof (set_base_sound _ _ _ _ _ _ _ _ _ _ _ A) as [_ A2]. rewrite (A2 NZ) in H. apply bind_ret in H. destruct H as [[s2 m2] [B H]]. cbn [fst snd] in H.
      pose proof (set_base_sound _ _ _ _ _ _ _ _ _ _ _ B) as [_ B2].
      destruct (Z.eqb_spec s2 0) as [->|NZ2]; [|inversion H].
      injection H as <-. eapply set_base_store; eassumption.
  - assert (Ret (s1, m1) = Ret (0, m')) as Q by (destruct c; auto; congruence). injection Q as -> ->. eapply set_base_store; eassumption.
Qed.

(** * Sizes *)
Lemma fold_max_start : forall l z, z <= fold_left Z.max l z.
Proof. induction l as [|a l IH]; intro z; cbn; [lia|]. specialize (IH (Z.max z a)). lia. Qed.
Lemma fold_max_in : forall l z x, In x l -> x <= fold_left Z.max l z.
Proof. induction l as [|a l IH]; intros z x []; cbn; [|apply IH; assumption]. subst. pose proof (fold_max_start l (Z.max z x)). lia. Qed.
Section Sizes.
Variable E : env.
Variable M : mode.
Notation d := (en_db E).
Lemma size_nonneg : forall v z, size_of d v z -> 0 <= z.
Proof. intros v z [x [_ ->]]. apply Z.mod_pos_bound. reflexivity. Qed.
Lemma node_nonneg : forall m anc v sz ch, looks E M m anc v (VNode sz ch) -> 0 <= sz.
Proof.
  intros m anc v sz ch H. inversion H as [| | | | |sz1 l1 z1 ch1 I1 F1 S1|sz1 l1 z1 ch1 I1 F1 S1|sz1 t1 c1 ch1 w1 I1 W1 E1 S1|t1 c1 w1 I1 C1 H1 N1 |]; subst; try (eapply size_nonneg; eassumption); [|lia].
  destruct ch; [lia|eapply size_nonneg; eassumption].
Qed.
Lemma extent_nonneg : forall m anc v z, extent E M m anc v z -> 0 <= z.
Proof.
  intros m anc v z H. inversion H as [anc0 v0 sz i I K S|anc0 v0 sz ch zs N F|anc0 v0 ic Ic Kc]; subst; [eapply size_nonneg; eassumption| |lia].
  apply node_nonneg in N. pose proof (fold_max_start (ends v ch zs) sz). lia.
Qed.
(** sizes of scalars *)
Lemma info_size : forall v i z, has_info d v i -> size_of d v z ->
  match i with IBase w _ | IEnum w _ => z = w mod 2 ^ 64 | IPointer _ => z = 8 | _ => True end.
Proof.
  intros v i z [e [[qs F] I]] [w [S ->]]. apply (size_of_final _ _ _ _ F) in S.
  destruct i; try exact Logic.I; inversion S; subst; try congruence;
    try (match goal with K : stands_for _ _ _ |- _ => rewrite I in K; inversion K end; fail); try (f_equal; congruence); try reflexivity.
Qed.
End Sizes.

(** * Regions *)
Section Regions.
Variable R : list region.
Hypothesis RF : forall r, In r R -> 0 < r_src r /\ 0 <= r_size r /\ r_src r + r_size r < 2 ^ 64 /\ 0 < r_dst r /\ r_dst r + r_size r < 2 ^ 64.
Hypothesis RS : forall r r', In r R -> In r' R -> r = r' \/ r_src r + r_size r <= r_src r' \/ r_src r' + r_size r' <= r_src r.
Hypothesis RD : forall r r', In r R -> In r' R -> r = r' \/ r_dst r + r_size r <= r_dst r' \/ r_dst r' + r_size r' <= r_dst r.
Hypothesis RX : forall r r', In r R -> In r' R -> r_src r + r_size r <= r_dst r' \/ r_dst r' + r_size r' <= r_src r.

Definition tau (p : Z) : Z := match find (fun r => (r_src r <=? p) && (p <? r_src r + r_size r)) R with Some r => moved r p | None => 0 end.
Definition target_byte (b : Z) : Prop := exists r, In r R /\ r_dst r <= b < r_dst r + r_size r.
Lemma region_eq : forall r r' a, In r R -> In r' R -> r_src r <= a < r_src r + r_size r -> r_src r' <= a < r_src r' + r_size r' -> r = r'.
Proof. intros r r' a I I' A A'. destruct (RS r r' I I') as [Q|Q]; [exact Q|lia]. Qed.
Lemma tau_in : forall r p, In r R -> r_src r <= p < r_src r + r_size r -> tau p = moved r p.
Proof.
  intros r p I P. unfold tau. destruct (find _ R) as [r'|] eqn:F.
  - apply find_some in F. destruct F as [F1 F2]. f_equal. apply (region_eq r' r p); try assumption. lia.
  - eapply find_none in F; [|exact I]. cbn in F. lia.
Qed.
Lemma moved_inj : forall r r' a b, In r R -> In r' R -> r_src r <= a < r_src r + r_size r -> r_src r' <= b < r_src r' + r_size r' ->
  moved r a = moved r' b -> r = r' /\ a = b.
Proof. intros r r' a b I I' A A' Q. unfold moved in Q. destruct (RD r r' I I') as [<-|K]; [split; [reflexivity|lia]|lia]. Qed.
Lemma source_safe : forall r a, In r R -> r_src r <= a < r_src r + r_size r -> ~ target_byte a.
Proof. intros r a I A [r' [I' A']]. specialize (RX r r' I I'). lia. Qed.
Lemma moved_target : forall r a, In r R -> r_src r <= a < r_src r + r_size r -> target_byte (moved r a).
Proof. intros r a I A. exists r. split; [exact I|]. unfold moved. lia. Qed.

(** a scalar of the source has its image in [cm] *)
Variable m0 : mem.
Definition image (cm : mem) (r : region) (a z : Z) (b : bool) : Prop :=
  if b then number_at cm (moved r a) 8 = (if number_at m0 a 8 =? 0 then 0 else tau (number_at m0 a 8))
  else forall i, 0 <= i < z -> cm (moved r a + i) = m0 (a + i).
Definition done (cm : mem) (a z : Z) (b : bool) : Prop := forall r, In r R -> in_region r a z -> image cm r a z b.

Lemma done_keep : forall cm cm' a z b r ax zx bx, In r R -> in_region r a z ->
  (forall x, ~ (moved r a <= x < moved r a + z) -> cm' x = cm x) -> image cm' r a z b ->
  (b = true -> z = 8) -> (bx = true -> zx = 8) ->
  (meet a z ax zx -> b = bx /\ (b = true -> a = ax)) ->
  done cm ax zx bx -> done cm' ax zx bx.
Proof.
  intros cm cm' a z b r ax zx bx Ir Ar Out Im Zb Zx Vw Dn rx Irx Arx. specialize (Dn rx Irx Arx).
  unfold in_region in Ar, Arx.
  assert (Miss : (forall i, 0 <= i < zx -> moved r a <= moved rx ax + i < moved r a + z -> exists j, 0 <= j < z /\ ax + i = a + j /\ r = rx)).
  { intros i I H. exists (moved rx ax + i - moved r a).
    destruct (moved_inj r rx (a + (moved rx ax + i - moved r a)) (ax + i)) as [E1 E2]; try assumption; unfold moved in *; try lia.
    split; [lia|]. split; [lia|exact E1]. }
  assert (C : (0 < z /\ 0 < zx /\ ax < a + z /\ a < ax + zx) \/ ~ (0 < z /\ 0 < zx /\ ax < a + z /\ a < ax + zx)) by lia.
  destruct C as [C|C].
  - destruct Vw as [Eb Ea]. { exists (Z.max a ax). lia. } subst bx. destruct b.
    + specialize (Ea eq_refl). specialize (Zb eq_refl). specialize (Zx eq_refl). subst ax zx z.
      assert (rx = r) by (apply (region_eq rx r a); try assumption; lia). subst rx. exact Im.
    + cbn [image] in *. intros i I. assert (D : moved r a <= moved rx ax + i < moved r a + z \/ ~ (moved r a <= moved rx ax + i < moved r a + z)) by lia.
      destruct D as [D|D].
      * destruct (Miss i I D) as [j [J [Q1 Q2]]]. subst rx. replace (moved r ax + i) with (moved r a + j) by (unfold moved; lia). rewrite Q1. apply Im. exact J.
      * rewrite Out by exact D. apply Dn. exact I.
  - assert (K : forall i, 0 <= i < zx -> cm' (moved rx ax + i) = cm (moved rx ax + i)).
    { intros i I. apply Out. intro D. destruct (Miss i I D) as [j [J [Q1 Q2]]]. lia. }
    destruct bx; cbn [image] in *.
    + specialize (Zx eq_refl). subst zx. rewrite <- Dn. apply number_ext. intros x X. replace x with (moved rx ax + (x - moved rx ax)) by lia. apply K. lia.
    + intros i I. rewrite K by exact I. apply Dn. exact I.
Qed.
End Regions.
