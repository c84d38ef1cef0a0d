(** Facts about machine words and byte memory (Base.v). *)
From Coq Require Import ZArith String List Bool Lia ZifyBool.
From Verif Require Import Base.
Import ListNotations.
Open Scope Z_scope.

Lemma uwrap_bit : forall n v i, 0 <= i < n -> Z.testbit (uwrap n v) i = Z.testbit v i.
Proof. intros. unfold uwrap. apply Z.mod_pow2_bits_low. lia. Qed.
Lemma uwrap_high : forall n v i, 0 <= n <= i -> Z.testbit (uwrap n v) i = false.
Proof. intros. unfold uwrap. apply Z.mod_pow2_bits_high. lia. Qed.
Lemma uwrap_range : forall n v, 0 <= n -> 0 <= uwrap n v < 2 ^ n.
Proof. intros. unfold uwrap. apply Z.mod_pos_bound. apply Z.pow_pos_nonneg; lia. Qed.
Lemma uwrap_small : forall n v, 0 <= v < 2 ^ n -> uwrap n v = v.
Proof. intros. unfold uwrap. apply Z.mod_small. auto. Qed.
Lemma pow2_double : forall n, 0 < n -> 2 ^ n = 2 * 2 ^ (n - 1).
Proof. intros. replace n with (Z.succ (n - 1)) at 1 by lia. rewrite Z.pow_succ_r by lia. reflexivity. Qed.
Lemma swrap_mod : forall n v, 0 < n -> (swrap n v) mod 2 ^ n = v mod 2 ^ n.
Proof.
  intros n v P. unfold swrap. rewrite Zminus_mod_idemp_l. f_equal. lia.
Qed.
Lemma swrap_bit : forall n v i, 0 <= i < n -> Z.testbit (swrap n v) i = Z.testbit v i.
Proof.
  intros n v i L. rewrite <- (Z.mod_pow2_bits_low (swrap n v) n i) by lia. rewrite swrap_mod by lia. apply Z.mod_pow2_bits_low. lia.
Qed.
Lemma swrap_small : forall n v, 0 < n -> - 2 ^ (n - 1) <= v < 2 ^ (n - 1) -> swrap n v = v.
Proof. intros n v P L. unfold swrap. rewrite Z.mod_small; [lia|]. rewrite (pow2_double n) by auto. lia. Qed.
Lemma swrap_range : forall n v, 0 < n -> - 2 ^ (n - 1) <= swrap n v < 2 ^ (n - 1).
Proof.
  intros n v P. unfold swrap. assert (D := pow2_double n P). set (h := 2 ^ (n - 1)) in *. rewrite D.
  assert (0 < h) by (apply Z.pow_pos_nonneg; lia). assert (B := Z.mod_pos_bound (v + h) (2 * h) ltac:(lia)). lia.
Qed.
Lemma swrap_uwrap : forall n v, 0 < n -> swrap n (uwrap n v) = swrap n v.
Proof. intros n v P. unfold swrap, uwrap. f_equal. rewrite Zplus_mod_idemp_l. reflexivity. Qed.
Lemma pow256 : forall n, 2 ^ (8 * Z.of_nat n) = 256 ^ Z.of_nat n.
Proof. intros. rewrite Z.pow_mul_r by lia. reflexivity. Qed.

Lemma load_range : forall m, bytes_ok m -> forall n a, 0 <= load m a n < 2 ^ (8 * Z.of_nat n).
Proof.
  intros m B. induction n as [|n IH]; intros a; [cbn; lia|]. cbn [load]. specialize (IH (a + 1)). specialize (B a).
  rewrite pow256 in *. rewrite Nat2Z.inj_succ, Z.pow_succ_r by lia. nia.
Qed.
Lemma load_bit : forall m, bytes_ok m -> forall n a i, 0 <= i < 8 * Z.of_nat n ->
  Z.testbit (load m a n) i = Z.testbit (m (a + i / 8)) (i mod 8).
Proof.
  intros m B. induction n as [|n IH]; intros a i L; [cbn in L; lia|]. cbn [load].
  assert (Ba := B a). destruct (Z_lt_dec i 8).
  - rewrite <- (Z.mod_pow2_bits_low _ 8) by lia. change (2 ^ 8) with 256.
    rewrite Z.mul_comm, Z_mod_plus_full, Z.mod_small by lia. rewrite Z.div_small, Z.mod_small by lia. f_equal. f_equal. lia.
  - replace i with (i - 8 + 8) at 1 by lia. rewrite <- Z.div_pow2_bits by lia. change (2 ^ 8) with 256.
    rewrite Z.mul_comm, Z_div_plus_full by lia. rewrite (Z.div_small (m a)) by lia. rewrite Z.add_0_l, IH by lia.
    replace (i / 8) with ((i - 8) / 8 + 1). 2:{ replace i with (i - 8 + 1 * 8) at 2 by lia. rewrite Z_div_plus_full by lia. lia. }
    replace (i mod 8) with ((i - 8) mod 8). 2:{ replace i with (i - 8 + 1 * 8) at 2 by lia. rewrite Z_mod_plus_full by lia. lia. }
    f_equal. f_equal. lia.
Qed.
Lemma store_get : forall n m a v x, store m a n v x =
  if (a <=? x) && (x <? a + Z.of_nat n) then (v / 256 ^ (x - a)) mod 256 else m x.
Proof.
  induction n as [|n IH]; intros m a v x; cbn [store].
  - destruct (Z.leb_spec a x), (Z.ltb_spec x (a + Z.of_nat 0)); cbn [andb]; auto; lia.
  - rewrite IH. destruct (Z.eqb_spec x a).
    + subst. destruct (Z.leb_spec (a + 1) a); [lia|]. cbn [andb].
      destruct (Z.leb_spec a a), (Z.ltb_spec a (a + Z.of_nat (S n))); cbn [andb]; try lia.
      rewrite Z.sub_diag, Z.pow_0_r, Z.div_1_r. reflexivity.
    + destruct (Z.leb_spec (a + 1) x), (Z.ltb_spec x (a + 1 + Z.of_nat n)), (Z.leb_spec a x), (Z.ltb_spec x (a + Z.of_nat (S n)));
        cbn [andb]; try lia; auto.
      rewrite Zdiv_Zdiv by lia. do 2 f_equal. replace (x - a) with (Z.succ (x - (a + 1))) by lia. rewrite Z.pow_succ_r by lia. reflexivity.
Qed.
Lemma store_bytes_ok : forall m a n v, bytes_ok m -> bytes_ok (store m a n v).
Proof. intros m a n v B x. rewrite store_get. destruct (_ && _); [apply Z.mod_pos_bound; lia|apply B]. Qed.
Lemma store_bit : forall m a n v x j, 0 <= j < 8 ->
  Z.testbit (store m a n v x) j = if (a <=? x) && (x <? a + Z.of_nat n) then Z.testbit v (8 * (x - a) + j) else Z.testbit (m x) j.
Proof.
  intros m a n v x j J. rewrite store_get. destruct (Z.leb_spec a x); cbn [andb]; auto. destruct (Z.ltb_spec x (a + Z.of_nat n)); auto.
  change 256 with (2 ^ 8) at 2. rewrite Z.mod_pow2_bits_low by lia. change 256 with (2 ^ 8). rewrite <- Z.pow_mul_r by lia.
  rewrite Z.div_pow2_bits by lia. f_equal. lia.
Qed.
Lemma load_ext : forall n m m' a, (forall x, a <= x < a + Z.of_nat n -> m x = m' x) -> load m a n = load m' a n.
Proof.
  induction n as [|n IH]; intros m m' a H; cbn [load]; auto. rewrite (H a) by lia. rewrite (IH m m'); auto. intros x L. apply H. lia.
Qed.
Lemma load_store : forall n m a v, load (store m a n v) a n = uwrap (8 * Z.of_nat n) v.
Proof.
  induction n as [|n IH]; intros m a v.
  - cbn [load]. unfold uwrap. rewrite Z.mod_1_r. reflexivity.
  - cbn [load]. cbn [store]. rewrite store_get. destruct (Z.leb_spec (a + 1) a); [lia|]. cbn [andb]. rewrite Z.eqb_refl.
    rewrite IH. unfold uwrap. rewrite !pow256. rewrite Nat2Z.inj_succ, Z.pow_succ_r by lia.
    rewrite Z.rem_mul_r by (try lia; apply Z.pow_pos_nonneg; lia). reflexivity.
Qed.
Lemma load_store_other : forall n m a v b k, (b + Z.of_nat k <= a \/ a + Z.of_nat n <= b) -> load (store m a n v) b k = load m b k.
Proof.
  intros. apply load_ext. intros x L. rewrite store_get. destruct (Z.leb_spec a x), (Z.ltb_spec x (a + Z.of_nat n)); cbn [andb]; auto. lia.
Qed.
Lemma copy_bytes_in : forall src s dst d n x, d <= x < d + n -> copy_bytes src s dst d n x = src (s + (x - d)).
Proof. intros. unfold copy_bytes. destruct (Z.leb_spec d x), (Z.ltb_spec x (d + n)); cbn [andb]; auto; lia. Qed.
Lemma copy_bytes_out : forall src s dst d n x, ~ d <= x < d + n -> copy_bytes src s dst d n x = dst x.
Proof. intros. unfold copy_bytes. destruct (Z.leb_spec d x), (Z.ltb_spec x (d + n)); cbn [andb]; auto; lia. Qed.
Lemma copy_bytes_ok : forall src s dst d n, bytes_ok src -> bytes_ok dst -> bytes_ok (copy_bytes src s dst d n).
Proof. intros src s dst d n A B x. unfold copy_bytes. destruct (_ && _); auto. Qed.

Lemma byte_bits_ext : forall x y, 0 <= x < 256 -> 0 <= y < 256 -> (forall j, 0 <= j < 8 -> Z.testbit x j = Z.testbit y j) -> x = y.
Proof.
  intros x y X Y H. rewrite <- (Z.mod_small x 256), <- (Z.mod_small y 256) by lia. change 256 with (2 ^ 8).
  apply Z.bits_inj'. intros j J. destruct (Z_lt_dec j 8).
  - rewrite !Z.mod_pow2_bits_low by lia. apply H; lia.
  - rewrite !Z.mod_pow2_bits_high by lia. reflexivity.
Qed.
Lemma ones_bit : forall n i, 0 <= n -> 0 <= i -> Z.testbit (2 ^ n - 1) i = (i <? n).
Proof.
  intros n i N I. replace (2 ^ n - 1) with (Z.ones n) by (rewrite Z.ones_equiv; lia). destruct (Z.ltb_spec i n).
  - apply Z.ones_spec_low; lia. - apply Z.ones_spec_high; lia.
Qed.
Lemma neg_pow_bit : forall n i, 0 <= n -> 0 <= i -> Z.testbit (- 2 ^ n) i = negb (i <? n).
Proof.
  intros n i N I. replace (- 2 ^ n) with (Z.lnot (2 ^ n - 1)) by (unfold Z.lnot; lia). rewrite Z.lnot_spec, ones_bit by lia. reflexivity.
Qed.
Lemma land_pow2_zero : forall x k, 0 <= k -> (Z.land x (2 ^ k) =? 0) = negb (Z.testbit x k).
Proof.
  intros x k K. destruct (Z.testbit x k) eqn:T; cbn [negb].
  - apply Z.eqb_neq. intros E. apply (f_equal (fun z => Z.testbit z k)) in E. rewrite Z.land_spec, T, Z.pow2_bits_true, Z.bits_0 in E by lia. discriminate.
  - apply Z.eqb_eq. apply Z.bits_inj'. intros i I. rewrite Z.land_spec, Z.bits_0. destruct (Z.eq_dec i k).
    + subst. rewrite T. reflexivity. + rewrite Z.pow2_bits_false by auto. apply andb_false_r.
Qed.
