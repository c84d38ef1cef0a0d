From Coq Require Import ZArith String List Bool Lia ZifyBool.
From Verif Require Import Base BaseProof EntryModel EntrySpec EntryProof ValueModel ValueSpec.
Import ListNotations.
Open Scope Z_scope.

(** locations *)
Lemma offsets_spec : forall mi dbo bs, field_at mi dbo bs ->
  exists byo bo, bitfield_offsets mi = Ret (inr (byo, bo, bs)) /\ dbo = 8 * byo + bo /\ 0 <= bo < 8 /\ 0 <= byo.
Proof.
  intros mi dbo bs (F & R). unfold bitfield_offsets.
  assert (G : exists byo bo, (Z.shiftr dbo 3, Z.land dbo 7, bs) = (byo, bo, bs) /\ dbo = 8 * byo + bo /\ 0 <= bo < 8 /\ 0 <= byo).
  { exists (Z.shiftr dbo 3), (Z.land dbo 7). split; auto. rewrite Z.shiftr_div_pow2 by lia. change 7 with (Z.ones 3). rewrite Z.land_ones by lia.
    change (2 ^ 3) with 8. assert (E := Z.div_mod dbo 8 ltac:(lia)). assert (B := Z.mod_pos_bound dbo 8 ltac:(lia)). 
    assert (0 <= dbo / 8) by (apply Z.div_pos; lia). lia. }
  destruct G as (byo & bo & G & G').
  destruct F as [(A & B & C)|(b & sz & A & B & C & P & E)]; rewrite A, B, C; cbn [opt0].
  - exists byo, bo. rewrite <- G. auto.
  - destruct (Z.eqb_spec sz 0); [lia|]. replace ((m_byte_offset mi + sz) * 8 - (b + bs)) with dbo by lia.
    rewrite uwrap_small by lia. exists byo, bo. rewrite <- G. auto.
Qed.
Lemma within_bits : forall byo bo bs w, 0 <= bo < 8 -> within (8 * byo + bo) bs w -> bo + bs <= 8 * w.
Proof. intros byo bo bs w B (u & L & H). assert (u <= byo) by lia. lia. Qed.
Lemma nbytes : forall bo bs, 0 <= bo -> 1 <= bs -> forall i, 0 <= i < bo + bs -> i / 8 < bf_bytes bo bs.
Proof.
  intros bo bs B S i L. unfold bf_bytes. assert (i / 8 <= (bo + bs - 1) / 8) by (apply Z.div_le_mono; lia). lia.
Qed.
Lemma nbytes_le : forall bo bs k, 0 <= bo -> 1 <= bs -> bo + bs <= 8 * k -> 1 <= bf_bytes bo bs <= k.
Proof.
  intros bo bs k B S L. unfold bf_bytes. assert ((bo + bs - 1) / 8 < k) by (apply Z.div_lt_upper_bound; lia).
  assert (0 <= (bo + bs - 1) / 8) by (apply Z.div_pos; lia). lia.
Qed.

Lemma shl1 : forall bs, 0 <= bs <= 30 -> shl_int 1 bs = Ret (2 ^ bs).
Proof.
  intros bs L. unfold shl_int. destruct (Z.ltb_spec bs 0), (Z.leb_spec 32 bs); cbn [orb]; try lia. rewrite Z.mul_1_l.
  rewrite swrap_small; auto; [lia|]. assert (2 ^ bs <= 2 ^ 30) by (apply Z.pow_le_mono_r; lia). assert (0 < 2 ^ bs) by (apply Z.pow_pos_nonneg; lia).
  change (2 ^ (32 - 1)) with (2 * 2 ^ 30). lia.
Qed.
Lemma shl_neg1 : forall bs, 0 <= bs <= 30 -> shl_int (-1) bs = Ret (- 2 ^ bs).
Proof.
  intros bs L. unfold shl_int. destruct (Z.ltb_spec bs 0), (Z.leb_spec 32 bs); cbn [orb]; try lia.
  replace (-1 * 2 ^ bs) with (- 2 ^ bs) by lia.
  rewrite swrap_small; auto; [lia|]. assert (2 ^ bs <= 2 ^ 30) by (apply Z.pow_le_mono_r; lia). assert (0 < 2 ^ bs) by (apply Z.pow_pos_nonneg; lia).
  change (2 ^ (32 - 1)) with (2 * 2 ^ 30). lia.
Qed.
Lemma mask_ok : forall bs, 0 <= bs <= 30 -> sub_int (2 ^ bs) 1 = Ret (2 ^ bs - 1) /\ 0 <= 2 ^ bs - 1 < 2 ^ 30.
Proof.
  intros bs L. assert (2 ^ bs <= 2 ^ 30) by (apply Z.pow_le_mono_r; lia). assert (0 < 2 ^ bs) by (apply Z.pow_pos_nonneg; lia).
  change (2 ^ 30) with 1073741824 in *. unfold sub_int. cbv zeta. split; [|lia].
  destruct (Z.ltb_spec (2 ^ bs - 1) (-2147483648)), (Z.ltb_spec 2147483647 (2 ^ bs - 1)); cbn [orb]; auto; lia.
Qed.
Definition word (w : Z) : Prop := w = 1 \/ w = 2 \/ w = 4 \/ w = 8.
Lemma word_is : forall w, word w -> is_word w = true.
Proof. intros w [->|[->|[->| ->]]]; reflexivity. Qed.
Lemma conv_small : forall w v, 0 <= v < 2 ^ 31 -> conv w v = v.
Proof.
  intros w v L. change (2 ^ 31) with 2147483648 in L. unfold conv. destruct (w =? 4); [apply uwrap_small; change (2 ^ 32) with 4294967296; lia|].
  destruct (w =? 8); [apply uwrap_small; change (2 ^ 64) with 18446744073709551616; lia|auto].
Qed.
Lemma conv_bit : forall w v i, word w -> 0 <= i < 8 * w -> Z.testbit (conv w v) i = Z.testbit v i.
Proof.
  intros w v i W L. unfold conv. destruct W as [->|[->|[->| ->]]]; cbn [Z.eqb Pos.eqb]; auto; apply uwrap_bit; lia.
Qed.
Lemma promoted_big : forall w bo, 0 <= bo < 8 -> (promoted w <=? bo) = false.
Proof. intros w bo L. unfold promoted. destruct (w =? 8); lia. Qed.

Lemma extract_spec : forall buf bo bs w sgn, bytes_ok buf -> word w -> 1 <= bs <= 30 -> 0 <= bo < 8 -> bo + bs <= 8 * w ->
  exists x, bf_extract buf bo bs w sgn = Ret x /\ 0 <= x < 2 ^ (8 * w) /\
    forall i, 0 <= i < 8 * w -> Z.testbit x i = if i <? bs then mbit buf 0 (bo + i) else sgn && mbit buf 0 (bo + bs - 1).
Proof.
  intros buf bo bs w sgn B W BS BO FIT. unfold bf_extract. cbv zeta. rewrite promoted_big by auto. rewrite shl1 by lia. cbn [bind].
  destruct (mask_ok bs ltac:(lia)) as (-> & MR). cbn [bind]. 
  assert (conv w (2 ^ bs - 1) = 2 ^ bs - 1) as -> by (apply conv_small; change (2 ^ 31) with (2 * 2 ^ 30); lia).
  set (dat := uwrap (8 * w) _). assert (WP : 0 < w) by (unfold word in W; lia).
  assert (DB : forall i, 0 <= i < 8 * w -> Z.testbit dat i = if i <? bs then mbit buf 0 (bo + i) else false).
  { intros i L. unfold dat. rewrite uwrap_bit by lia. rewrite Z.land_spec, ones_bit, Z.shiftr_spec by lia.
    destruct (Z.ltb_spec i bs); [|apply andb_false_r]. rewrite andb_true_r. rewrite load_bit by (auto; lia). unfold mbit. 
    rewrite (Z.add_comm i bo). reflexivity. }
  assert (DR : 0 <= dat < 2 ^ (8 * w)) by (apply uwrap_range; lia).
  destruct sgn.
  - rewrite shl1 by lia. cbn [bind]. 
    assert (conv w (2 ^ (bs - 1)) = 2 ^ (bs - 1)) as ->.
    { apply conv_small. split; [apply Z.pow_nonneg; lia|]. apply Z.pow_lt_mono_r; lia. }
    rewrite land_pow2_zero by lia. rewrite DB by lia. replace (bs - 1 <? bs) with true by lia. 
    replace (bo + (bs - 1)) with (bo + bs - 1) by lia. destruct (mbit buf 0 (bo + bs - 1)) eqn:T; cbn [negb andb].
    + rewrite shl_neg1 by lia. cbn [bind]. eexists. split; [reflexivity|]. split; [apply uwrap_range; lia|].
      intros i L. rewrite uwrap_bit by lia. rewrite Z.lxor_spec. rewrite conv_bit by auto. rewrite neg_pow_bit, DB by lia.
      destruct (i <? bs); cbn [negb]; auto using xorb_false_l. 
    + exists dat. split; auto.
  - exists dat. split; auto.
Qed.

Lemma buf_bit : forall m g a n i, 0 <= i -> i / 8 < n -> mbit (copy_bytes m a g 0 n) 0 i = mbit m a i.
Proof.
  intros m g a n i I L. unfold mbit. rewrite copy_bytes_in. 2:{ assert (0 <= i / 8) by (apply Z.div_pos; lia). lia. }
  f_equal. f_equal. lia.
Qed.
Lemma mbit_shift : forall m a k i, mbit m (a + k) i = mbit m a (8 * k + i).
Proof.
  intros m a k i. unfold mbit. replace (8 * k + i) with (i + k * 8) by lia. rewrite Z.div_add, Z.mod_add by lia. f_equal. f_equal. lia.
Qed.
Lemma bitfield_read_spec : forall g m mi base w sgn dbo bs, bytes_ok m -> bytes_ok g -> field_at mi dbo bs -> word w ->
  1 <= bs <= 30 -> within dbo bs w ->
  exists x, bitfield_read g m mi base w sgn = Ret (inr x) /\ is_field m base dbo bs sgn w x.
Proof.
  intros g m mi base w sgn dbo bs BM BG F W BS WI. destruct (offsets_spec _ _ _ F) as (byo & bo & O & -> & BO & BY).
  apply within_bits in WI; auto. unfold bitfield_read. rewrite O. cbn [bind]. destruct (Z.eqb_spec bs 0); [lia|].
  assert (N : 1 <= bf_bytes bo bs <= 8) by (apply nbytes_le; unfold word in W; lia).
  destruct (Z.ltb_spec 16 (bf_bytes bo bs)); [lia|]. rewrite word_is by auto.
  destruct (extract_spec (copy_bytes m (base + byo) g 0 (bf_bytes bo bs)) bo bs w sgn) as (x & -> & XR & XB); auto.
  { apply copy_bytes_ok; auto. }
  cbn [bind]. exists x. split; auto. split; auto. intros i L. rewrite XB by auto.
  rewrite (buf_bit m g (base + byo) _ (bo + bs - 1)) by (try apply nbytes; lia). rewrite mbit_shift.
  replace (8 * byo + (bo + bs - 1)) with (8 * byo + bo + bs - 1) by lia.
  destruct (Z.ltb_spec i bs); auto. rewrite buf_bit by (try apply nbytes; lia). rewrite mbit_shift. f_equal. lia.
Qed.

Lemma insert_spec : forall buf bo bs w v, bytes_ok buf -> word w -> 1 <= bs <= 30 -> 0 <= bo < 8 -> bo + bs <= 8 * w -> bo + bs <= 32 ->
  exists buf', bf_insert buf bo bs w v = Ret buf' /\
    forall i, 0 <= i < 32 -> i < 8 * w -> mbit buf' 0 i = if (bo <=? i) && (i <? bo + bs) then Z.testbit v (i - bo) else mbit buf 0 i.
Proof.
  intros buf bo bs w v B W BS BO FIT F32. unfold bf_insert. cbv zeta. rewrite promoted_big by auto. rewrite shl1 by lia. cbn [bind].
  destruct (mask_ok bs ltac:(lia)) as (-> & MR). cbn [bind].
  assert (conv w (2 ^ bs - 1) = 2 ^ bs - 1) as -> by (apply conv_small; change (2 ^ 31) with (2 * 2 ^ 30); lia).
  unfold shl_int. destruct (Z.ltb_spec bo 0), (Z.leb_spec 32 bo); cbn [orb]; try lia. cbn [bind].
  eexists. split; [reflexivity|]. intros i I32 IW.
  assert (WP : 0 < w) by (unfold word in W; lia).
  assert (0 <= i mod 8 < 8) by (apply Z.mod_pos_bound; lia). assert (ID := Z.div_mod i 8 ltac:(lia)).
  assert (0 <= i / 8) by (apply Z.div_pos; lia).
  unfold mbit at 1. rewrite store_bit by lia. destruct (Z.leb_spec 0 (0 + i / 8)); [|lia]. destruct (Z.ltb_spec (0 + i / 8) (0 + Z.of_nat (Z.to_nat w))).
  2:{ exfalso. lia. }
  cbn [andb]. replace (8 * (0 + i / 8 - 0) + i mod 8) with i by lia.
  rewrite uwrap_bit, Z.lor_spec, Z.land_spec by lia. rewrite conv_bit by (auto; lia). rewrite Z.lnot_spec, swrap_bit by lia.
  rewrite <- Z.shiftl_mul_pow2 by lia. rewrite Z.shiftl_spec by lia.
  rewrite uwrap_bit, Z.shiftl_spec, Z.land_spec by lia. rewrite load_bit by (auto; lia). fold (mbit buf 0 i).
  destruct (Z.leb_spec bo i).
  - rewrite ones_bit by lia. replace (i - bo <? bs) with (i <? bo + bs) by lia. cbn [andb].
    destruct (i <? bo + bs); cbn [negb]; rewrite ?andb_true_r, ?andb_false_r, ?orb_false_r; reflexivity.
  - rewrite (Z.testbit_neg_r (2 ^ bs - 1)) by lia. cbn [andb negb]. rewrite andb_true_r, andb_false_r, orb_false_r. reflexivity.
Qed.
Lemma bitfield_write_spec : forall g m mi base w v dbo bs, bytes_ok m -> bytes_ok g -> field_at mi dbo bs -> word w ->
  1 <= bs <= 30 -> within dbo bs w -> dbo mod 8 + bs <= 32 ->
  exists m', bitfield_write g m mi base w v = Ret (0, m') /\ field_set m m' base dbo bs v.
Proof.
  intros g m mi base w v dbo bs BM BG F W BS WI F32. destruct (offsets_spec _ _ _ F) as (byo & bo & O & -> & BO & BY).
  apply within_bits in WI; auto. unfold bitfield_write. rewrite O. cbn [bind]. destruct (Z.eqb_spec bs 0); [lia|].
  replace ((8 * byo + bo) mod 8) with bo in F32. 2:{ replace (8 * byo + bo) with (bo + byo * 8) by lia. rewrite Z.mod_add, Z.mod_small; lia. }
  assert (N : 1 <= bf_bytes bo bs <= 4) by (apply nbytes_le; lia).
  assert (NW : 1 <= bf_bytes bo bs <= w) by (apply nbytes_le; lia).
  destruct (Z.ltb_spec 16 (bf_bytes bo bs)); [lia|]. rewrite word_is by auto.
  destruct (insert_spec (copy_bytes m (base + byo) g 0 (bf_bytes bo bs)) bo bs w v) as (buf' & -> & XB); auto.
  { apply copy_bytes_ok; auto. }
  cbn [bind]. eexists. split; [reflexivity|]. intros a j J i. subst i.
  assert (DM : forall q, (8 * q + j) / 8 = q /\ (8 * q + j) mod 8 = j).
  { intros q. replace (8 * q + j) with (j + q * 8) by lia. rewrite Z.div_add, Z.mod_add, Z.div_small, Z.mod_small; lia. }
  destruct (Z_le_dec (base + byo) a), (Z_lt_dec a (base + byo + bf_bytes bo bs)).
  - rewrite copy_bytes_in by lia. set (q := a - (base + byo)). 
    assert (E : Z.testbit (buf' (0 + q)) j = mbit buf' 0 (8 * q + j)). { unfold mbit. destruct (DM q) as (-> & ->). reflexivity. }
    rewrite E, XB by lia. 
    replace (8 * (a - base) + j) with (8 * byo + (8 * q + j)) by lia.
    replace (8 * byo + bo <=? 8 * byo + (8 * q + j)) with (bo <=? 8 * q + j) by lia.
    replace (8 * byo + (8 * q + j) <? 8 * byo + bo + bs) with (8 * q + j <? bo + bs) by lia.
    destruct ((bo <=? 8 * q + j) && (8 * q + j <? bo + bs)).
    + f_equal. lia.
    + rewrite buf_bit by (try (destruct (DM q) as (-> & _)); lia). unfold mbit. destruct (DM q) as (-> & ->). f_equal. f_equal. lia.
  - rewrite copy_bytes_out by lia. assert (8 * (bf_bytes bo bs) >= bo + bs).
    { unfold bf_bytes. assert (X := Z.div_mod (bo + bs - 1) 8 ltac:(lia)). assert (Y := Z.mod_pos_bound (bo + bs - 1) 8 ltac:(lia)). lia. }
    destruct (Z.ltb_spec (8 * (a - base) + j) (8 * byo + bo + bs)); [lia|]. rewrite andb_false_r. reflexivity.
  - rewrite copy_bytes_out by lia. destruct (Z.leb_spec (8 * byo + bo) (8 * (a - base) + j)); [lia|]. reflexivity.
  - lia.
Qed.

(** typed access *)
Lemma final_self : forall n d e, acyclic d n -> final_kind (e_info (deref d e)) -> forall w,
  final_if (n + 3) d (Some e) w = Ret (if w (e_info (deref d e)) then Some e else None).
Proof.
  intros n d e A K w. destruct (final_if_total d n (Some e) w A) as (x & X). rewrite X. f_equal. eapply final_if_final; eauto.
Qed.
Lemma base_final : forall i z c, i = IBase z c -> final_kind i.
Proof. intros i z c -> t q K. inversion K. Qed.
Definition base_is (d : db) (e : eptr) (name : string) (enc w : Z) : Prop :=
  exists z c, e_name (deref d e) = Some name /\ e_info (deref d e) = IBase z c /\ (c = 0 \/ c = enc) /\ (z = 0 \/ z = w).
Lemma check_base_cases : forall n d p name enc w r, check_base_type n d p name enc w = Ret r ->
  (r = 0 /\ exists e, final_type d p (Some e) /\ base_is d e name enc w) \/
  (r = - EINVAL /\ forall e, final_type d p (Some e) -> ~ base_is d e name enc w).
Proof.
  intros n d p name enc w r H. unfold check_base_type in H.
  destruct (final_if n d p is_base_info) as [f| | |] eqn:F; try discriminate. cbn [bind] in H.
  destruct (final_if_inv _ _ _ _ _ F) as (f' & FT & Ef). destruct f as [e|].
  - destruct f' as [e'|]; [|discriminate]. destruct (is_base_info (e_info (deref d e'))) eqn:I; [|discriminate]. injection Ef as <-.
    destruct (e_name (deref d e)) as [nm|] eqn:N; try discriminate. destruct (e_info (deref d e)) as [ | |z c| | | | | | | | | | | ] eqn:IB; try discriminate.
    destruct (String.eqb_spec nm name); cbn [andb] in H.
    + subst. destruct ((c =? 0) || (c =? enc)) eqn:C; cbn [andb] in H; [destruct ((z =? 0) || (z =? w)) eqn:Z0|]; injection H as <-.
      * left. split; auto. exists e. split; auto. exists z, c. repeat split; auto; lia.
      * right. split; auto. intros e' FT' (z' & c' & _ & I' & _ & Z'). assert (Some e' = Some e) by (eapply final_type_fun; eauto).
        assert (e' = e) by congruence. subst. assert (z' = z) by congruence. lia.
      * right. split; auto. intros e' FT' (z' & c' & _ & I' & C' & _). assert (Some e' = Some e) by (eapply final_type_fun; eauto).
        assert (e' = e) by congruence. subst. assert (c' = c) by congruence. lia.
    + injection H as <-. right. split; auto. intros e' FT' (z' & c' & N' & _). assert (Some e' = Some e) by (eapply final_type_fun; eauto).
      assert (e' = e) by congruence. subst. congruence.
  - injection H as <-. right. split; auto. intros e FT' (z' & c' & _ & I & _). assert (f' = Some e) by (eapply final_type_fun; eauto). subst.
    rewrite I in Ef. discriminate.
Qed.
Lemma check_base_total : forall d n p name enc w, acyclic d n ->
  (forall e z c, final_type d p (Some e) -> e_info (deref d e) = IBase z c -> e_name (deref d e) <> None) ->
  exists r, check_base_type (n + 3) d p name enc w = Ret r.
Proof.
  intros d n p name enc w A N. unfold check_base_type. destruct (final_if_total d n p is_base_info A) as (f & F). rewrite F. cbn [bind].
  destruct (final_if_inv _ _ _ _ _ F) as (f' & FT & Ef). destruct f as [e|]; [|eauto].
  destruct f' as [e'|]; [|discriminate]. destruct (is_base_info (e_info (deref d e'))) eqn:I; [|discriminate]. injection Ef as <-.
  destruct (e_info (deref d e)) as [ | |z c| | | | | | | | | | | ] eqn:IB; try discriminate. specialize (N e z c FT IB).
  destruct (e_name (deref d e)); [|congruence]. destruct (_ && _); eauto.
Qed.
Lemma typed_base : forall d v name enc w, typed d v name enc w <-> exists e, final_type d (Some (v_entry v)) (Some e) /\ base_is d e name enc w.
Proof.
  intros. unfold typed, base_is. split.
  - intros (e & z & c & H & R). exists e. split; auto. exists z, c. auto.
  - intros (e & H & z & c & R). exists e, z, c. auto.
Qed.
Lemma typed_named : forall d v name enc w, typed d v name enc w -> named_types d v.
Proof.
  intros d v name enc w (e & z & c & FT & N & _) e' z' c' FT' I'. assert (Some e' = Some e) by (eapply final_type_fun; eauto).
  assert (e' = e) by congruence. subst. congruence.
Qed.
Lemma check_typed : forall d n v name enc w, acyclic d n -> typed d v name enc w ->
  check_base_type (n + 3) d (Some (v_entry v)) name enc w = Ret 0.
Proof.
  intros d n v name enc w A T. destruct (check_base_total d n (Some (v_entry v)) name enc w A) as (r & R).
  { eapply typed_named; eauto. } rewrite R. apply typed_base in T. destruct T as (e & FT & B).
  destruct (check_base_cases _ _ _ _ _ _ _ R) as [(-> & _)|(_ & N)]; auto. exfalso. eapply N; eauto.
Qed.

Lemma member_or : forall i, (exists mi, i = IMember mi) \/ (forall mi, i <> IMember mi).
Proof. intros i. destruct i; eauto; right; intros; discriminate. Qed.
Lemma not_member : forall A i (f : minfo -> A) (b : A), (forall mi, i <> IMember mi) -> match i with IMember mi => f mi | _ => b end = b.
Proof. intros A i f b N. destruct i; auto. exfalso; eapply N; eauto. Qed.
Lemma plain_member_spec : forall mi, plain_member mi = true <-> m_bit_offset mi = None /\ m_bit_size mi = None /\ m_data_bit_offset mi = None.
Proof. intros mi. unfold plain_member. destruct (m_bit_offset mi), (m_bit_size mi), (m_data_bit_offset mi); split; intros; intuition discriminate. Qed.
Lemma load_number : forall n m a, load m a n = number_at m a n.
Proof. induction n as [|n IH]; intros m a; cbn; auto. Qed.
Lemma store_set : forall m a n x, bytes_set m (store m a n x) a n x.
Proof.
  intros m a n x. split. - rewrite <- load_number. apply load_store.
  - intros b L. rewrite store_get. destruct (Z.leb_spec a b), (Z.ltb_spec b (a + Z.of_nat n)); cbn [andb]; auto; lia.
Qed.

Lemma base_type_sound : forall n d g m v name enc w x, value_base_type n d g m v name enc w = Ret (inr x) ->
  typed d v name enc w /\ (plain d v -> x = number_at m (v_addr v) (Z.to_nat w)).
Proof.
  intros n d g m v name enc w x H. unfold value_base_type in H.
  destruct (final_entry n d (Some (v_entry v)) no_quals) as [[f q]| | |] eqn:F; try discriminate. cbn [bind fst] in H.
  assert (FT : final_type d (Some (v_entry v)) f) by (eapply final_entry_inv; eauto).
  destruct f as [e|]; try discriminate. destruct (check_base_type n d (Some e) name enc w) as [r| | |] eqn:C; try discriminate. cbn [bind] in H.
  destruct (check_base_cases _ _ _ _ _ _ _ C) as [(-> & e' & FT' & B)|(-> & _)]; [|discriminate].
  assert (Some e' = Some e) as E by (eapply final_type_fun; [eassumption|eapply final_type_self; eauto]). injection E as ->.
  cbn [negb Z.eqb] in H. split; [apply typed_base; eauto|]. intros P.
  destruct (member_or (e_info (deref d (v_entry v)))) as [(mi & I)|I].
  - rewrite I in H. destruct (P mi I) as (P1 & P2 & P3). unfold plain_member in H. rewrite P1, P2, P3 in H. injection H as <-. apply load_number.
  - rewrite (not_member _ _ _ _ I) in H. injection H as <-. apply load_number.
Qed.
Lemma base_type_check : forall d n g m v name enc w, acyclic d n -> typed d v name enc w ->
  value_base_type (n + 3) d g m v name enc w =
    match e_info (deref d (v_entry v)) with
    | IMember mi =>
        if plain_member mi then Ret (inr (load m (v_addr v) (Z.to_nat w)))
        else if bitfield_supported enc
             then bitfield_read g m mi (v_addr v - m_byte_offset mi) w ((enc =? 7) || (enc =? 6))
             else Ret (inl (- ENOTSUP))
    | _ => Ret (inr (load m (v_addr v) (Z.to_nat w)))
    end.
Proof.
  intros d n g m v name enc w A T. unfold value_base_type. destruct (final_entry_total d n (Some (v_entry v)) no_quals A) as ((f & q) & F).
  rewrite F. cbn [bind fst]. assert (FT : final_type d (Some (v_entry v)) f) by (eapply final_entry_inv; eauto).
  destruct T as (e & z & c & FT' & N & I & R). assert (f = Some e) by (eapply final_type_fun; eauto). subst f.
  assert (check_base_type (n + 3) d (Some e) name enc w = Ret 0) as ->; [|reflexivity].
  apply (check_typed d n (Build_value e 0)); auto. exists e, z, c. repeat split; auto; try tauto. cbn. exists []. constructor. eapply base_final; eauto.
Qed.
Lemma base_type_plain : forall d n g m v name enc w, acyclic d n -> typed d v name enc w -> plain d v ->
  value_base_type (n + 3) d g m v name enc w = Ret (inr (number_at m (v_addr v) (Z.to_nat w))).
Proof.
  intros d n g m v name enc w A T P. rewrite base_type_check by auto. rewrite load_number.
  destruct (member_or (e_info (deref d (v_entry v)))) as [(mi & I)|I].
  - rewrite I. destruct (P mi I) as (P1 & P2 & P3). unfold plain_member. rewrite P1, P2, P3. reflexivity.
  - apply (not_member _ _ _ _ I).
Qed.
Lemma enc_supported : forall enc, integer_enc enc -> bitfield_supported enc = true /\ ((enc =? 7) || (enc =? 6)) = signed_enc enc.
Proof. intros enc E. unfold integer_enc in E. cbn in E. intuition (subst; reflexivity). Qed.
Lemma base_type_bits : forall d n g m v mi name enc w dbo bs, acyclic d n -> typed d v name enc w -> bytes_ok m -> bytes_ok g ->
  e_info (deref d (v_entry v)) = IMember mi -> field_at mi dbo bs -> integer_enc enc -> word w -> 1 <= bs <= 30 -> within dbo bs w ->
  exists x, value_base_type (n + 3) d g m v name enc w = Ret (inr x) /\
    is_field m (v_addr v - m_byte_offset mi) dbo bs (signed_enc enc) w x.
Proof.
  intros d n g m v mi name enc w dbo bs A T BM BG I F E W BS WI. rewrite base_type_check by auto. rewrite I.
  destruct (plain_member mi) eqn:P.
  { apply plain_member_spec in P. exfalso. destruct P as (P1 & P2 & P3). destruct F as ([(_ & F & _)|(? & ? & F & _)] & _); congruence. }
  destruct (enc_supported _ E) as (-> & ->). apply bitfield_read_spec; auto.
Qed.

Lemma const_flag : forall n d v out f q, final_entry n d (Some (v_entry v)) out = Ret (Some f, q) -> out = no_quals ->
  (q_const q = true -> is_const d v) /\ (is_const d v -> ~ is_dots (e_info (deref d f)) -> q_const q = true).
Proof.
  intros n d v out f q F ->. destruct (final_entry_spec _ _ _ _ _ _ F) as (qs & R & FK & D1 & D2). split.
  - intros Q. exists qs, f. split; auto. assert (DD : is_dots (e_info (deref d f)) \/ ~ is_dots (e_info (deref d f))).
    { unfold is_dots. destruct (e_info (deref d f)) as [ | | | | | | | | | |[|] t| | | ]; try (right; intros (t' & K); discriminate). left; eauto. }
    destruct DD as [DD|DD]. + rewrite (D1 DD) in Q. discriminate. + apply (D2 DD). auto.
  - intros (qs' & f' & R' & IN) ND. destruct (resolves_fun _ _ _ _ R _ _ R') as (-> & _). apply (D2 ND). auto.
Qed.
Lemma set_base_sound : forall n d g m v name enc w x s m', value_set_base_type n d g m v name enc w x = Ret (s, m') ->
  (s = 0 -> typed d v name enc w /\ ~ is_const d v /\ (plain d v -> bytes_set m m' (v_addr v) (Z.to_nat w) x)) /\
  (s <> 0 -> m' = m).
Proof.
  intros n d g m v name enc w x s m' H. unfold value_set_base_type in H.
  destruct (final_entry n d (Some (v_entry v)) no_quals) as [[f q]| | |] eqn:F; try discriminate. cbn [bind fst snd] in H.
  assert (FT : final_type d (Some (v_entry v)) f) by (eapply final_entry_inv; eauto).
  destruct f as [e|]; [|injection H as <- <-; split; [discriminate|auto]].
  destruct (const_flag _ _ _ _ _ _ F eq_refl) as (C1 & C2).
  destruct (q_const q) eqn:QC. { injection H as <- <-; split; [discriminate|auto]. }
  destruct (check_base_type n d (Some e) name enc w) as [r| | |] eqn:C; try discriminate. cbn [bind] in H.
  destruct (check_base_cases _ _ _ _ _ _ _ C) as [(-> & e' & FT' & B)|(-> & _)].
  2:{ injection H as <- <-. split; [discriminate|auto]. }
  assert (Some e' = Some e) as E by (eapply final_type_fun; [eassumption|eapply final_type_self; eauto]). injection E as ->.
  cbn [negb Z.eqb] in H. split.
  - intros ->. split; [apply typed_base; eauto|]. split.
    { intros IC. assert (false = true); [|discriminate]. apply C2; auto. intros (t & D). destruct B as (z & c & _ & I & _). congruence. }
    intros P. destruct (member_or (e_info (deref d (v_entry v)))) as [(mi & I)|I].
    + rewrite I in H. destruct (P mi I) as (P1 & P2 & P3). unfold plain_member in H. rewrite P1, P2, P3 in H. injection H as <-. apply store_set.
    + rewrite (not_member _ _ _ _ I) in H. injection H as <-. apply store_set.
  - intros NZ. destruct (member_or (e_info (deref d (v_entry v)))) as [(mi & I)|I].
    + rewrite I in H. destruct (plain_member mi); [injection H as <- _; congruence|]. destruct (bitfield_supported enc); [|injection H; congruence].
      unfold bitfield_write in H. destruct (bitfield_offsets mi) as [[er|[[byo bo] bs]]| | |]; try discriminate; cbn [bind] in H; [injection H; congruence|].
      destruct (bs =? 0); try discriminate. destruct (16 <? bf_bytes bo bs); try discriminate. destruct (is_word w); [|injection H; congruence].
      destruct (bf_insert _ bo bs w x); try discriminate. cbn [bind] in H. injection H as <- _. congruence.
    + rewrite (not_member _ _ _ _ I) in H. injection H as <- _. congruence.
Qed.
Lemma set_base_check : forall d n g m v name enc w x, acyclic d n -> typed d v name enc w -> ~ is_const d v ->
  value_set_base_type (n + 3) d g m v name enc w x =
    match e_info (deref d (v_entry v)) with
    | IMember mi =>
        if plain_member mi then Ret (0, store m (v_addr v) (Z.to_nat w) x)
        else if bitfield_supported enc then bitfield_write g m mi (v_addr v - m_byte_offset mi) w x
             else Ret (- ENOTSUP, m)
    | _ => Ret (0, store m (v_addr v) (Z.to_nat w) x)
    end.
Proof.
  intros d n g m v name enc w x A T NC. unfold value_set_base_type. destruct (final_entry_total d n (Some (v_entry v)) no_quals A) as ((f & q) & F).
  rewrite F. cbn [bind fst snd]. assert (FT : final_type d (Some (v_entry v)) f) by (eapply final_entry_inv; eauto).
  destruct T as (e & z & c & FT' & N & I & R). assert (f = Some e) by (eapply final_type_fun; eauto). subst f.
  destruct (const_flag _ _ _ _ _ _ F eq_refl) as (C1 & C2). destruct (q_const q); [exfalso; auto|].
  assert (check_base_type (n + 3) d (Some e) name enc w = Ret 0) as ->; [|reflexivity].
  apply (check_typed d n (Build_value e 0)); auto. exists e, z, c. repeat split; auto; try tauto. cbn. exists []. constructor. eapply base_final; eauto.
Qed.
Lemma set_base_plain : forall d n g m v name enc w x, acyclic d n -> typed d v name enc w -> ~ is_const d v -> plain d v ->
  value_set_base_type (n + 3) d g m v name enc w x = Ret (0, store m (v_addr v) (Z.to_nat w) x).
Proof.
  intros d n g m v name enc w x A T NC P. rewrite set_base_check by auto.
  destruct (member_or (e_info (deref d (v_entry v)))) as [(mi & I)|I].
  - rewrite I. destruct (P mi I) as (P1 & P2 & P3). unfold plain_member. rewrite P1, P2, P3. reflexivity.
  - apply (not_member _ _ _ _ I).
Qed.
Lemma set_base_bits : forall d n g m v mi name enc w dbo bs x, acyclic d n -> typed d v name enc w -> ~ is_const d v -> bytes_ok m -> bytes_ok g ->
  e_info (deref d (v_entry v)) = IMember mi -> field_at mi dbo bs -> integer_enc enc -> word w -> 1 <= bs <= 30 -> within dbo bs w ->
  dbo mod 8 + bs <= 32 ->
  exists m', value_set_base_type (n + 3) d g m v name enc w x = Ret (0, m') /\ field_set m m' (v_addr v - m_byte_offset mi) dbo bs x.
Proof.
  intros d n g m v mi name enc w dbo bs x A T NC BM BG I F E W BS WI F32. rewrite set_base_check by auto. rewrite I.
  destruct (plain_member mi) eqn:P.
  { apply plain_member_spec in P. exfalso. destruct P as (P1 & P2 & P3). destruct F as ([(_ & F & _)|(? & ? & F & _)] & _); congruence. }
  destruct (enc_supported _ E) as (-> & _). apply bitfield_write_spec; auto.
Qed.
(** reading back a written field *)
Lemma field_set_read : forall m m' base dbo bs x sgn w y, field_set m m' base dbo bs x -> 0 <= dbo -> 1 <= bs -> bs <= 8 * w -> is_field m' base dbo bs sgn w y ->
  forall i, 0 <= i < 8 * w -> Z.testbit y i = if i <? bs then Z.testbit x i else sgn && Z.testbit x (bs - 1).
Proof.
  intros m m' base dbo bs x sgn w y FS D BS W (_ & Y) i L. rewrite Y by auto.
  assert (M : forall k, 0 <= k < bs -> mbit m' base (dbo + k) = Z.testbit x k).
  { intros k K. unfold mbit. assert (0 <= (dbo + k) mod 8 < 8) by (apply Z.mod_pos_bound; lia).
    rewrite FS by auto. replace (8 * (base + (dbo + k) / 8 - base) + (dbo + k) mod 8) with (dbo + k).
    2:{ assert (E := Z.div_mod (dbo + k) 8 ltac:(lia)). lia. }
    destruct (Z.leb_spec dbo (dbo + k)), (Z.ltb_spec (dbo + k) (dbo + bs)); cbn [andb]; try lia. f_equal. lia. }
  destruct (Z.ltb_spec i bs). - apply M. lia. - replace (dbo + bs - 1) with (dbo + (bs - 1)) by lia. rewrite M by lia. reflexivity.
Qed.
