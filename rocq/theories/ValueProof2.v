(** Proofs about typed access through the C types, enumerations, pointers, elements and members. *)
From Coq Require Import ZArith String List Bool Lia ZifyBool.
From Verif Require Import Base BaseProof EntryModel EntrySpec EntryProof ValueModel ValueSpec ValueProof.
Import ListNotations.
Open Scope Z_scope.

(** the table of C types *)
Lemma table : forall c, exists encs sg, In (c, (ct_name c, encs, ct_size c, sg)) c_types /\ sg = ct_signed c /\
  encs = match c with CChar => [7; 9] | _ => [ct_enc c] end.
Proof. intros c. destruct c; cbn; eexists; eexists; (split; [|split; reflexivity]); cbn; tauto. Qed.
Lemma table_fun : forall c name encs w sg, In (c, (name, encs, w, sg)) c_types ->
  name = ct_name c /\ w = ct_size c /\ sg = ct_signed c /\ encs = match c with CChar => [7; 9] | _ => [ct_enc c] end.
Proof.
  intros c name encs w sg H. cbn in H.
  repeat (destruct H as [H|H]; [injection H as <- <- <- <- <-; repeat split; reflexivity|]). destruct H.
Qed.
Lemma has_ctype_iff : forall d v c, has_ctype d v c <->
  (typed d v (ct_name c) (ct_enc c) (ct_size c) \/ c = CChar /\ typed d v (ct_name c) 9 (ct_size c)).
Proof.
  intros d v c. split.
  - intros (name & encs & w & sg & enc & I & E & T). destruct (table_fun _ _ _ _ _ I) as (-> & -> & _ & ->).
    destruct c; cbn in E; intuition (subst; auto).
  - destruct (table c) as (encs & sg & I & S & ->). intros H. exists (ct_name c), (match c with CChar => [7; 9] | _ => [ct_enc c] end), (ct_size c), sg.
    destruct H as [H|(-> & H)]. + exists (ct_enc c). split; auto. split; auto. destruct c; cbn; auto. + exists 9. cbn. auto.
Qed.
Lemma ctype_named : forall d v c, has_ctype d v c -> named_types d v.
Proof. intros d v c H. apply has_ctype_iff in H. destruct H as [H|(_ & H)]; eapply typed_named; eauto. Qed.
Lemma ct_name_inj : forall c c', ct_name c = ct_name c' -> c = c'.
Proof. intros c c' H. destruct c, c'; auto; discriminate. Qed.
Lemma has_ctype_name : forall d v c, has_ctype d v c -> exists e, final_type d (Some (v_entry v)) (Some e) /\ e_name (deref d e) = Some (ct_name c) /\ exists z k, e_info (deref d e) = IBase z k.
Proof. intros d v c H. apply has_ctype_iff in H. destruct H as [(e & z & k & H)|(_ & e & z & k & H)]; exists e; intuition eauto. Qed.
Lemma has_ctype_fun : forall d v c c', has_ctype d v c -> has_ctype d v c' -> c = c'.
Proof.
  intros d v c c' H H'. destruct (has_ctype_name _ _ _ H) as (e & F & N & _). destruct (has_ctype_name _ _ _ H') as (e' & F' & N' & _).
  assert (Some e' = Some e) by (eapply final_type_fun; eauto). assert (e' = e) by congruence. subst. apply ct_name_inj. congruence.
Qed.

(** metac_value_is_<type> *)
Lemma check_iff : forall n d v name enc w r, check_base_type n d (Some (v_entry v)) name enc w = Ret r -> r = 0 <-> typed d v name enc w.
Proof.
  intros n d v name enc w r H. rewrite typed_base. destruct (check_base_cases _ _ _ _ _ _ _ H) as [(-> & X)|(-> & X)]; split; intros; auto; try discriminate.
  destruct H0 as (e & F & B). exfalso. eapply X; eauto.
Qed.
Lemma value_is_spec : forall n d v c b, value_is n d v c = Ret b -> b = true <-> has_ctype d v c.
Proof.
  intros n d v c b H. rewrite has_ctype_iff. unfold value_is, entry_is in H.
  destruct (check_base_type n d (Some (v_entry v)) (ct_name c) (ct_enc c) (ct_size c)) as [a| | |] eqn:A; try discriminate. cbn [bind] in H.
  apply check_iff in A.
  assert (CC : c = CChar \/ c <> CChar) by (destruct c; auto; right; discriminate). destruct CC as [->|CC].
  - destruct (Z.eqb_spec a 0) as [Z0|Z0]. { injection H as <-. tauto. }
    destruct (check_base_type n d (Some (v_entry v)) (ct_name CChar) 9 (ct_size CChar)) as [a'| | |] eqn:A'; try discriminate. cbn [bind] in H.
    apply check_iff in A'. injection H as <-. rewrite Z.eqb_eq. tauto.
  - assert (Ret (a =? 0) = Ret b) as E by (destruct c; auto; congruence). injection E as <-. rewrite Z.eqb_eq. tauto.
Qed.
Lemma value_is_total : forall d n v c, acyclic d n -> named_types d v -> exists b, value_is (n + 3) d v c = Ret b.
Proof.
  intros d n v c A N. unfold value_is, entry_is.
  destruct (check_base_total d n (Some (v_entry v)) (ct_name c) (ct_enc c) (ct_size c) A N) as (r & ->). cbn [bind].
  destruct (check_base_total d n (Some (v_entry v)) (ct_name c) 9 (ct_size c) A N) as (r' & ->). cbn [bind].
  destruct c; eauto. destruct (r =? 0); eauto.
Qed.

(** reading *)
Lemma value_get_sound : forall n d g m v c x, value_get n d g m v c = Ret (inr x) ->
  has_ctype d v c /\ (plain d v -> x = number_at m (v_addr v) (Z.to_nat (ct_size c))).
Proof.
  intros n d g m v c x H. rewrite has_ctype_iff. unfold value_get in H.
  destruct (value_base_type n d g m v (ct_name c) (ct_enc c) (ct_size c)) as [[er|y]| | |] eqn:A; try discriminate; cbn [bind] in H.
  - destruct c; try discriminate.
    destruct (value_base_type n d g m v (ct_name CChar) 9 (ct_size CChar)) as [[er'|y]| | |] eqn:B; try discriminate; cbn [bind] in H.
    apply base_type_sound in B. injection H as <-. tauto.
  - apply base_type_sound in A. destruct c; injection H as <-; tauto.
Qed.
Lemma base_type_untyped : forall d n g m v name enc w, acyclic d n -> named_types d v -> ~ typed d v name enc w ->
  value_base_type (n + 3) d g m v name enc w = Ret (inl (- EINVAL)).
Proof.
  intros d n g m v name enc w A N NT. unfold value_base_type. destruct (final_entry_total d n (Some (v_entry v)) no_quals A) as ((f & q) & F).
  rewrite F. cbn [bind fst]. assert (FT : final_type d (Some (v_entry v)) f) by (eapply final_entry_inv; eauto). destruct f as [e|]; auto.
  destruct (check_base_total d n (Some e) name enc w A) as (r & R).
  { intros e' z c FT' I. assert (Some e' = Some e) by (eapply final_type_fun; [eassumption|eapply final_type_self; eauto]). assert (e' = e) by congruence. subst. eapply N; eauto. }
  rewrite R. cbn [bind]. destruct (check_base_cases _ _ _ _ _ _ _ R) as [(-> & e' & FT' & B)|(-> & _)].
  - exfalso. apply NT. apply typed_base. assert (Some e' = Some e) by (eapply final_type_fun; [eassumption|eapply final_type_self; eauto]). exists e'. split; auto. congruence.
  - reflexivity.
Qed.
Lemma value_get_plain : forall d n g m v c, acyclic d n -> has_ctype d v c -> plain d v ->
  value_get (n + 3) d g m v c = Ret (inr (number_at m (v_addr v) (Z.to_nat (ct_size c)))).
Proof.
  intros d n g m v c A H P. assert (N := ctype_named _ _ _ H). apply has_ctype_iff in H. unfold value_get.
  assert (TD : typed d v (ct_name c) (ct_enc c) (ct_size c) \/ ~ typed d v (ct_name c) (ct_enc c) (ct_size c) /\ c = CChar /\ typed d v (ct_name c) 9 (ct_size c)).
  { destruct (check_base_total d n (Some (v_entry v)) (ct_name c) (ct_enc c) (ct_size c) A N) as (r & R). apply check_iff in R. destruct H as [H|(-> & H)]; auto.
    destruct (Z.eq_dec r 0); [left; apply R; auto|]. right. split; auto. rewrite <- R. auto. }
  destruct TD as [T|(NT & -> & T)].
  - rewrite (base_type_plain d n) by auto. cbn [bind]. destruct c; reflexivity.
  - rewrite (base_type_untyped d n) by auto. cbn [bind]. rewrite (base_type_plain d n) by auto. reflexivity.
Qed.
Lemma value_get_untyped : forall d n g m v c, acyclic d n -> named_types d v -> ~ has_ctype d v c -> exists e, value_get (n + 3) d g m v c = Ret (inl e).
Proof.
  intros d n g m v c A N H. rewrite has_ctype_iff in H. unfold value_get. rewrite (base_type_untyped d n) by (auto; tauto). cbn [bind].
  destruct c; eauto. rewrite (base_type_untyped d n) by (auto; tauto). cbn [bind]. eauto.
Qed.

(** writing *)
Lemma value_set_sound : forall n d g m v c x s m', value_set n d g m v c x = Ret (s, m') ->
  (s = 0 -> has_ctype d v c /\ ~ is_const d v /\ (plain d v -> bytes_set m m' (v_addr v) (Z.to_nat (ct_size c)) x)) /\
  (s <> 0 -> m' = m).
Proof.
  intros n d g m v c x s m' H. rewrite has_ctype_iff. unfold value_set in H.
  destruct (value_set_base_type n d g m v (ct_name c) (ct_enc c) (ct_size c) x) as [[s1 m1]| | |] eqn:A; try discriminate; cbn [bind fst snd] in H.
  apply set_base_sound in A. destruct A as (A1 & A2).
  assert (CC : c = CChar \/ c <> CChar) by (destruct c; auto; right; discriminate). destruct CC as [->|CC].
  - destruct (Z.eqb_spec s1 0). + injection H as <- <-. split; intros; [|contradiction]. specialize (A1 e). tauto.
    + rewrite (A2 n0) in H. destruct (value_set_base_type n d g m v (ct_name CChar) 9 (ct_size CChar) x) as [[s2 m2]| | |] eqn:B; try discriminate; cbn [bind fst snd] in H.
      apply set_base_sound in B. destruct B as (B1 & B2). destruct (Z.eqb_spec s2 0).
      * injection H as <- <-. split; intros; [|contradiction]. specialize (B1 e). tauto.
      * injection H as <- <-. split; intros; [discriminate|auto].
  - assert (Ret (s1, m1) = Ret (s, m')) as E by (destruct c; auto; congruence). injection E as <- <-. split; intros; auto. specialize (A1 H0). tauto.
Qed.
Lemma set_base_untyped : forall d n g m v name enc w x, acyclic d n -> named_types d v -> ~ typed d v name enc w -> 
  exists s, value_set_base_type (n + 3) d g m v name enc w x = Ret (s, m) /\ s <> 0.
Proof.
  intros d n g m v name enc w x A N NT. unfold value_set_base_type. destruct (final_entry_total d n (Some (v_entry v)) no_quals A) as ((f & q) & F).
  rewrite F. cbn [bind fst snd]. assert (FT : final_type d (Some (v_entry v)) f) by (eapply final_entry_inv; eauto). destruct f as [e|]; [|eexists; split; [reflexivity|discriminate]].
  destruct (q_const q). { eexists; split; [reflexivity|discriminate]. }
  destruct (check_base_total d n (Some e) name enc w A) as (r & R).
  { intros e' z c FT' I. assert (Some e' = Some e) by (eapply final_type_fun; [eassumption|eapply final_type_self; eauto]). assert (e' = e) by congruence. subst. eapply N; eauto. }
  rewrite R. cbn [bind]. destruct (check_base_cases _ _ _ _ _ _ _ R) as [(-> & e' & FT' & B)|(-> & _)].
  - exfalso. apply NT. apply typed_base. assert (Some e' = Some e) by (eapply final_type_fun; [eassumption|eapply final_type_self; eauto]). exists e'. split; auto. congruence.
  - eexists; split; [reflexivity|discriminate].
Qed.
Lemma value_set_plain : forall d n g m v c x, acyclic d n -> has_ctype d v c -> ~ is_const d v -> plain d v ->
  exists m', value_set (n + 3) d g m v c x = Ret (0, m').
Proof.
  intros d n g m v c x A H NC P. assert (N := ctype_named _ _ _ H). apply has_ctype_iff in H. unfold value_set.
  assert (TD : typed d v (ct_name c) (ct_enc c) (ct_size c) \/ ~ typed d v (ct_name c) (ct_enc c) (ct_size c) /\ c = CChar /\ typed d v (ct_name c) 9 (ct_size c)).
  { destruct (check_base_total d n (Some (v_entry v)) (ct_name c) (ct_enc c) (ct_size c) A N) as (r & R). apply check_iff in R. destruct H as [H|(-> & H)]; auto.
    destruct (Z.eq_dec r 0); [left; apply R; auto|]. right. split; auto. rewrite <- R. auto. }
  destruct TD as [T|(NT & -> & T)].
  - rewrite (set_base_plain d n) by auto. cbn [bind fst snd]. destruct c; cbn [Z.eqb]; eauto.
  - destruct (set_base_untyped d n g m v (ct_name CChar) (ct_enc CChar) (ct_size CChar) x A N NT) as (s & -> & S). cbn [bind fst snd].
    destruct (Z.eqb_spec s 0); [contradiction|]. rewrite (set_base_plain d n) by auto. cbn [bind fst snd Z.eqb]. eauto.
Qed.

(** bit-fields through the C types *)
Lemma value_get_bits : forall d n g m v mi c dbo bs, acyclic d n -> has_ctype d v c -> c <> CChar -> c_integer c -> bytes_ok m -> bytes_ok g ->
  e_info (deref d (v_entry v)) = IMember mi -> field_at mi dbo bs -> 1 <= bs <= 30 -> within dbo bs (ct_size c) ->
  exists x, value_get (n + 3) d g m v c = Ret (inr x) /\ is_field m (v_addr v - m_byte_offset mi) dbo bs (ct_signed c) (ct_size c) x.
Proof.
  intros d n g m v mi c dbo bs A H NC CI BM BG I F BS W. apply has_ctype_iff in H. destruct H as [T|(-> & _)]; [|congruence].
  assert (E : integer_enc (ct_enc c) /\ word (ct_size c) /\ signed_enc (ct_enc c) = ct_signed c).
  { unfold c_integer in CI. cbn in CI. unfold integer_enc, word. intuition (subst; cbn; auto 8; congruence). }
  destruct E as (E1 & E2 & E3).
  destruct (base_type_bits d n g m v mi (ct_name c) (ct_enc c) (ct_size c) dbo bs) as (x & X & Y); auto.
  exists x. rewrite E3 in Y. split; auto. unfold value_get. rewrite X. cbn [bind]. destruct c; reflexivity.
Qed.
Lemma value_set_bits : forall d n g m v mi c dbo bs x, acyclic d n -> has_ctype d v c -> ~ is_const d v -> c <> CChar -> c_integer c -> bytes_ok m -> bytes_ok g ->
  e_info (deref d (v_entry v)) = IMember mi -> field_at mi dbo bs -> 1 <= bs <= 30 -> within dbo bs (ct_size c) -> dbo mod 8 + bs <= 32 ->
  exists m', value_set (n + 3) d g m v c x = Ret (0, m') /\ field_set m m' (v_addr v - m_byte_offset mi) dbo bs x.
Proof.
  intros d n g m v mi c dbo bs x A H NK NC CI BM BG I F BS W F32. apply has_ctype_iff in H. destruct H as [T|(-> & _)]; [|congruence].
  assert (E : integer_enc (ct_enc c) /\ word (ct_size c)).
  { unfold c_integer in CI. cbn in CI. unfold integer_enc, word. intuition (subst; cbn; auto 8; congruence). }
  destruct E as (E1 & E2).
  destruct (set_base_bits d n g m v mi (ct_name c) (ct_enc c) (ct_size c) dbo bs x) as (m' & X & Y); auto.
  exists m'. split; auto. unfold value_set. rewrite X. cbn [bind fst snd]. destruct c; try reflexivity.
Qed.

(** metac_value_num *)
Lemma num_types_all : forall c, c_integer c <-> In c num_types.
Proof. intros c. unfold c_integer, num_types. tauto. Qed.
Lemma value_is_true : forall d n v c, acyclic d n -> has_ctype d v c -> value_is (n + 3) d v c = Ret true.
Proof.
  intros d n v c A H. destruct (value_is_total d n v c A (ctype_named _ _ _ H)) as (b & B). rewrite B. apply value_is_spec in B. f_equal. apply B. auto.
Qed.
Lemma value_is_false : forall d n v c, acyclic d n -> named_types d v -> ~ has_ctype d v c -> value_is (n + 3) d v c = Ret false.
Proof.
  intros d n v c A N H. destruct (value_is_total d n v c A N) as (b & B). rewrite B. apply value_is_spec in B. destruct b; auto. exfalso. apply H, B. auto.
Qed.
Lemma ctype_dec : forall d n v c, acyclic d n -> named_types d v -> has_ctype d v c \/ ~ has_ctype d v c.
Proof.
  intros d n v c A N. destruct (value_is_total d n v c A N) as (b & B). apply value_is_spec in B. destruct b; [left|right]. apply B; auto. intros H. apply B in H. discriminate.
Qed.
Lemma num_loop_hit : forall d n g m v c x l, acyclic d n -> has_ctype d v c -> In c l -> value_get (n + 3) d g m v c = Ret (inr x) ->
  (c = CBool -> x = 0 \/ x = 1) -> num_loop (n + 3) d g m v l = Ret (Some (swrap 32 (ct_number c x))).
Proof.
  intros d n g m v c x l A H I G B. assert (N := ctype_named _ _ _ H). induction l as [|c' l IH]; [destruct I|]. cbn [num_loop].
  destruct (ctype_dec d n v c' A N) as [H'|H'].
  - assert (c' = c) by (eapply has_ctype_fun; eauto). subst c'. rewrite (value_is_true d n) by auto. cbn [bind]. rewrite G. cbn [bind].
    destruct c; try reflexivity. destruct (B eq_refl) as [->| ->]; reflexivity.
  - rewrite (value_is_false d n) by auto. cbn [bind]. apply IH. destruct I as [->|I]; auto. contradiction.
Qed.
Lemma num_loop_miss : forall d n g m v l, acyclic d n -> named_types d v -> (forall c, In c l -> ~ has_ctype d v c) -> num_loop (n + 3) d g m v l = Ret None.
Proof.
  intros d n g m v l A N H. induction l as [|c l IH]; auto. cbn [num_loop]. rewrite (value_is_false d n) by (auto; apply H; left; auto). cbn [bind].
  apply IH. intros c' I. apply H. right. auto.
Qed.
Lemma denotes_fun : forall c x y, 0 <= x < 2 ^ (8 * ct_size c) -> denotes c x y <-> y = ct_number c x.
Proof.
  intros c x y R. assert (P : ct_signed c = true -> as_signed (8 * ct_size c) x = swrap (8 * ct_size c) x).
  { intros SG. assert (SZ : 0 < 8 * ct_size c) by (destruct c; cbn; lia). generalize dependent (8 * ct_size c). intros k R K. unfold as_signed.
    assert (D := pow2_double k K). destruct (Z.ltb_spec x (2 ^ (k - 1))).
    - rewrite swrap_small; auto. split; auto. assert (0 < 2 ^ (k - 1)) by (apply Z.pow_pos_nonneg; lia). lia.
    - rewrite <- (swrap_small k (x - 2 ^ k)) by lia. unfold swrap. f_equal. replace (x - 2 ^ k + 2 ^ (k - 1)) with (x + 2 ^ (k - 1) + (-1) * 2 ^ k) by lia.
      apply Z.mod_add. lia. }
  unfold denotes, ct_number. destruct (table c) as (encs & sg & I & S & _). split.
  - intros (name & encs' & w & sg' & I' & ->). destruct (table_fun _ _ _ _ _ I') as (_ & -> & -> & _). destruct (ct_signed c); auto.
  - intros ->. exists (ct_name c), encs, (ct_size c), sg. split; auto. subst sg. destruct (ct_signed c) eqn:SG; auto. symmetry. apply P. auto.
Qed.
Lemma swrap32 : forall y, -2147483648 <= y <= 2147483647 -> swrap 32 y = y.
Proof. intros y H. apply swrap_small; cbn; lia. Qed.
Lemma value_num_int : forall d n g m v c x y, acyclic d n -> has_ctype d v c -> c_integer c -> value_get (n + 3) d g m v c = Ret (inr x) ->
  0 <= x < 2 ^ (8 * ct_size c) -> (c = CBool -> x = 0 \/ x = 1) -> denotes c x y ->
  exists z, value_num (n + 3) d g m v = Ret (inr z) /\ (-2147483648 <= y <= 2147483647 -> z = y).
Proof.
  intros d n g m v c x y A H CI G R B D. exists (swrap 32 y). split; [|apply swrap32]. unfold value_num.
  rewrite (num_loop_hit d n g m v c x) by (auto; apply num_types_all; auto). cbn [bind]. apply denotes_fun in D; auto. subst. reflexivity.
Qed.

(** enumerations *)
Lemma enum_final : forall i z l, i = IEnum z l -> final_kind i.
Proof. intros i z l -> t q K. inversion K. Qed.
Lemma final_if_type : forall d n p e w, acyclic d n -> final_type d p (Some e) -> final_if (n + 3) d p w = Ret (if w (e_info (deref d e)) then Some e else None).
Proof.
  intros d n p e w A F. destruct (final_if_total d n p w A) as (x & X). rewrite X. destruct (final_if_inv _ _ _ _ _ X) as (f & F' & ->).
  assert (f = Some e) by (eapply final_type_fun; eauto). subst. reflexivity.
Qed.
Lemma final_if_some : forall n d p w e, final_if n d p w = Ret (Some e) -> final_type d p (Some e) /\ w (e_info (deref d e)) = true.
Proof.
  intros n d p w e H. destruct (final_if_inv _ _ _ _ _ H) as (f & F & E). destruct f as [e'|]; [|discriminate].
  destruct (w (e_info (deref d e'))) eqn:W; [|discriminate]. injection E as ->. auto.
Qed.
Lemma enum_bytes : forall d n e z l, acyclic d n -> e_info (deref d e) = IEnum z l -> 0 <= z < 2 ^ 64 -> enum_size (n + 3) d e = Ret (inl z).
Proof.
  intros d n e z l A I R. unfold enum_size. destruct (byte_size_total d n (Some e) A) as (x & X). rewrite X. f_equal.
  apply byte_size_spec in X. assert (HS : has_size d (Some e) z) by (eapply hs_enum; eauto). destruct x as [v|er].
  - destruct X as (z' & HS' & ->). assert (z' = z) by (eapply has_size_fun; eauto). subst. f_equal. apply uwrap_small. auto.
  - destruct X as (_ & X). exfalso. eapply X; eauto.
Qed.
Lemma word_iff : forall w, is_word w = true <-> word w.
Proof. intros w. unfold is_word, word. lia. Qed.
Lemma swrap_signed : forall n x, 0 < n -> 0 <= x < 2 ^ n -> swrap n x = as_signed n x.
Proof.
  intros k x K R. unfold as_signed. assert (D := pow2_double k K). destruct (Z.ltb_spec x (2 ^ (k - 1))).
  - apply swrap_small; auto. assert (0 < 2 ^ (k - 1)) by (apply Z.pow_pos_nonneg; lia). lia.
  - rewrite <- (swrap_small k (x - 2 ^ k)) by lia. unfold swrap. f_equal. replace (x - 2 ^ k + 2 ^ (k - 1)) with (x + 2 ^ (k - 1) + (-1) * 2 ^ k) by lia.
    symmetry. apply Z.mod_add. lia.
Qed.
Lemma enum_read : forall d n m v z l, acyclic d n -> bytes_ok m -> enum_type d v z l -> word z ->
  value_enumeration (n + 3) d m v = Ret (inr (as_signed (8 * z) (number_at m (v_addr v) (Z.to_nat z)))).
Proof.
  intros d n m v z l A BM (e & F & I) W. unfold value_enumeration. rewrite (final_if_type d n _ e) by auto. rewrite I. cbn [is_enum_info bind].
  rewrite (enum_bytes d n e z l) by (auto; unfold word in W; lia). cbn [bind]. rewrite (proj2 (word_iff z) W). rewrite load_number. rewrite swrap_signed; auto.
  - unfold word in W. lia.
  - assert (R := load_range m BM (Z.to_nat z) (v_addr v)). rewrite load_number in R. rewrite Z2Nat.id in R by (unfold word in W; lia). auto.
Qed.
Lemma enum_write : forall d n m v z l x, acyclic d n -> enum_type d v z l -> word z ->
  exists m', value_set_enumeration (n + 3) d m v x = Ret (0, m') /\ bytes_set m m' (v_addr v) (Z.to_nat z) x.
Proof.
  intros d n m v z l x A (e & F & I) W. unfold value_set_enumeration. rewrite (final_if_type d n _ e) by auto. rewrite I. cbn [is_enum_info bind].
  rewrite (enum_bytes d n e z l) by (auto; unfold word in W; lia). cbn [bind]. rewrite (proj2 (word_iff z) W). eexists. split; [reflexivity|]. apply store_set.
Qed.
Lemma enum_read_sound : forall n d m v x, value_enumeration n d m v = Ret (inr x) -> exists z l, enum_type d v z l.
Proof.
  intros n d m v x H. unfold value_enumeration in H. destruct (final_if n d (Some (v_entry v)) is_enum_info) as [[e|]| | |] eqn:F; try discriminate.
  apply final_if_some in F. destruct F as (F & I). destruct (e_info (deref d e)) as [ | | | | |z l| | | | | | | | ] eqn:IE; try discriminate. exists z, l, e. auto.
Qed.
Lemma enum_write_sound : forall n d m v x s m', value_set_enumeration n d m v x = Ret (s, m') ->
  (s = 0 -> exists z l, enum_type d v z l /\ bytes_set m m' (v_addr v) (Z.to_nat (z mod 2 ^ 64)) x) /\ (s <> 0 -> m' = m).
Proof.
  intros n d m v x s m' H. unfold value_set_enumeration in H. destruct (final_if n d (Some (v_entry v)) is_enum_info) as [[e|]| | |] eqn:F; try discriminate; cbn [bind] in H.
  2:{ injection H as <- <-. split; intros; [discriminate|auto]. }
  apply final_if_some in F. destruct F as (F & I). destruct (e_info (deref d e)) as [ | | | | |z l| | | | | | | | ] eqn:IE; try discriminate.
  destruct (enum_size n d e) as [[z'|er]| | |] eqn:SZ; try discriminate; cbn [bind] in H.
  - unfold enum_size in SZ. apply byte_size_spec in SZ. destruct SZ as (z2 & HS & ->).
    assert (HS' : has_size d (Some e) z) by (eapply hs_enum; eauto). assert (z2 = z) by (eapply has_size_fun; eauto). subst z2.
    destruct (is_word (uwrap 64 z)).
    + injection H as <- <-. split; intros; [|contradiction]. exists z, l. split. exists e; auto. apply store_set.
    + injection H as <- <-. split; intros; [discriminate|auto].
  - injection H as <- <-. split; intros; [discriminate|auto].
Qed.
Lemma bytes_set_ok : forall m m' a n x, bytes_ok m -> bytes_ok m' -> bytes_set m m' a n x -> number_at m' a n = x mod 2 ^ (8 * Z.of_nat n).
Proof. intros m m' a n x _ _ (H & _). auto. Qed.
Lemma as_signed_id : forall n x, 0 < n -> - 2 ^ (n - 1) <= x < 2 ^ (n - 1) -> as_signed n (x mod 2 ^ n) = x.
Proof.
  intros n x N R. assert (0 < 2 ^ n) by (apply Z.pow_pos_nonneg; lia). rewrite <- swrap_signed by (auto; apply Z.mod_pos_bound; auto).
  change (x mod 2 ^ n) with (uwrap n x). rewrite swrap_uwrap by auto. apply swrap_small; auto.
Qed.
Lemma set_enum_ok : forall n d m v x s m', bytes_ok m -> value_set_enumeration n d m v x = Ret (s, m') -> bytes_ok m'.
Proof.
  intros n d m v x s m' BM H. unfold value_set_enumeration in H. destruct (final_if n d (Some (v_entry v)) is_enum_info) as [[e|]| | |]; try discriminate; cbn [bind] in H.
  2:{ injection H as _ <-; auto. } destruct (enum_size n d e) as [[z|er]| | |]; try discriminate; cbn [bind] in H.
  - destruct (is_word z); injection H as _ <-; auto. apply store_bytes_ok; auto.
  - injection H as _ <-; auto.
Qed.
Lemma enum_round : forall d n m v z l x m', acyclic d n -> bytes_ok m -> enum_type d v z l -> word z -> - 2 ^ (8 * z - 1) <= x < 2 ^ (8 * z - 1) ->
  value_set_enumeration (n + 3) d m v x = Ret (0, m') -> value_enumeration (n + 3) d m' v = Ret (inr x).
Proof.
  intros d n m v z l x m' A BM T W R H. assert (BM' := set_enum_ok _ _ _ _ _ _ _ BM H).
  destruct (enum_write d n m v z l x A T W) as (m2 & H2 & (S1 & _)). assert (m2 = m') by congruence. subst m2.
  rewrite (enum_read d n m' v z l) by auto. rewrite S1. rewrite Z2Nat.id by (unfold word in W; lia). rewrite as_signed_id; auto. unfold word in W; lia.
Qed.
Lemma enum_loop_spec : forall l x, first_name l x (enum_loop l x).
Proof.
  induction l as [|(n, c) l IH]; intros x; cbn. - right. split; auto.
  - destruct (Z.eqb_spec c x).
    + subst. left. exists [], l. split; auto.
    + destruct (IH x) as [(pre & post & E & P)|(E & P)].
      * left. exists ((n, c) :: pre), post. split; [cbn; congruence|]. intros y [<-|I]; cbn; auto.
      * right. split; auto. intros y [<-|I]; auto.
Qed.
Lemma first_name_fun : forall l x a b, first_name l x a -> first_name l x b -> a = b.
Proof.
  intros l x a b [(p & q & -> & P)|(-> & P)] [(p' & q' & E & P')|(-> & P')]; auto.
  - revert p' E P'. induction p as [|y p IH]; intros [|y' p'] E P'; cbn in E; try congruence.
    + injection E as <- E. exfalso. apply (P' (a, x)). left; auto. auto.
    + injection E as -> E. exfalso. apply (P (b, x)). left; auto. auto.
    + injection E as <- E. eapply IH; eauto. intros z I. apply P. right; auto. intros z I. apply P'. right; auto.
  - exfalso. apply (P' (a, x)). apply in_or_app. right; left; auto. auto.
  - exfalso. apply (P (b, x)). subst. apply in_or_app. right; left; auto. auto.
Qed.
Lemma enum_name : forall d n v z l x, acyclic d n -> enum_type d v z l ->
  exists nm, value_enumeration_to_name (n + 3) d v x = Ret nm /\ first_name l x nm.
Proof.
  intros d n v z l x A (e & F & I). unfold value_enumeration_to_name. rewrite (final_if_type d n _ e) by auto. rewrite I. cbn [is_enum_info bind].
  unfold enumeration_to_name. rewrite (final_if_type d n _ e) by (auto; eapply final_type_self; eauto). rewrite I. cbn [is_enum_info bind].
  eexists. split; [reflexivity|]. unfold enumerators_of. rewrite I. apply enum_loop_spec.
Qed.
Lemma value_num_enum : forall d n g m v z l, acyclic d n -> bytes_ok m -> enum_type d v z l -> word z ->
  let y := as_signed (8 * z) (number_at m (v_addr v) (Z.to_nat z)) in
  exists r, value_num (n + 3) d g m v = Ret (inr r) /\ (-2147483648 <= y <= 2147483647 -> r = y).
Proof.
  intros d n g m v z l A BM T W y. exists (swrap 32 y). split; [|apply swrap32]. unfold value_num.
  assert (NB : forall e c k, final_type d (Some (v_entry v)) (Some e) -> e_info (deref d e) <> IBase c k).
  { intros e c k F B. destruct T as (e' & F' & I). assert (Some e = Some e') by (eapply final_type_fun; eauto). congruence. }
  rewrite num_loop_miss; auto.
  - cbn [bind]. rewrite (enum_read d n m v z l) by auto. reflexivity.
  - intros e c k F B. exfalso. eapply NB; eauto.
  - intros c _ H. destruct (has_ctype_name _ _ _ H) as (e & F & _ & z' & k & I). eapply NB; eauto.
Qed.
Lemma num_loop_sound : forall n d g m v l r, num_loop n d g m v l = Ret (Some r) -> exists c, In c l /\ has_ctype d v c.
Proof.
  induction l as [|c l IH]; intros r H; cbn [num_loop] in H; [discriminate|].
  destruct (value_is n d v c) as [b| | |] eqn:B; try discriminate; cbn [bind] in H. apply value_is_spec in B. destruct b.
  - exists c. split; [left; auto|]. apply B. auto.
  - destruct (IH _ H) as (c' & I & X). exists c'. split; auto. right. auto.
Qed.
Lemma value_num_sound : forall n d g m v r, value_num n d g m v = Ret (inr r) -> (exists c, c_integer c /\ has_ctype d v c) \/ (exists z l, enum_type d v z l).
Proof.
  intros n d g m v r H. unfold value_num in H. destruct (num_loop n d g m v num_types) as [[y|]| | |] eqn:L; try discriminate; cbn [bind] in H.
  - left. apply num_loop_sound in L. destruct L as (c & I & X). exists c. split; auto.
  - right. destruct (value_enumeration n d m v) as [[er|x]| | |] eqn:E; try discriminate. eapply enum_read_sound; eauto.
Qed.

(** pointers *)
Lemma pointer_read : forall d n m v, acyclic d n -> pointer_type d v -> value_pointer (n + 3) d m v = Ret (inr (number_at m (v_addr v) 8)).
Proof.
  intros d n m v A (e & t & F & I). unfold value_pointer. rewrite (final_if_type d n _ e) by auto. rewrite I. cbn [is_pointer_info bind]. rewrite load_number. reflexivity.
Qed.
Lemma pointer_write : forall d n m v x, acyclic d n -> pointer_type d v ->
  exists m', value_set_pointer (n + 3) d m v x = Ret (0, m') /\ bytes_set m m' (v_addr v) 8 x.
Proof.
  intros d n m v x A (e & t & F & I). unfold value_set_pointer. rewrite (final_if_type d n _ e) by auto. rewrite I. cbn [is_pointer_info bind].
  eexists. split; [reflexivity|]. apply store_set.
Qed.
Lemma pointer_sound : forall n d m v,
  (forall x, value_pointer n d m v = Ret (inr x) -> pointer_type d v) /\
  (forall x s m', value_set_pointer n d m v x = Ret (s, m') -> (s = 0 -> pointer_type d v) /\ (s <> 0 -> m' = m)).
Proof.
  intros n d m v. unfold value_pointer, value_set_pointer. destruct (final_if n d (Some (v_entry v)) is_pointer_info) as [[e|]| | |] eqn:F;
    (split; [intros x H|intros x s m' H]; try discriminate); cbn [bind] in H.
  1,2: apply final_if_some in F; destruct F as (F & I); destruct (e_info (deref d e)) as [ | | |t| | | | | | | | | | ] eqn:IE; try discriminate.
  - exists e, t. auto.
  - split; intros. exists e, t; auto. injection H as <- _. contradiction.
  - injection H as <- <-. split; intros; [discriminate|auto].
Qed.

(** copy and comparison of base types *)
Lemma all_types_all : forall c, In c all_types.
Proof. intros c. unfold all_types. destruct c; cbn; tauto. Qed.
Lemma copy_loop_sound : forall n d g m src dst l b m', copy_loop n d g m src dst l = Ret (b, m') ->
  (b = true -> exists c, In c l /\ has_ctype d src c /\ has_ctype d dst c /\ ~ is_const d dst /\
     exists x, value_get n d g m src c = Ret (inr x) /\ value_set n d g m dst c x = Ret (0, m')) /\
  (b = false -> m' = m).
Proof.
  induction l as [|c l IH]; intros b m' H; cbn [copy_loop] in H. { injection H as <- <-. split; intros; [discriminate|auto]. }
  destruct (value_is n d src c) as [b1| | |] eqn:B1; try discriminate; cbn [bind] in H. apply value_is_spec in B1. destruct b1.
  - destruct (value_is n d dst c) as [b2| | |] eqn:B2; try discriminate; cbn [bind] in H. apply value_is_spec in B2. destruct b2.
    + destruct (value_get n d g m src c) as [[er|x]| | |] eqn:G; try discriminate; cbn [bind] in H. { injection H as <- <-. split; intros; [discriminate|auto]. }
      destruct (value_set n d g m dst c x) as [[s m2]| | |] eqn:SS; try discriminate; cbn [bind fst snd] in H. injection H as <- <-.
      destruct (value_set_sound _ _ _ _ _ _ _ _ _ SS) as (S1 & S2). split; intros E.
      * apply Z.eqb_eq in E. subst s. exists c. split; [left; auto|]. split; [apply B1; auto|]. split; [apply B2; auto|]. split; [apply S1; auto|]. eauto.
      * apply S2. apply Z.eqb_neq in E. auto.
    + injection H as <- <-. split; intros; [discriminate|auto].
  - destruct (IH _ _ H) as (I1 & I2). split; auto. intros E. destruct (I1 E) as (c' & I & R). exists c'. split; auto. right; auto.
Qed.
Lemma copy_loop_hit : forall d n g m src dst c l x s m', acyclic d n -> has_ctype d src c -> has_ctype d dst c -> In c l ->
  value_get (n + 3) d g m src c = Ret (inr x) -> value_set (n + 3) d g m dst c x = Ret (s, m') ->
  copy_loop (n + 3) d g m src dst l = Ret (s =? 0, m').
Proof.
  intros d n g m src dst c l x s m' A H1 H2 I G SS. induction l as [|c' l IH]; [destruct I|]. cbn [copy_loop].
  destruct (ctype_dec d n src c' A (ctype_named _ _ _ H1)) as [H'|H'].
  - assert (c' = c) by (eapply has_ctype_fun; eauto). subst c'. rewrite (value_is_true d n) by auto. cbn [bind]. rewrite (value_is_true d n) by auto. cbn [bind].
    rewrite G. cbn [bind]. rewrite SS. reflexivity.
  - rewrite (value_is_false d n) by (auto; eapply ctype_named; eauto). cbn [bind]. apply IH. destruct I as [->|I]; auto. contradiction.
Qed.
Lemma copy_base_plain : forall d n g m src dst c, acyclic d n -> has_ctype d src c -> has_ctype d dst c -> ~ is_const d dst -> plain d src -> plain d dst ->
  exists m', value_copy_base_type (n + 3) d g m src dst = Ret (true, m') /\
    bytes_set m m' (v_addr dst) (Z.to_nat (ct_size c)) (number_at m (v_addr src) (Z.to_nat (ct_size c))).
Proof.
  intros d n g m src dst c A H1 H2 NC P1 P2. assert (G := value_get_plain d n g m src c A H1 P1).
  destruct (value_set_plain d n g m dst c (number_at m (v_addr src) (Z.to_nat (ct_size c))) A H2 NC P2) as (m' & SS).
  exists m'. split.
  - unfold value_copy_base_type. erewrite copy_loop_hit; eauto using all_types_all. reflexivity.
  - apply (value_set_sound _ _ _ _ _ _ _ _ _ SS); auto.
Qed.
Lemma number_range : forall m a n, bytes_ok m -> 0 <= number_at m a n < 2 ^ (8 * Z.of_nat n).
Proof. intros m a n B. rewrite <- load_number. apply load_range. auto. Qed.
Lemma ct_size_pos : forall c, 0 < ct_size c.
Proof. intros c. destruct c; cbn; lia. Qed.
Lemma ct_number_inj : forall c x y, 0 <= x < 2 ^ (8 * ct_size c) -> 0 <= y < 2 ^ (8 * ct_size c) -> ct_number c x = ct_number c y -> x = y.
Proof.
  intros c x y X Y E. unfold ct_number in E. destruct (ct_signed c); auto. assert (P := ct_size_pos c).
  rewrite <- (Z.mod_small x (2 ^ (8 * ct_size c))) by auto. rewrite <- (Z.mod_small y (2 ^ (8 * ct_size c))) by auto.
  rewrite <- (swrap_mod (8 * ct_size c) x), <- (swrap_mod (8 * ct_size c) y) by lia. congruence.
Qed.
Lemma equal_loop_hit : forall feq d n g m v1 v2 c l x y, acyclic d n -> has_ctype d v1 c -> has_ctype d v2 c -> In c l ->
  value_get (n + 3) d g m v1 c = Ret (inr x) -> value_get (n + 3) d g m v2 c = Ret (inr y) ->
  equal_loop feq (n + 3) d g m v1 v2 l = Ret (if c_equal feq c x y then 1 else 0).
Proof.
  intros feq d n g m v1 v2 c l x y A H1 H2 I G1 G2. induction l as [|c' l IH]; [destruct I|]. cbn [equal_loop].
  destruct (ctype_dec d n v1 c' A (ctype_named _ _ _ H1)) as [H'|H'].
  - assert (c' = c) by (eapply has_ctype_fun; eauto). subst c'. rewrite (value_is_true d n) by auto. cbn [bind]. rewrite (value_is_true d n) by auto. cbn [bind].
    rewrite G1. cbn [bind]. rewrite G2. reflexivity.
  - rewrite (value_is_false d n) by (auto; eapply ctype_named; eauto). cbn [bind]. apply IH. destruct I as [->|I]; auto. contradiction.
Qed.
Lemma c_integer_dec : forall c, c_integer c -> is_integer c = true.
Proof. intros c H. unfold c_integer in H. cbn in H. intuition (subst; reflexivity). Qed.
Lemma equal_base_plain : forall feq d n g m v1 v2 c, acyclic d n -> bytes_ok m -> has_ctype d v1 c -> has_ctype d v2 c -> c_integer c -> plain d v1 -> plain d v2 ->
  exists r, value_equal_base_type feq (n + 3) d g m v1 v2 = Ret r /\ (r = 0 \/ r = 1) /\
    (r = 1 <-> number_at m (v_addr v1) (Z.to_nat (ct_size c)) = number_at m (v_addr v2) (Z.to_nat (ct_size c))).
Proof.
  intros feq d n g m v1 v2 c A BM H1 H2 CI P1 P2. eexists. split.
  { unfold value_equal_base_type. eapply equal_loop_hit; eauto using all_types_all. apply value_get_plain; auto. apply value_get_plain; auto. }
  unfold c_equal. rewrite (c_integer_dec c CI). assert (R1 := number_range m (v_addr v1) (Z.to_nat (ct_size c)) BM). assert (R2 := number_range m (v_addr v2) (Z.to_nat (ct_size c)) BM).
  assert (P := ct_size_pos c). rewrite Z2Nat.id in R1, R2 by lia. split.
  - destruct (_ =? _); auto.
  - destruct (Z.eqb_spec (ct_number c (number_at m (v_addr v1) (Z.to_nat (ct_size c)))) (ct_number c (number_at m (v_addr v2) (Z.to_nat (ct_size c))))) as [E|E]; split; intros H; try discriminate; auto.
    + eapply ct_number_inj; eauto. + exfalso. apply E. congruence.
Qed.
Lemma equal_loop_sound : forall feq n d g m v1 v2 l r, equal_loop feq n d g m v1 v2 l = Ret r -> 0 <= r -> exists c, has_ctype d v1 c /\ has_ctype d v2 c.
Proof.
  induction l as [|c l IH]; intros r H R; cbn [equal_loop] in H. { injection H as <-. cbv in R. contradiction R; auto. }
  destruct (value_is n d v1 c) as [b1| | |] eqn:B1; try discriminate; cbn [bind] in H. apply value_is_spec in B1. destruct b1; [|eauto].
  destruct (value_is n d v2 c) as [b2| | |] eqn:B2; try discriminate; cbn [bind] in H. apply value_is_spec in B2. destruct b2.
  - exists c. split; [apply B1|apply B2]; auto.
  - injection H as <-. cbv in R. contradiction R; auto.
Qed.

(** elements *)
Lemma uwrap_mul_add : forall a s i, uwrap 64 (a + uwrap 64 (uwrap 64 s * uwrap 64 i)) = uwrap 64 (a + s * i).
Proof. intros a s i. unfold uwrap. rewrite Zplus_mod_idemp_r. rewrite <- (Zplus_mod_idemp_r (s * i)). rewrite (Zmult_mod s i). rewrite Zplus_mod_idemp_r. reflexivity. Qed.
Lemma array_final : forall i t c, i = IArray t c -> final_kind i.
Proof. intros i t c -> ? ? K. inversion K. Qed.
Lemma new_value_some : forall p addr a v, new_value p addr a = Some v -> a = true /\ addr <> 0 /\ v = Build_value p addr.
Proof. intros p addr a v H. unfold new_value in H. destruct (Z.eqb_spec addr 0); [discriminate|]. destruct a; [|discriminate]. injection H as <-. auto. Qed.
Lemma final_if_own : forall n d p w e x w', final_if n d p w = Ret (Some e) -> final_if n d (Some e) w' = Ret x ->
  x = if w' (e_info (deref d e)) then Some e else None.
Proof.
  intros n d p w e x w' H H'. destruct (final_if_some _ _ _ _ _ H) as (F & _). apply (final_if_final _ _ _ _ _ H').
  destruct F as (qs & R). apply resolves_final in R. exact R.
Qed.
Lemma element_sound : forall n d v id a v', new_value_by_element_id n d v id a = Ret (Some v') ->
  exists t c z, array_type d v t c /\ has_size d (Some (St t)) z /\ 0 <= id < swrap 32 c /\ v_entry v' = St t /\ v_addr v' = uwrap 64 (v_addr v + z * id) /\ v_addr v' <> 0.
Proof.
  intros n d v id a v' H. unfold new_value_by_element_id in H.
  destruct (final_if n d (Some (v_entry v)) is_array_info) as [[e|]| | |] eqn:F; try discriminate; cbn [bind] in H.
  destruct (final_if_some _ _ _ _ _ F) as (FT & I). destruct (e_info (deref d e)) as [ | | | | | |t c| | | | | | | ] eqn:IE; try discriminate.
  unfold element_count, element_entry in H. destruct (final_if n d (Some e) is_array_info) as [x| | |] eqn:F'; try discriminate; cbn [bind] in H.
  assert (x = Some e). { rewrite (final_if_own _ _ _ _ _ _ _ F F'). rewrite IE. reflexivity. } subst x. unfold array_of in H. rewrite IE in H. cbn [fst snd] in H.
  destruct (swrap 32 c <? 0) eqn:C0; [discriminate|]. destruct ((id <? 0) || (swrap 32 c <=? id)) eqn:R; [discriminate|].
  destruct t as [t|]; cbn [bind] in H; [|discriminate]. change (lift (Some t)) with (Some (St t)) in H. cbv iota in H.
  destruct (byte_size n d (Some (St t))) as [[z'|er]| | |] eqn:BS; try discriminate; cbn [bind] in H. apply byte_size_spec in BS. destruct BS as (z & HS & ->).
  rewrite uwrap_mul_add in H.
  injection H as H. apply new_value_some in H. destruct H as (-> & NZ & ->). exists t, c, z. cbn [v_entry v_addr]. repeat split; auto; try lia. exists e; auto.
Qed.
Lemma element_complete : forall d n v id t c z, acyclic d n -> array_type d v t c -> has_size d (Some (St t)) z -> 0 <= id < c -> c <= 2147483647 ->
  uwrap 64 (v_addr v + z * id) <> 0 ->
  new_value_by_element_id (n + 3) d v id true = Ret (Some (Build_value (St t) (uwrap 64 (v_addr v + z * id)))).
Proof.
  intros d n v id t c z A (e & F & I) HS R C NZ. unfold new_value_by_element_id. rewrite (final_if_type d n _ e) by auto. rewrite I. cbn [is_array_info bind].
  assert (F' : final_type d (Some e) (Some e)) by (eapply final_type_self; eauto).
  unfold element_count, element_entry. rewrite (final_if_type d n _ e) by auto. rewrite I. cbn [is_array_info bind]. unfold array_of. rewrite I. cbn [fst snd].
  rewrite swrap32 by lia. destruct (Z.ltb_spec c 0); [lia|]. destruct (Z.ltb_spec id 0); [lia|]. destruct (Z.leb_spec c id); [lia|]. cbn [orb]. change (lift (Some t)) with (Some (St t)). cbn [bind].
  destruct (byte_size_total d n (Some (St t)) A) as (x & X). rewrite X. cbn [bind]. apply byte_size_spec in X. destruct x as [y|er].
  - destruct X as (z' & HS' & ->). assert (z' = z) by (eapply has_size_fun; eauto). subst z'.
    rewrite uwrap_mul_add. unfold new_value. destruct (Z.eqb_spec (uwrap 64 (v_addr v + z * id)) 0); [contradiction|reflexivity].
  - destruct X as (_ & X). exfalso. eapply X; eauto.
Qed.
Lemma swrap32_below : forall c, - 2147483648 <= c -> swrap 32 c <= c.
Proof.
  intros c H. assert (R := swrap_range 32 c ltac:(lia)). destruct (Z.le_gt_cases c 2147483647). - rewrite swrap32; lia. - change (2 ^ (32 - 1)) with 2147483648 in R. lia.
Qed.
Lemma array_fun : forall d v t c t' c', array_type d v t c -> array_type d v t' c' -> t = t' /\ c = c'.
Proof.
  intros d v t c t' c' (e & F & I) (e' & F' & I'). assert (Some e = Some e') by (eapply final_type_fun; eauto). assert (e = e') by congruence. subst. rewrite I in I'. injection I' as -> ->. auto.
Qed.
(** the array lies in the address space *)
Lemma element_place : forall n d v id a v' t c z, new_value_by_element_id n d v id a = Ret (Some v') -> array_type d v t c -> has_size d (Some (St t)) z ->
  - 2147483648 <= c -> 0 <= z -> 0 < v_addr v -> v_addr v + c * z <= 2 ^ 64 - 1 ->
  0 <= id < c /\ v_entry v' = St t /\ v_addr v' = v_addr v + id * z.
Proof.
  intros n d v id a v' t c z H T HS C Z0 A AE. destruct (element_sound _ _ _ _ _ _ H) as (t' & c' & z' & T' & HS' & R & E & AD & _).
  destruct (array_fun _ _ _ _ _ _ T T') as (<- & <-). assert (z' = z) by (eapply has_size_fun; eauto). subst z'.
  assert (B := swrap32_below c C). split; [lia|]. split; auto. rewrite AD. rewrite (Z.mul_comm id z). apply uwrap_small. split; nia.
Qed.
Lemma element_tiles : forall a c z b, 0 < z -> a <= b < a + c * z -> exists i, 0 <= i < c /\ (forall j, a + j * z <= b < a + (j + 1) * z <-> j = i).
Proof.
  intros a c z b Z0 R. assert (D := Z.div_mod (b - a) z ltac:(lia)). assert (M := Z.mod_pos_bound (b - a) z Z0).
  exists ((b - a) / z). split. { split. apply Z.div_pos; lia. apply Z.div_lt_upper_bound; lia. }
  intros j. split; intros H. - apply (Z.div_unique (b - a) z j (b - a - j * z)); nia. - subst j. nia.
Qed.
(** members *)
Lemma aggr_fun : forall d v l l', aggr_type d v l -> aggr_type d v l' -> l = l'.
Proof.
  intros d v l l' (e & k & z & F & I) (e' & k' & z' & F' & I'). assert (Some e = Some e') by (eapply final_type_fun; eauto). assert (e = e') by congruence. subst. congruence.
Qed.
Lemma member_sound : forall n d v id a v', new_value_by_member_id n d v id a = Ret (Some v') ->
  exists l r mi, aggr_type d v l /\ 0 <= id /\ nth_error l (Z.to_nat id) = Some r /\ e_info (d r) = IMember mi /\
    v_entry v' = St r /\ v_addr v' = uwrap 64 (v_addr v + m_byte_offset mi).
Proof.
  intros n d v id a v' H. unfold new_value_by_member_id in H.
  destruct (final_if n d (Some (v_entry v)) is_aggr_info) as [[e|]| | |] eqn:F; try discriminate; cbn [bind] in H.
  destruct (final_if_some _ _ _ _ _ F) as (FT & I). destruct (e_info (deref d e)) as [ | | | | | | | |k z l| | | | | ] eqn:IE; try discriminate.
  unfold member_count, by_member_id in H. destruct (final_if n d (Some e) is_aggr_info) as [x| | |] eqn:F'; try discriminate; cbn [bind] in H.
  assert (x = Some e). { rewrite (final_if_own _ _ _ _ _ _ _ F F'). rewrite IE. reflexivity. } subst x. unfold members_of in H. rewrite IE in H.
  destruct ((id <? 0) || (Z.of_nat (Datatypes.length l) <=? id)) eqn:R; [discriminate|].
  destruct (nth_id l id) as [p|] eqn:N; [|discriminate]. apply nth_id_spec in N. destruct N as (P & r & N & ->).
  destruct (e_info (deref d (St r))) as [ | | | | | | |mi| | | | | | ] eqn:IM; try discriminate. injection H as H. apply new_value_some in H. destruct H as (-> & NZ & ->).
  exists l, r, mi. cbn [v_entry v_addr]. repeat split; auto. exists e, k, z; auto.
Qed.
Lemma member_complete : forall d n v id l r mi, acyclic d n -> aggr_type d v l -> 0 <= id -> nth_error l (Z.to_nat id) = Some r -> e_info (d r) = IMember mi ->
  uwrap 64 (v_addr v + m_byte_offset mi) <> 0 ->
  new_value_by_member_id (n + 3) d v id true = Ret (Some (Build_value (St r) (uwrap 64 (v_addr v + m_byte_offset mi)))).
Proof.
  intros d n v id l r mi A (e & k & z & F & I) P N IM NZ. unfold new_value_by_member_id. rewrite (final_if_type d n _ e) by auto. rewrite I. cbn [is_aggr_info bind].
  assert (F' : final_type d (Some e) (Some e)) by (eapply final_type_self; eauto).
  unfold member_count, by_member_id. rewrite (final_if_type d n _ e) by auto. rewrite I. cbn [is_aggr_info bind]. unfold members_of. rewrite I.
  assert (L : (Z.to_nat id < Datatypes.length l)%nat) by (apply nth_error_Some; congruence).
  destruct (Z.ltb_spec id 0); [lia|]. destruct (Z.leb_spec (Z.of_nat (Datatypes.length l)) id); [lia|]. cbn [orb].
  rewrite (proj2 (nth_id_spec l id (St r))) by eauto. cbn [deref]. rewrite IM. unfold new_value. destruct (Z.eqb_spec (uwrap 64 (v_addr v + m_byte_offset mi)) 0); [contradiction|reflexivity].
Qed.

Lemma offsets_agree : forall mi3 mi4 dbo bs, field3 mi3 dbo bs -> field4 mi4 dbo bs -> 0 <= dbo < 2 ^ 64 -> bitfield_offsets mi3 = bitfield_offsets mi4.
Proof.
  intros mi3 mi4 dbo bs F3 F4 R. destruct (offsets_spec mi3 dbo bs) as (b3 & o3 & E3 & H3 & _ & _); [split; auto|].
  destruct (offsets_spec mi4 dbo bs) as (b4 & o4 & E4 & H4 & _ & _); [split; auto|].
  destruct (offsets_spec mi3 dbo bs) as (b3' & o3' & E3' & H3' & O3 & _); [split; auto|].
  destruct (offsets_spec mi4 dbo bs) as (b4' & o4' & E4' & H4' & O4 & _); [split; auto|].
  rewrite E3', E4'. assert (b3' = b4') by lia. assert (o3' = o4') by lia. subst. reflexivity.
Qed.
Lemma value_round : forall d n g m v c x m' g', acyclic d n -> plain d v -> value_set (n + 3) d g m v c x = Ret (0, m') ->
  value_get (n + 3) d g' m' v c = Ret (inr (x mod 2 ^ (8 * ct_size c))).
Proof.
  intros d n g m v c x m' g' A P H. destruct (value_set_sound _ _ _ _ _ _ _ _ _ H) as (S & _). destruct (S eq_refl) as (T & NC & B).
  destruct (B P) as (B1 & _). rewrite (value_get_plain d n) by auto. rewrite B1. rewrite Z2Nat.id; auto. assert (Q := ct_size_pos c). lia.
Qed.
Lemma copy_base_sound : forall n d g m src dst b m', value_copy_base_type n d g m src dst = Ret (b, m') ->
  (b = true -> exists c, has_ctype d src c /\ has_ctype d dst c /\ ~ is_const d dst /\
     exists x, value_get n d g m src c = Ret (inr x) /\ value_set n d g m dst c x = Ret (0, m')) /\
  (b = false -> m' = m).
Proof.
  intros n d g m src dst b m' H. destruct (copy_loop_sound _ _ _ _ _ _ _ _ _ H) as (H1 & H2). split; auto. intros E. destruct (H1 E) as (c & _ & R). eauto.
Qed.
Lemma equal_base_sound : forall feq n d g m v1 v2 r, value_equal_base_type feq n d g m v1 v2 = Ret r -> 0 <= r ->
  exists c, has_ctype d v1 c /\ has_ctype d v2 c.
Proof. intros feq n d g m v1 v2 r. apply equal_loop_sound. Qed.
Lemma pointer_ok : forall d n m v, acyclic d n -> pointer_type d v ->
  value_pointer (n + 3) d m v = Ret (inr (number_at m (v_addr v) 8)) /\
  forall x, exists m', value_set_pointer (n + 3) d m v x = Ret (0, m') /\ bytes_set m m' (v_addr v) 8 x.
Proof. intros. split; [apply pointer_read|intros; apply pointer_write]; auto. Qed.
