(** Proofs about passing arguments. *)
From Coq Require Import ZArith List Bool Arith Lia.
From Verif Require Import AbiModel AbiSpec.
Import ListNotations.

Definition ext (f f' : frame) : Prop :=
  (exists x, f_gp f' = f_gp f ++ x) /\ (exists x, f_fp f' = f_fp f ++ x) /\ (exists x, f_stack f' = f_stack f ++ x).
Lemma ext_refl : forall f, ext f f.
Proof. intros f. repeat split; exists []; rewrite app_nil_r; reflexivity. Qed.
Lemma ext_trans : forall f g h, ext f g -> ext g h -> ext f h.
Proof.
  intros f g h ((x & X) & (y & Y) & (z & Z0)) ((x' & X') & (y' & Y') & (z' & Z')).
  repeat split; eexists; [rewrite X', X|rewrite Y', Y|rewrite Z', Z0]; rewrite <- app_assoc; reflexivity.
Qed.
Lemma push_ext : forall c w f, ext f (push c w f).
Proof. intros [] w f; repeat split; cbn; try (exists []; rewrite app_nil_r; reflexivity); exists [w]; reflexivity. Qed.
Lemma put_regs_ext : forall cs b f, ext f (put_regs cs b f).
Proof. induction cs as [|c cs IH]; intros b f; [apply ext_refl|]. cbn. eapply ext_trans; [apply push_ext|apply IH]. Qed.
Lemma put_stack_ext : forall t b f, ext f (put_stack t b f).
Proof.
  intros t b f. repeat split; cbn; try (exists []; rewrite app_nil_r; reflexivity). unfold fill. rewrite <- !app_assoc. eexists. reflexivity.
Qed.
Lemma pass_ext : forall t b f, ext f (pass f t b).
Proof. intros t b f. unfold pass. destruct (classify t) as [cs|]; [destruct (fit cs _ _)|]; auto using put_regs_ext, put_stack_ext. Qed.
Lemma passed_ext : forall args f, ext f (passed f args).
Proof. induction args as [|a args IH]; intros f; [apply ext_refl|]. eapply ext_trans; [apply pass_ext|apply IH]. Qed.

Lemma push_lengths : forall c w f, length (f_gp (push c w f)) = length (f_gp f) + count Gp [c] /\
  length (f_fp (push c w f)) = length (f_fp f) + count Fp [c] /\ f_stack (push c w f) = f_stack f.
Proof. intros [] w f; cbn; rewrite ?app_length; cbn; repeat split; lia. Qed.
Lemma count_cons : forall c x cs, count c (x :: cs) = count c [x] + count c cs.
Proof. intros c x cs. unfold count. cbn. destruct (reg_eqb c x); reflexivity. Qed.
Lemma put_regs_lengths : forall cs b f, length (f_gp (put_regs cs b f)) = length (f_gp f) + count Gp cs /\
  length (f_fp (put_regs cs b f)) = length (f_fp f) + count Fp cs /\ f_stack (put_regs cs b f) = f_stack f.
Proof.
  induction cs as [|c cs IH]; intros b f; [cbn; repeat split; lia|]. cbn [put_regs].
  destruct (IH (skipn 8 b) (push c (fill 8 (firstn 8 b)) f)) as (A & B & C). destruct (push_lengths c (fill 8 (firstn 8 b)) f) as (D & E & F).
  rewrite A, B, C, D, E, F, !(count_cons _ c cs). repeat split; lia.
Qed.

Lemma word : forall (b : list Z), exists z, fill 8 (firstn 8 b) = firstn 8 b ++ z /\ (8 <= length b -> z = []).
Proof. intros b. exists (repeat 0%Z (8 - length (firstn 8 b))). split; [reflexivity|]. intros H. rewrite firstn_length, Nat.min_l by lia. reflexivity. Qed.
Lemma take_put : forall cs b f f', length b <= 8 * length cs -> ext (put_regs cs b f) f' ->
  exists p, take_regs cs (length (f_gp f)) (length (f_fp f)) f' = Some (b ++ p).
Proof.
  induction cs as [|c cs IH]; intros b f f' L X.
  - cbn in L. destruct b; [|cbn in L; lia]. exists []. reflexivity.
  - cbn [put_regs] in X. destruct (word b) as (z & W & Z0).
    assert (X1 : ext (push c (fill 8 (firstn 8 b)) f) f') by (eapply ext_trans; [apply put_regs_ext|exact X]).
    destruct (IH (skipn 8 b) (push c (fill 8 (firstn 8 b)) f) f') as (p & E); [rewrite skipn_length; cbn [length] in L; lia|exact X|].
    assert (G : exists q, (firstn 8 b ++ z) ++ skipn 8 b ++ p = b ++ q).
    { destruct (le_lt_dec 8 (length b)) as [G|G].
      - rewrite (Z0 G), app_nil_r, app_assoc, firstn_skipn. eauto.
      - rewrite firstn_all2, skipn_all2 by lia. cbn [app]. rewrite <- app_assoc. eauto. }
    destruct G as (q & G). destruct X1 as ((x & X1) & (y & X2) & _).
    destruct c; cbn [push f_gp f_fp] in *; cbn [take_regs]; rewrite app_length in E; cbn [length] in E; rewrite Nat.add_1_r in E.
    + rewrite X1, <- app_assoc, nth_error_app2, Nat.sub_diag by lia. cbn [app nth_error]. rewrite E, W. cbn [option_map]. rewrite G. eauto.
    + rewrite X2, <- app_assoc, nth_error_app2, Nat.sub_diag by lia. cbn [app nth_error]. rewrite E, W. cbn [option_map]. rewrite G. eauto.
Qed.

Lemma fill_length : forall n b, length (fill n b) = Nat.max n (length b).
Proof. intros n b. unfold fill. rewrite app_length, repeat_length. lia. Qed.
Lemma round_up_le : forall n a, n <= round_up n a.
Proof. intros. unfold round_up. lia. Qed.
Lemma skipn_app_length : forall A (x y : list A) n, n = length x -> skipn n (x ++ y) = y.
Proof. intros A x y n ->. rewrite skipn_app, skipn_all, Nat.sub_diag. reflexivity. Qed.
Lemma firstn_app_length : forall A (x y : list A) n, n = length x -> firstn n (x ++ y) = x.
Proof. intros A x y n ->. rewrite firstn_app, firstn_all, Nat.sub_diag. cbn. apply app_nil_r. Qed.
Lemma take_put_stack : forall t r b f f', length b = y_size t -> y_size r = y_size t -> stack_align r = stack_align t -> ext (put_stack t b f) f' ->
  take_stack r f' (va_start f) = Some (b, va_start (put_stack t b f)).
Proof.
  intros t r b f f' L S A (_ & _ & (x & X)). unfold take_stack, va_start, put_stack in *. cbn [c_gp c_fp c_off f_gp f_fp f_stack] in *. rewrite S, A.
  set (st := round_up (length (f_stack f)) (stack_align t)) in *.
  assert (LS : length (fill st (f_stack f)) = st) by (rewrite fill_length; unfold st; pose proof (round_up_le (length (f_stack f)) (stack_align t)); lia).
  assert (E : firstn (y_size t) (skipn st (f_stack f')) = b).
  { rewrite X. unfold fill at 1. rewrite <- !app_assoc. rewrite (skipn_app_length _ _ _ st) by (symmetry; exact LS). apply firstn_app_length. congruence. }
  rewrite E, L, Nat.eqb_refl. do 2 f_equal. rewrite fill_length, app_length, LS, L. pose proof (round_up_le (st + y_size t) 8). f_equal. lia.
Qed.

Lemma eightbytes_cover : forall n, n <= 8 * eightbytes n.
Proof. intros n. unfold eightbytes. pose proof (Nat.div_mod (n + 7) 8 ltac:(lia)). pose proof (Nat.mod_upper_bound (n + 7) 8 ltac:(lia)). lia. Qed.
Lemma classify_length : forall t cs, classify t = Some cs -> length cs = eightbytes (y_size t) /\ y_size t <= 16.
Proof.
  intros t cs. unfold classify. destruct (16 <? y_size t) eqn:E; [discriminate|]. apply Nat.ltb_ge in E. cbn [orb].
  destruct (existsb unaligned _ || _); [discriminate|]. injection 1 as <-. rewrite map_length, seq_length. auto.
Qed.
(** an argument is read as passed when the type read is passed in the same way *)
Lemma read_back : forall t r b f f', length b = y_size t -> y_size r = y_size t -> stack_align r = stack_align t -> classify r = classify t ->
  ext (pass f t b) f' -> va_arg r f' (va_start f) = Some (b, va_start (pass f t b)).
Proof.
  intros t r b f f' L S A C X. unfold va_arg, pass in *. rewrite C. destruct (classify t) as [cs|] eqn:E; [|apply take_put_stack; auto].
  cbn [va_start c_gp c_fp]. destruct (fit cs _ _); [|apply take_put_stack; auto].
  destruct (classify_length _ _ E) as (LC & _). pose proof (eightbytes_cover (y_size t)).
  destruct (take_put cs b f f') as (p & T); [rewrite LC; lia|exact X|]. rewrite T, S, (firstn_app_length _ b p) by auto.
  destruct (put_regs_lengths cs b f) as (P & Q & R). unfold va_start. cbn [c_off]. rewrite P, Q, R. reflexivity.
Qed.

Lemma stand_in_unaligned : forall t, existsb unaligned (y_leaves (stand_in t)) = false.
Proof.
  intros t. apply not_true_is_false. intros H. apply existsb_exists in H. destruct H as (l & I & U). cbn in I. apply in_map_iff in I.
  destruct I as (i & <- & _). unfold unaligned in U. cbn [l_off l_prim l_size] in U. rewrite Nat.mod_1_r in U. discriminate.
Qed.
Lemma stand_in_x87 : forall t, existsb is_x87 (y_leaves (stand_in t)) = false.
Proof.
  intros t. apply not_true_is_false. intros H. apply existsb_exists in H. destruct H as (l & I & U). cbn in I. apply in_map_iff in I.
  destruct I as (i & <- & _). discriminate.
Qed.
Lemma eightbytes_lt : forall n k, k < eightbytes n -> 8 * k < n.
Proof. intros n k H. unfold eightbytes in H. pose proof (Nat.div_mod (n + 7) 8 ltac:(lia)). pose proof (Nat.mod_upper_bound (n + 7) 8 ltac:(lia)). lia. Qed.
Lemma lt_eightbytes : forall n k, 8 * k < n -> k < eightbytes n.
Proof. intros n k H. unfold eightbytes. pose proof (Nat.div_mod (n + 7) 8 ltac:(lia)). pose proof (Nat.mod_upper_bound (n + 7) 8 ltac:(lia)). lia. Qed.
Lemma stand_in_eightbyte : forall t k, 8 * k < y_size t -> eightbyte (stand_in t) k = Gp.
Proof.
  intros t k H. unfold eightbyte. replace (existsb _ _) with true; [reflexivity|]. symmetry. apply existsb_exists.
  exists {| l_off := 8 * k; l_size := 1; l_prim := Integer |}. split; [apply in_map_iff; exists (8 * k); split; [reflexivity|apply in_seq; lia]|].
  unfold touches. cbn [l_off l_size is_integer l_prim]. rewrite andb_true_r. apply andb_true_iff. split; apply Nat.ltb_lt; lia.
Qed.
Lemma map_Gp : forall (f : nat -> reg) (l : list nat), (forall k, In k l -> f k = Gp) -> map f l = repeat Gp (length l).
Proof. induction l as [|x l IH]; intros H; [reflexivity|]. cbn. rewrite (H x) by (left; reflexivity). rewrite IH by (intros; apply H; right; assumption). reflexivity. Qed.
Lemma classify_stand_in : forall t, classify (stand_in t) = if 16 <? y_size t then None else Some (repeat Gp (eightbytes (y_size t))).
Proof.
  intros t. unfold classify. rewrite stand_in_unaligned, stand_in_x87, !orb_false_r. cbn [stand_in y_size]. destruct (16 <? y_size t); [reflexivity|].
  rewrite map_Gp with (f := eightbyte (stand_in t)), seq_length; [reflexivity|]. intros k I. apply in_seq in I. apply stand_in_eightbyte. apply eightbytes_lt. lia.
Qed.
Lemma eightbyte_Gp : forall t k, eightbyte t k = Gp <-> has_integer t k.
Proof.
  intros t k. unfold eightbyte, has_integer. destruct (existsb _ _) eqn:E.
  - split; [intros _|reflexivity]. apply existsb_exists in E. destruct E as (l & I & T). apply andb_true_iff in T. destruct T as (T & P).
    unfold touches in T. apply andb_true_iff in T. destruct T as (T1 & T2). apply Nat.ltb_lt in T1. apply Nat.ltb_lt in T2. exists l. repeat split; auto.
    unfold is_integer in P. destruct (l_prim l); congruence.
  - split; [discriminate|]. intros (l & I & P & A & B). assert (X : existsb (fun l => touches k l && is_integer l) (y_leaves t) = true); [|congruence].
    apply existsb_exists. exists l. split; [exact I|]. unfold touches, is_integer. rewrite P, andb_true_r. apply andb_true_iff. split; apply Nat.ltb_lt; auto.
Qed.
Lemma aligned_divide : forall t l, proper t -> In l (y_leaves t) -> l_prim l <> X87 -> (unaligned l = false <-> Nat.divide (l_size l) (l_off l)).
Proof.
  intros t l (_ & W) I P. destruct (W l I) as (S & _). unfold unaligned. rewrite negb_false_iff, Nat.eqb_eq.
  assert (E : (match l_prim l with X87 => 16 | _ => l_size l end) = l_size l) by (destruct (l_prim l); congruence). rewrite E. apply Nat.mod_divide. lia.
Qed.
Lemma small_classify : forall t, proper t -> y_size t <= 16 ->
  (classify t = Some (repeat Gp (eightbytes (y_size t))) <-> (forall l, In l (y_leaves t) -> ordinary l) /\ (forall k, 8 * k < y_size t -> has_integer t k)).
Proof.
  intros t W S. assert (S' : (16 <? y_size t) = false) by (apply Nat.ltb_ge; exact S). unfold classify. rewrite S'. cbn [orb]. split.
  - destruct (existsb unaligned (y_leaves t)) eqn:U; [discriminate|]. destruct (existsb is_x87 (y_leaves t)) eqn:X; [discriminate|]. intros E. injection E as E. split.
    + intros l I. assert (P : l_prim l <> X87).
      { intros P. assert (Y : existsb is_x87 (y_leaves t) = true); [|congruence]. apply existsb_exists. exists l. unfold is_x87. rewrite P. auto. }
      split; [exact P|]. apply (aligned_divide t l W I P). apply not_true_is_false. intros Y.
      assert (existsb unaligned (y_leaves t) = true) by (apply existsb_exists; eauto). congruence.
    + intros k L. apply eightbyte_Gp. apply lt_eightbytes in L.
      assert (N : nth_error (map (eightbyte t) (seq 0 (eightbytes (y_size t)))) k = Some (eightbyte t k)).
      { rewrite nth_error_map. rewrite (nth_error_nth' _ 0) by (rewrite seq_length; exact L). rewrite seq_nth by exact L. reflexivity. }
      rewrite E in N. rewrite (nth_error_nth' _ Gp) in N by (rewrite repeat_length; exact L). rewrite nth_repeat in N. injection N as N. auto.
  - intros (O & G). replace (existsb unaligned (y_leaves t)) with false.
    + replace (existsb is_x87 (y_leaves t)) with false.
      * cbn [orb]. f_equal. rewrite map_Gp, seq_length; [reflexivity|]. intros k I. apply in_seq in I. apply eightbyte_Gp, G, eightbytes_lt. lia.
      * symmetry. apply not_true_is_false. intros X. apply existsb_exists in X. destruct X as (l & I & X). destruct (O l I) as (P & _). unfold is_x87 in X. destruct (l_prim l); congruence.
    + symmetry. apply not_true_is_false. intros X. apply existsb_exists in X. destruct X as (l & I & X). destruct (O l I) as (P & D).
      apply (aligned_divide t l W I P) in D. congruence.
Qed.
Lemma safe_alike : forall t, proper t -> safe t <-> (y_align t <= 8 /\ classify (stand_in t) = classify t).
Proof.
  intros t W. rewrite classify_stand_in. unfold safe. destruct (16 <? y_size t) eqn:S.
  - apply Nat.ltb_lt in S. split; intros (A & B); (split; [exact A|]); [|left; exact S]. unfold classify. replace (16 <? y_size t) with true by (symmetry; apply Nat.ltb_lt; exact S). reflexivity.
  - apply Nat.ltb_ge in S. split; intros (A & B); (split; [exact A|]).
    + symmetry. apply small_classify; auto. destruct B as [B|B]; [lia|exact B].
    + right. apply small_classify; auto.
Qed.

Lemma captured_right : forall args f f', Forall sized args -> Forall (fun a => g_struct a = true -> safe (g_type a) /\ proper (g_type a)) args ->
  ext (passed f args) f' -> captured f' (va_start f) args = Some (map g_bytes args).
Proof.
  induction args as [|a args IH]; intros f f' L S X; [reflexivity|]. apply Forall_cons_iff in L, S. destruct L as (L & LS), S as (S & SS).
  cbn [captured map]. assert (E : va_arg (read_type a) f' (va_start f) = Some (g_bytes a, va_start (pass f (g_type a) (g_bytes a)))).
  { apply read_back; auto.
    - unfold read_type. destruct (g_struct a); reflexivity.
    - unfold read_type. destruct (g_struct a); [|reflexivity]. destruct (S eq_refl) as ((A & _) & _). unfold stack_align. cbn [stand_in y_align].
      replace (8 <? y_align (g_type a)) with false by (symmetry; apply Nat.ltb_ge; exact A). reflexivity.
    - unfold read_type. destruct (g_struct a); [|reflexivity]. destruct (S eq_refl) as (A & W). apply (safe_alike _ W) in A. apply A.
    - eapply ext_trans; [apply passed_ext|exact X]. }
  rewrite E, (IH (pass f (g_type a) (g_bytes a)) f' LS SS X). reflexivity.
Qed.
Lemma capture_right : forall f args, Forall sized args -> Forall (fun a => g_struct a = true -> safe (g_type a) /\ proper (g_type a)) args ->
  capture f args = Some (map g_bytes args).
Proof. intros f args L S. apply captured_right; auto. apply ext_refl. Qed.

(** * a structure that is not safe is captured wrongly in some call *)
Definition long_type : layout := {| y_size := 8; y_align := 8; y_leaves := [{| l_off := 0; l_size := 8; l_prim := Integer |}] |}.
Definition a_long : arg := {| g_struct := false; g_type := long_type; g_bytes := repeat 1%Z 8 |}.
Definition ones (t : layout) : arg := {| g_struct := true; g_type := t; g_bytes := repeat 1%Z (y_size t) |}.
Definition call (n : nat) (t : layout) : list arg := repeat a_long n ++ [ones t].
(** the two named arguments of metac_value_parameter_wrap *)
Definition start : frame := {| f_gp := [repeat 0%Z 8; repeat 0%Z 8]; f_fp := []; f_stack := [] |}.

Lemma take_short : forall n g p f, length (f_gp f) < g + n -> 0 < n -> take_regs (repeat Gp n) g p f = None.
Proof.
  induction n as [|n IH]; intros g p f H P; [lia|]. cbn [repeat take_regs]. destruct (nth_error (f_gp f) g) as [w|] eqn:E; [|reflexivity].
  destruct n; [|rewrite IH by lia; reflexivity]. assert (nth_error (f_gp f) g = None) by (apply nth_error_None; lia). congruence.
Qed.
Lemma count_le : forall cs, count Gp cs + count Fp cs = length cs.
Proof. induction cs as [|c cs IH]; [reflexivity|]. rewrite !(count_cons _ c cs). cbn [length]. destruct c; cbn in *; lia. Qed.
Lemma count_repeat : forall n, count Gp (repeat Gp n) = n /\ count Fp (repeat Gp n) = 0.
Proof. induction n as [|n (A & B)]; [split; reflexivity|]. cbn [repeat]. rewrite !(count_cons _ Gp (repeat Gp n)), A, B. split; reflexivity. Qed.
Lemma all_Gp : forall cs, count Fp cs = 0 -> cs = repeat Gp (length cs).
Proof. induction cs as [|c cs IH]; intros H; [reflexivity|]. rewrite (count_cons _ c cs) in H. cbn in H. destruct c; cbn in *; [rewrite <- IH by lia; reflexivity|lia]. Qed.
Lemma eightbytes_two : forall n, 0 < n -> n <= 16 -> 0 < eightbytes n <= 2.
Proof. intros n A B. unfold eightbytes. pose proof (Nat.div_mod (n + 7) 8 ltac:(lia)). pose proof (Nat.mod_upper_bound (n + 7) 8 ltac:(lia)). lia. Qed.

Lemma unlike_wrong : forall t, proper t -> classify (stand_in t) <> classify t -> capture start (call 0 t) = None.
Proof.
  intros t W N. rewrite classify_stand_in in N. unfold capture, call. cbn [repeat app passed fold_left captured ones g_type g_bytes].
  unfold read_type. cbn [g_struct ones g_type]. unfold va_arg. rewrite classify_stand_in. destruct (16 <? y_size t) eqn:S.
  - exfalso. apply N. unfold classify. rewrite S. reflexivity.
  - apply Nat.ltb_ge in S. destruct W as (P & W). pose proof (eightbytes_two _ P S) as B. destruct (count_repeat (eightbytes (y_size t))) as (C1 & C2).
    cbn [va_start start c_gp c_fp f_gp f_fp length]. unfold fit at 1. rewrite C1, C2.
    replace ((2 + eightbytes (y_size t) <=? 6) && (0 + 0 <=? 8)) with true by (symmetry; apply andb_true_iff; split; apply Nat.leb_le; lia).
    rewrite take_short; [reflexivity| |lia]. unfold pass. cbn [f_gp f_fp length].
    destruct (classify t) as [cs|] eqn:E; [|cbn [put_stack f_gp start length]; lia]. destruct (classify_length _ _ E) as (LC & _).
    assert (F : 0 < count Fp cs). { destruct (count Fp cs) eqn:F; [|lia]. exfalso. apply N. rewrite <- LC. f_equal. symmetry. apply all_Gp. exact F. }
    pose proof (count_le cs). destruct (fit cs _ _); [|cbn [put_stack f_gp start length]; lia].
    destruct (put_regs_lengths cs (repeat 1%Z (y_size t)) start) as (G & _). cbn [start f_gp length] in G. fold start. rewrite G. lia.
Qed.

Lemma captured_app : forall x y f v z, captured f v (x ++ y) = Some z -> exists a b v', captured f v x = Some a /\ captured f v' y = Some b /\ z = a ++ b /\
  (forall f0, ext (passed f0 x) f -> v = va_start f0 -> Forall sized x -> Forall (fun a => g_struct a = false) x -> v' = va_start (passed f0 x)).
Proof.
  induction x as [|a x IH]; intros y f v z E.
  - exists [], z, v. split; [reflexivity|]. split; [exact E|]. split; [reflexivity|]. intros f0 _ -> _ _. reflexivity.
  - cbn [app captured] in E. destruct (va_arg (read_type a) f v) as [(b & v1)|] eqn:A; [|discriminate].
    destruct (captured f v1 (x ++ y)) as [z1|] eqn:B; [|discriminate]. injection E as <-. destruct (IH y f v1 z1 B) as (p & q & v' & P & Q & -> & G).
    exists (b :: p), q, v'. cbn [captured]. rewrite A, P. split; [reflexivity|]. split; [exact Q|]. split; [reflexivity|].
    intros f0 X -> S N. apply Forall_cons_iff in S, N. destruct S as (S & SS), N as (N & NN).
    unfold read_type in A. rewrite N in A. rewrite (read_back (g_type a) (g_type a) (g_bytes a) f0 f) in A; auto.
    + injection A as <- <-. apply (G (pass f0 (g_type a) (g_bytes a))); auto.
    + eapply ext_trans; [apply passed_ext|exact X].
Qed.
Definition after5 : frame := Eval vm_compute in passed start (repeat a_long 5).
Lemma after5_eq : passed start (repeat a_long 5) = after5. Proof. reflexivity. Qed.
Lemma overaligned_wrong : forall t, 0 < y_size t -> 8 < y_align t -> capture start (call 5 t) <> Some (map g_bytes (call 5 t)).
Proof.
  intros t P A E. unfold capture, call in E. destruct (captured_app _ _ _ _ _ E) as (a & b & v & Ea & Eb & Em & V).
  assert (X : ext (passed start (repeat a_long 5)) (passed start (repeat a_long 5 ++ [ones t]))).
  { unfold passed. rewrite fold_left_app. apply (passed_ext [ones t]). }
  specialize (V start X eq_refl ltac:(repeat constructor) ltac:(repeat constructor)). rewrite after5_eq in V.
  assert (La : length a = 5). { clear - Ea. revert Ea. generalize (passed start (repeat a_long 5 ++ [ones t])) (va_start start). intros f v E.
    cbn [repeat captured] in E. repeat match type of E with context [va_arg ?x ?y ?z] => destruct (va_arg x y z) as [(? & ?)|]; [|discriminate] end. injection E as <-. reflexivity. }
  rewrite map_app in Em. apply (f_equal (skipn 5)) in Em. rewrite (skipn_app_length _ a b 5) in Em by auto. rewrite (skipn_app_length _ (map g_bytes (repeat a_long 5)) _ 5) in Em by reflexivity. subst b.
  unfold passed in Eb. rewrite fold_left_app in Eb. fold (passed start (repeat a_long 5)) in Eb. rewrite after5_eq in Eb. cbn [fold_left ones g_type g_bytes] in Eb.
  cbn [captured map] in Eb. unfold read_type in Eb. cbn [g_struct g_type ones g_bytes] in Eb. subst v.
  assert (T : va_arg (stand_in t) (pass after5 t (repeat 1%Z (y_size t))) (va_start after5) = take_stack (stand_in t) (pass after5 t (repeat 1%Z (y_size t))) (va_start after5)).
  { unfold va_arg. rewrite classify_stand_in. destruct (16 <? y_size t) eqn:S; [reflexivity|]. apply Nat.ltb_ge in S. pose proof (eightbytes_two _ P S) as B.
    unfold fit. destruct (count_repeat (eightbytes (y_size t))) as (C1 & _). rewrite C1. cbn [va_start c_gp after5 f_gp length].
    replace (6 + eightbytes (y_size t) <=? 6) with false by (symmetry; apply Nat.leb_gt; lia). reflexivity. }
  rewrite T in Eb. unfold take_stack in Eb. cbn [stand_in y_size] in Eb. change (round_up (c_off (va_start after5)) (stack_align (stand_in t))) with 8 in Eb.
  destruct (Nat.eqb_spec (length (firstn (y_size t) (skipn 8 (f_stack (pass after5 t (repeat 1%Z (y_size t))))))) (y_size t)) as [L|L]; [|discriminate].
  cbn [option_map] in Eb. assert (Eb' : firstn (y_size t) (skipn 8 (f_stack (pass after5 t (repeat 1%Z (y_size t))))) = repeat 1%Z (y_size t)) by congruence. clear Eb. rename Eb' into Eb.
  assert (H : exists w, f_stack (pass after5 t (repeat 1%Z (y_size t))) = f_stack after5 ++ w /\ (w = [] \/ exists w', w = 0%Z :: w')).
  { unfold pass. destruct (classify t) as [cs|]; [destruct (fit cs _ _)|].
    - exists []. destruct (put_regs_lengths cs (repeat 1%Z (y_size t)) after5) as (_ & _ & R). rewrite R, app_nil_r. auto.
    - unfold put_stack, stack_align. replace (8 <? y_align t) with true by (symmetry; apply Nat.ltb_lt; exact A). cbn [f_stack]. unfold fill. rewrite <- !app_assoc. eexists. split; [reflexivity|]. right.
      cbn. eexists. reflexivity.
    - unfold put_stack, stack_align. replace (8 <? y_align t) with true by (symmetry; apply Nat.ltb_lt; exact A). cbn [f_stack]. unfold fill. rewrite <- !app_assoc. eexists. split; [reflexivity|]. right.
      cbn. eexists. reflexivity. }
  destruct H as (w & H & G). rewrite H, (skipn_app_length _ (f_stack after5) w 8) in Eb, L by reflexivity. destruct (y_size t) as [|n]; [lia|].
  destruct G as [->|(w' & ->)]; [cbn in L; discriminate|]. cbn in Eb. discriminate.
Qed.
Lemma unsafe_wrong : forall t, proper t -> ~ safe t -> exists args, Forall sized args /\ (forall a, In a args -> g_struct a = true -> g_type a = t) /\
  capture start args <> Some (map g_bytes args).
Proof.
  intros t W N. assert (SZ : forall n, Forall sized (call n t)).
  { intros n. unfold call. apply Forall_app. split; [|constructor; [|constructor]; unfold sized; cbn; apply repeat_length].
    apply Forall_forall. intros x I. apply repeat_spec in I. subst x. reflexivity. }
  assert (ST : forall n a, In a (call n t) -> g_struct a = true -> g_type a = t).
  { intros n a I S. unfold call in I. apply in_app_iff in I. destruct I as [I|[<-|[]]]; [|reflexivity]. apply repeat_spec in I. subst a. discriminate. }
  destruct (le_lt_dec (y_align t) 8) as [A|A].
  - exists (call 0 t). split; [apply SZ|]. split; [apply ST|]. rewrite unlike_wrong; [discriminate|exact W|]. intros E. apply N. apply (safe_alike _ W). auto.
  - exists (call 5 t). split; [apply SZ|]. split; [apply ST|]. apply overaligned_wrong; [apply W|exact A].
Qed.
