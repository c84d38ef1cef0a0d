(** Proofs about printf formats. *)
From Coq Require Import ZArith List Bool Lia ZifyBool.
Import ListNotations.
From Verif Require Import PrintfModel PrintfSpec.
Open Scope Z_scope.

(** * Positions *)
Definition at_ (s : list Z) (pos : nat) (suf : list Z) : Prop := (pos <= length s)%nat /\ skipn pos s = suf.

Lemma at_cons : forall s pos c suf, at_ s pos (c :: suf) ->
  rd s pos = Ret c /\ Nat.ltb pos (length s) = true /\ at_ s (S pos) suf.
Proof.
  intros s pos c suf [L E]. assert (Hn : nth_error s pos = Some c).
  { clear L. revert s E. induction pos; intros [|x s] E; cbn in *; try discriminate; [congruence|auto]. }
  assert (pos < length s)%nat by (apply nth_error_Some; congruence).
  unfold rd. rewrite Hn. split; auto. split; [lia|]. split; [lia|].
  clear Hn. revert s E L H. induction pos; intros [|x s] E L H; cbn in *; try discriminate; [congruence|].
  apply IHpos; auto; lia.
Qed.

Lemma at_nil : forall s pos, at_ s pos [] -> pos = length s /\ rd s pos = Ret 0 /\ Nat.ltb pos (length s) = false.
Proof.
  intros s pos [L E]. assert (pos = length s).
  { apply (f_equal (@length Z)) in E. rewrite skipn_length in E. cbn in E. lia. }
  subst. split; auto. split; [|lia]. unfold rd. replace (nth_error s (length s)) with (@None Z); [rewrite Nat.eqb_refl; auto|].
  symmetry. apply nth_error_None. lia.
Qed.

Lemma at_length : forall s pos suf, at_ s pos suf -> (pos + length suf = length s)%nat.
Proof. intros s pos suf [L E]. subst. rewrite skipn_length. lia. Qed.

Lemma at_all : forall s pos, (pos <= length s)%nat -> exists suf, at_ s pos suf.
Proof. intros s pos H. exists (skipn pos s). split; auto. Qed.

Lemma at_start : forall s, at_ s 0 s.
Proof. intros. split; [lia|reflexivity]. Qed.

Lemma rd_bound : forall s pos, (pos <= length s)%nat -> exists c, rd s pos = Ret c /\ (c <> 0 -> (pos < length s)%nat).
Proof.
  intros s pos H. destruct (at_all s pos H) as ([|c suf] & A).
  - apply at_nil in A. exists 0. split; [tauto|congruence].
  - apply at_cons in A. exists c. split; [tauto|lia].
Qed.

(** * Safety for arbitrary strings *)
Definition good {A} (lo hi : nat) (x : res (nat * A)) : Prop :=
  x = Overflow \/ exists p a, x = Ret (p, a) /\ (lo <= p <= hi)%nat.

Lemma flags_loop_good : forall s fuel pos f, (pos <= length s)%nat -> (length s - pos < fuel)%nat ->
  exists p f', flags_loop fuel s pos f = Ret (p, f') /\ (pos <= p <= length s)%nat.
Proof.
  intros s. induction fuel as [|g IH]; intros pos f L F; [lia|]. cbn [flags_loop].
  destruct (Nat.ltb pos (length s)) eqn:Lt; [|eauto].
  destruct (rd_bound s pos L) as (c & R & _). rewrite R. cbn [rbind].
  assert (K : forall f1, exists p f', flags_loop g s (S pos) f1 = Ret (p, f') /\ (pos <= p <= length s)%nat).
  { intros f1. destruct (IH (S pos) f1) as (p & f' & E & B); [lia|lia|]. exists p, f'. split; auto. lia. }
  repeat match goal with |- context [if ?b then _ else _] => destruct b; [apply K|] end. eauto.
Qed.

Lemma digits_loop_good : forall s base fuel pos acc, (pos <= length s)%nat -> (length s - pos < fuel)%nat ->
  good pos (length s) (digits_loop fuel s pos base acc).
Proof.
  intros s base. induction fuel as [|g IH]; intros pos acc L F; [lia|]. cbn [digits_loop].
  destruct (Nat.ltb pos (length s)) eqn:Lt; [|right; eauto].
  destruct (rd_bound s pos L) as (c & R & _). rewrite R. cbn [rbind].
  destruct (isdigit c); [|right; eauto]. destruct (INT_MAX <? _); [left; auto|].
  destruct (IH (S pos) (acc * base + (c - 48))) as [->|(p & a & -> & B)]; [lia|lia|left; auto|].
  right. exists p, a. split; auto. lia.
Qed.

Lemma parse_precision_good : forall s base pos, (pos <= length s)%nat -> good pos (length s) (parse_precision s pos base).
Proof.
  intros s base pos L. unfold parse_precision. destruct (Nat.ltb pos (length s)) eqn:Lt; [|right; eauto].
  destruct (rd_bound s pos L) as (c & R & _). rewrite R. cbn [rbind]. destruct (c =? 46); [|right; eauto].
  destruct (digits_loop_good s base (S (length s)) (S pos) 0) as [->|(p & a & -> & B)]; [lia|lia|left; auto|].
  right. exists p, a. split; auto. lia.
Qed.

Lemma parse_len_good : forall s pos, (pos <= length s)%nat ->
  exists p a, parse_len s pos = Ret (p, a) /\ (pos <= p <= length s)%nat.
Proof.
  intros s pos L. unfold parse_len. destruct (Nat.ltb pos (length s)) eqn:Lt; [|eauto].
  destruct (rd_bound s pos L) as (c & R & _). rewrite R. cbn [rbind].
  destruct ((c =? 104) || (c =? 108) || (c =? 76)); [|eauto].
  destruct (Nat.ltb (S pos) (length s)) eqn:Lt2; [|eexists _, _; split; [reflexivity|lia]].
  destruct (rd_bound s (S pos)) as (c2 & R2 & _); [lia|]. rewrite R2. cbn [rbind].
  destruct (if c =? 104 then psal_h else if c =? 108 then psal_l else psal_L);
    try (eexists _, _; split; [reflexivity|lia]);
    destruct (_ =? _); eexists _, _; (split; [reflexivity|lia]).
Qed.

Lemma isalpha_nonzero : forall c, isalpha c = true -> c <> 0.
Proof. intros c. unfold isalpha. lia. Qed.

Lemma parse_good : forall s pos, (pos <= length s)%nat ->
  parse s pos = Overflow \/
  exists p r, parse s pos = Ret (p, r) /\ (pos <= p <= length s)%nat /\ (rd s pos = Ret 37 -> (pos < p)%nat) /\
    (r <> None -> (pos + 2 <= p)%nat).
Proof.
  intros s pos L. unfold parse. destruct (rd_bound s pos L) as (c & R & Hc). rewrite R. cbn [rbind].
  destruct (c =? 37) eqn:Ec; cbn [negb].
  2:{ right. exists pos, None. split; auto. split; [lia|]. split; [intros Q; inversion Q; lia|congruence]. }
  assert (pos < length s)%nat by (apply Hc; lia).
  destruct (flags_loop_good s (S (length s)) (S pos) (Flags false false false false false)) as (p1 & f & -> & B1); [lia|lia|]. cbn [rbind].
  destruct (digits_loop_good s (if oct f then 8 else 10) (S (length s)) p1 0) as [->|(p2 & w & -> & B2)]; [lia|lia|left; auto|]. cbn [rbind].
  destruct (parse_precision_good s (if oct f then 8 else 10) p2) as [->|(p3 & pr & -> & B3)]; [lia|left; auto|]. cbn [rbind].
  destruct (parse_len_good s p3) as (p4 & a & -> & B4); [lia|]. cbn [rbind].
  destruct (rd_bound s p4) as (c2 & R2 & Hc2); [lia|]. rewrite R2. cbn [rbind].
  right. destruct (isalpha c2) eqn:Al.
  - exists (S p4). eexists. split; [reflexivity|]. apply isalpha_nonzero in Al. specialize (Hc2 Al). lia.
  - exists p4, None. split; [reflexivity|]. split; [lia|]. split; [lia|congruence].
Qed.

(** Overflow needs ten digits in a row. *)
Definition no_long_number (s : list Z) : Prop :=
  forall a ds b, s = a ++ ds ++ b -> Forall is_digit ds -> (length ds <= 9)%nat.

Lemma isdigit_spec : forall c, isdigit c = true <-> is_digit c.
Proof. intros. unfold isdigit, is_digit. lia. Qed.

(** [acc] is the value of the [k] digits read so far. *)
Lemma digits_no_overflow : forall s base, no_long_number s -> (base = 8 \/ base = 10) ->
  forall fuel pos ds acc a, s = a ++ ds ++ skipn pos s -> pos = (length a + length ds)%nat -> Forall is_digit ds ->
  0 <= acc < 10 ^ Z.of_nat (length ds) -> (pos <= length s)%nat ->
  digits_loop fuel s pos base acc <> Overflow.
Proof.
  intros s base NL Hb. induction fuel as [|g IH]; intros pos ds acc a E Ep F Ha L; [discriminate|]. cbn [digits_loop].
  destruct (Nat.ltb pos (length s)) eqn:Lt; [|discriminate].
  destruct (at_all s pos L) as (suf & A). destruct suf as [|c suf].
  { apply at_nil in A. lia. }
  pose proof (at_cons _ _ _ _ A) as (R & _ & A'). rewrite R. cbn [rbind]. destruct (isdigit c) eqn:Dc; [|discriminate].
  apply isdigit_spec in Dc. destruct A as [_ A]. rewrite A in E. destruct A' as [L' A'].
  assert (E' : s = a ++ (ds ++ [c]) ++ skipn (S pos) s) by (rewrite A', <- app_assoc; exact E).
  assert (F' : Forall is_digit (ds ++ [c])) by (apply Forall_app; auto).
  assert (Len : (length (ds ++ [c]) <= 9)%nat) by (eapply NL; eauto).
  rewrite app_length in Len. cbn in Len. unfold is_digit in Dc.
  assert (Hv : 0 <= acc * base + (c - 48) < 10 ^ Z.of_nat (length (ds ++ [c]))).
  { rewrite app_length. cbn [length]. replace (Z.of_nat (length ds + 1)) with (Z.of_nat (length ds) + 1) by lia.
    rewrite Z.pow_add_r by lia. change (10 ^ 1) with 10. destruct Hb; subst base; nia. }
  assert (10 ^ Z.of_nat (length (ds ++ [c])) <= 10 ^ 9).
  { apply Z.pow_le_mono_r; [lia|]. rewrite app_length. cbn. lia. }
  change (10 ^ 9) with 1000000000 in *. unfold INT_MAX.
  destruct (2147483647 <? acc * base + (c - 48)) eqn:Q; [lia|].
  apply (IH (S pos) (ds ++ [c]) _ a); auto. rewrite app_length. cbn. lia.
Qed.

Lemma digits_no_overflow0 : forall s base fuel pos, no_long_number s -> (base = 8 \/ base = 10) -> (pos <= length s)%nat ->
  digits_loop fuel s pos base 0 <> Overflow.
Proof.
  intros s base fuel pos NL Hb L. apply (digits_no_overflow s base NL Hb fuel pos [] 0 (firstn pos s)); auto.
  - cbn [app]. rewrite firstn_skipn. reflexivity.
  - rewrite firstn_length. cbn. lia.
  - cbn. lia.
Qed.

Lemma parse_no_overflow : forall s pos, (pos <= length s)%nat -> no_long_number s -> parse s pos <> Overflow.
Proof.
  intros s pos L NL. unfold parse. destruct (rd_bound s pos L) as (c & R & Hc). rewrite R. cbn [rbind].
  destruct (c =? 37) eqn:Ec; cbn [negb]; [|discriminate]. assert (pos < length s)%nat by (apply Hc; lia).
  destruct (flags_loop_good s (S (length s)) (S pos) (Flags false false false false false)) as (p1 & f & -> & B1); [lia|lia|]. cbn [rbind].
  set (base := if oct f then 8 else 10). assert (Hb : base = 8 \/ base = 10) by (unfold base; destruct (oct f); auto).
  pose proof (digits_no_overflow0 s base (S (length s)) p1 NL Hb ltac:(lia)) as O1.
  destruct (digits_loop_good s base (S (length s)) p1 0) as [Q|(p2 & w & -> & B2)]; [lia|lia|congruence|]. cbn [rbind].
  assert (O2 : parse_precision s p2 base <> Overflow).
  { unfold parse_precision. destruct (Nat.ltb p2 (length s)) eqn:Lt; [|discriminate].
    destruct (rd_bound s p2) as (c2 & R2 & _); [lia|]. rewrite R2. cbn [rbind]. destruct (c2 =? 46); [|discriminate].
    apply digits_no_overflow0; auto. lia. }
  destruct (parse_precision_good s base p2) as [Q|(p3 & pr & -> & B3)]; [lia|congruence|]. cbn [rbind].
  destruct (parse_len_good s p3) as (p4 & a & -> & B4); [lia|]. cbn [rbind].
  destruct (rd_bound s p4) as (c2 & R2 & Hc2); [lia|]. rewrite R2. cbn [rbind]. destruct (isalpha c2); discriminate.
Qed.

Lemma count_loop_good : forall s fuel pos n, (length s - pos < fuel)%nat -> 
  count_loop fuel s pos n = Overflow \/ exists z, count_loop fuel s pos n = Ret z /\ n <= z <= n + Z.of_nat (length s - pos).
Proof.
  intros s. induction fuel as [|g IH]; intros pos n F; [lia|]. cbn [count_loop].
  destruct (Nat.ltb pos (length s)) eqn:Lt; [|right; exists n; split; auto; lia].
  destruct (rd_bound s pos) as (c & R & _); [lia|]. rewrite R. cbn [rbind]. destruct (c =? 37) eqn:Ec.
  - destruct (parse_good s pos) as [->|(p & r & -> & B1 & B2 & B3)]; [lia|left; reflexivity|]. cbn [rbind].
    assert (pos < p)%nat by (apply B2; rewrite R; f_equal; lia).
    destruct (IH (S p) (match r with Some _ => n + 1 | None => n end)) as [->|(z & -> & B)]; [lia|left; auto|].
    right. exists z. split; auto. destruct r; lia.
  - destruct (IH (S pos) n) as [->|(z & -> & B)]; [lia|left; auto|]. right. exists z. split; auto. lia.
Qed.

Lemma count_loop_no_overflow : forall s, no_long_number s -> forall fuel pos n, count_loop fuel s pos n <> Overflow.
Proof.
  intros s NL. induction fuel as [|g IH]; intros pos n; [discriminate|]. cbn [count_loop].
  destruct (Nat.ltb pos (length s)) eqn:Lt; [|discriminate].
  destruct (rd_bound s pos) as (c & R & _); [lia|]. rewrite R. cbn [rbind]. destruct (c =? 37); [|apply IH].
  pose proof (parse_no_overflow s pos ltac:(lia) NL) as O.
  destruct (parse_good s pos) as [Q|(p & r & -> & B1 & B2 & B3)]; [lia|congruence|]. cbn [rbind]. apply IH.
Qed.

(** Storing: never reads behind the format, never runs out of fuel. *)
Lemma store_one_no : forall st args id sp, store_one st args id sp <> OOB /\ store_one st args id sp <> NoFuel.
Proof.
  intros st args id sp. unfold store_one.
  assert (Wr : forall l i ty c, nth_error l i <> None -> write l i ty c <> OOB /\ write l i ty c <> NoFuel).
  { intros l i ty c H. unfold write. destruct (nth_error l i); [|congruence]. destruct (_ <? _); split; discriminate. }
  destruct (t sp =? 115).
  - destruct args as [|[z|z|x|x|p|[b|]] r]; try (split; discriminate).
    + destruct (nth_error (append st (TCharArr (Z.of_nat (length b) + 1)) 8) id) eqn:E; [|split; discriminate].
      destruct (Wr (append st (TCharArr (Z.of_nat (length b) + 1)) 8) id TCharP (CBytes (b ++ [0]))) as [W1 W2]; [congruence|].
      destruct (write _ _ _ _); cbn; split; congruence.
    + destruct (nth_error (append st TCharP 8) id) eqn:E; [|split; discriminate].
      destruct (Wr (append st TCharP 8) id TCharP (CPtr 0)) as [W1 W2]; [congruence|].
      destruct (write _ _ _ _); cbn; split; congruence.
  - destruct (dispatch (t sp) (alen sp)) as [[ty v]|]; [|split; discriminate].
    destruct (nth_error (append st ty (sizeof ty)) id) eqn:E; [|split; discriminate].
    assert (V : va_arg v ty args <> OOB /\ va_arg v ty args <> NoFuel).
    { unfold va_arg. destruct args as [|a r]; [split; discriminate|]. destruct v, a; split; discriminate. }
    destruct (va_arg v ty args) as [[c r]| | | | |]; cbn; try (split; try discriminate; tauto).
    destruct (Wr (append st ty (sizeof ty)) id ty c) as [W1 W2]; [congruence|].
    destruct (write _ _ _ _); cbn; split; congruence.
Qed.

Lemma store_loop_no : forall s fuel pos id st args, (length s - pos < fuel)%nat ->
  store_loop fuel s pos id st args <> OOB /\ store_loop fuel s pos id st args <> NoFuel.
Proof.
  intros s. induction fuel as [|g IH]; intros pos id st args F; [lia|]. cbn [store_loop].
  destruct (Nat.ltb pos (length s)) eqn:Lt; [|split; discriminate].
  destruct (rd_bound s pos) as (c & R & _); [lia|]. rewrite R. cbn [rbind]. destruct (c =? 37) eqn:Ec; [|apply IH; lia].
  destruct (parse_good s pos) as [->|(p & r & -> & B1 & B2 & B3)]; [lia|split; discriminate|]. cbn [rbind].
  assert (pos < p)%nat by (apply B2; rewrite R; f_equal; lia).
  destruct r as [sp|]; [|apply IH; lia].
  destruct (store_one_no st args id sp) as [S1 S2]. destruct (store_one st args id sp) as [[y|[st' args']]| | | | |]; cbn [rbind]; try (split; congruence).
  apply IH. lia.
Qed.

(** * Parsing the text of a directive *)
Lemma at_app : forall s pos a b, at_ s pos (a ++ b) -> at_ s (pos + length a) b.
Proof.
  intros s pos a. revert pos. induction a as [|c a IH]; intros pos b A; cbn [app length] in *.
  - rewrite Nat.add_0_r. auto.
  - apply at_cons in A as (_ & _ & A). replace (pos + S (length a))%nat with (S pos + length a)%nat by lia. auto.
Qed.

Definition flag_step (f : flags) (c : Z) : flags :=
  Flags (plus f || (c =? 43)) (minus f || (c =? 45)) (pound f || (c =? 35)) (oct f || (c =? 48) || (c =? 32)) (space f).

Lemma flags_loop_run : forall fl s pos suf f fuel, at_ s pos (fl ++ suf) -> Forall is_flag fl ->
  (forall c r, suf = c :: r -> ~ is_flag c) -> (length fl < fuel)%nat ->
  flags_loop fuel s pos f = Ret ((pos + length fl)%nat, fold_left flag_step fl f).
Proof.
  induction fl as [|c fl IH]; intros s pos suf f fuel A F N L; (destruct fuel as [|g]; [cbn in L; lia|]); cbn [flags_loop].
  - rewrite Nat.add_0_r. cbn [app fold_left] in *. destruct suf as [|c suf].
    + apply at_nil in A as (-> & _ & ->). reflexivity.
    + apply at_cons in A as (R & -> & _). rewrite R. cbn [rbind]. specialize (N c suf eq_refl). unfold is_flag in N.
      replace (c =? 43) with false by lia. replace (c =? 45) with false by lia. replace (c =? 35) with false by lia.
      replace (c =? 48) with false by lia. replace (c =? 32) with false by lia. reflexivity.
  - cbn [app] in A. apply at_cons in A as (R & Lt & A). rewrite Lt, R. cbn [rbind]. inversion F as [|? ? Fc F']; subst.
    assert (K : flags_loop g s (S pos) (flag_step f c) = Ret ((pos + length (c :: fl))%nat, fold_left flag_step (c :: fl) f)).
    { rewrite (IH s (S pos) suf) by (auto; cbn in L; lia). cbn [length fold_left]. do 2 f_equal. lia. }
    rewrite <- K. unfold flag_step. destruct f as [f1 f2 f3 f4 f5]. cbn [plus minus pound oct space].
    destruct Fc as [->|[->|[->|[->| ->]]]]; cbn [Z.eqb Pos.eqb]; rewrite ?orb_false_r, ?orb_true_r; reflexivity.
Qed.

Definition numval (base : Z) (acc : Z) (ds : list Z) : Z := fold_left (fun a c => a * base + (c - 48)) ds acc.

Lemma numval_ge : forall base ds acc, 1 <= base -> 0 <= acc -> Forall is_digit ds -> acc <= numval base acc ds.
Proof.
  intros base ds. induction ds as [|c ds IH]; intros acc Hb Ha F; cbn; [lia|].
  inversion F as [|? ? Dc F']; subst. unfold is_digit in Dc. specialize (IH (acc * base + (c - 48)) Hb ltac:(nia) F'). unfold numval in IH. nia.
Qed.

Lemma digits_loop_run : forall ds s pos suf base acc fuel, at_ s pos (ds ++ suf) -> Forall is_digit ds ->
  (forall c r, suf = c :: r -> ~ is_digit c) -> (length ds < fuel)%nat -> 1 <= base -> 0 <= acc ->
  numval base acc ds <= INT_MAX ->
  digits_loop fuel s pos base acc = Ret ((pos + length ds)%nat, numval base acc ds).
Proof.
  induction ds as [|c ds IH]; intros s pos suf base acc fuel A F N L Hb Ha Hn; (destruct fuel as [|g]; [cbn in L; lia|]); cbn [digits_loop].
  - rewrite Nat.add_0_r. cbn [app numval fold_left] in *. destruct suf as [|c suf].
    + apply at_nil in A as (-> & _ & ->). reflexivity.
    + apply at_cons in A as (R & -> & _). rewrite R. cbn [rbind]. specialize (N c suf eq_refl).
      destruct (isdigit c) eqn:Q; [apply isdigit_spec in Q; tauto|reflexivity].
  - cbn [app] in A. apply at_cons in A as (R & Lt & A). rewrite Lt, R. cbn [rbind]. inversion F as [|? ? Fc F']; subst.
    replace (isdigit c) with true by (symmetry; apply isdigit_spec; auto).
    unfold is_digit in Fc. assert (Ha' : 0 <= acc * base + (c - 48)) by nia.
    pose proof (numval_ge base ds (acc * base + (c - 48)) Hb Ha' F') as G.
    change (numval base acc (c :: ds)) with (numval base (acc * base + (c - 48)) ds) in *.
    replace (INT_MAX <? acc * base + (c - 48)) with false by lia.
    rewrite (IH s (S pos) suf); auto; [|cbn in L; lia]. cbn [length]. do 2 f_equal. lia.
Qed.

Lemma numval_mono : forall ds a8 a10, Forall is_digit ds -> 0 <= a8 <= a10 -> numval 8 a8 ds <= numval 10 a10 ds.
Proof.
  induction ds as [|c ds IH]; intros a8 a10 F H; cbn; [lia|]. inversion F as [|? ? Dc F']; subst. unfold is_digit in Dc.
  apply IH; auto. lia.
Qed.

Lemma decimal_numval : forall ds, decimal ds = numval 10 0 ds.
Proof.
  intros ds. unfold decimal, numval. generalize 0. induction ds as [|c ds IH]; intros a; cbn [fold_left]; auto. rewrite IH. f_equal. ring.
Qed.

(** What the parser reports: the flags '0' and ' ' are merged and switch to base 8. *)
Definition base_of (d : directive) : Z := if has 48 (dflags d) || has 32 (dflags d) then 8 else 10.
Definition actual (d : directive) : specifier :=
  Spec (Flags (has 43 (dflags d)) (has 45 (dflags d)) (has 35 (dflags d)) (has 48 (dflags d) || has 32 (dflags d)) false)
       (numval (base_of d) 0 (dwidth d)) (match dprec d with None => -1 | Some p => numval (base_of d) 0 p end)
       (dlen d) (dconv d).

Lemma flags_fold : forall fl f, fold_left flag_step fl f =
  Flags (plus f || has 43 fl) (minus f || has 45 fl) (pound f || has 35 fl) (oct f || (has 48 fl || has 32 fl)) (space f).
Proof.
  induction fl as [|c fl IH]; intros f; cbn [fold_left has existsb].
  - rewrite !orb_false_r. destruct f; reflexivity.
  - rewrite IH. unfold flag_step. cbn [plus minus pound oct space]. fold (has 43 fl) (has 45 fl) (has 35 fl) (has 48 fl) (has 32 fl).
    f_equal; rewrite ?orb_assoc; try (f_equal; f_equal; lia); try reflexivity.
    rewrite (Z.eqb_sym c 48), (Z.eqb_sym c 32).
    destruct (oct f), (48 =? c), (32 =? c), (has 48 fl), (has 32 fl); reflexivity.
Qed.

Lemma len_text_run : forall a s pos c suf, at_ s pos (len_text a ++ c :: suf) -> is_conv c ->
  parse_len s pos = Ret ((pos + length (len_text a))%nat, a).
Proof.
  intros a s pos c suf A (Hc & N1 & N2 & N3). unfold parse_len.
  destruct a; cbn [len_text app length] in *; apply at_cons in A as (R & Lt & A); rewrite Lt, R; cbn [rbind].
  - replace (c =? 104) with false by lia. replace (c =? 108) with false by lia. replace (c =? 76) with false by lia. cbn.
    rewrite Nat.add_0_r. reflexivity.
  - cbn [Z.eqb Pos.eqb orb]. apply at_cons in A as (R2 & Lt2 & A). rewrite Lt2, R2. cbn [rbind].
    replace (c =? 104) with false by lia. rewrite Nat.add_1_r. reflexivity.
  - cbn [Z.eqb Pos.eqb orb]. apply at_cons in A as (R2 & Lt2 & A). rewrite Lt2, R2. cbn [rbind Z.eqb Pos.eqb].
    do 2 f_equal. lia.
  - cbn [Z.eqb Pos.eqb orb]. apply at_cons in A as (R2 & Lt2 & A). rewrite Lt2, R2. cbn [rbind].
    replace (c =? 108) with false by lia. rewrite Nat.add_1_r. reflexivity.
  - cbn [Z.eqb Pos.eqb orb]. apply at_cons in A as (R2 & Lt2 & A). rewrite Lt2, R2. cbn [rbind Z.eqb Pos.eqb].
    do 2 f_equal. lia.
  - cbn [Z.eqb Pos.eqb orb]. apply at_cons in A as (R2 & Lt2 & A). rewrite Lt2, R2. cbn [rbind].
    rewrite Nat.add_1_r. reflexivity.
Qed.

Lemma len_head : forall a c suf, is_conv c -> exists h r, len_text a ++ c :: suf = h :: r /\ ~ is_digit h /\ h <> 46 /\ ~ is_flag h.
Proof.
  intros a c suf (Hc & _). unfold is_digit, is_flag. destruct a; cbn; eexists _, _; split; try reflexivity; lia.
Qed.

Lemma parse_directive : forall s pos d rest, at_ s pos (text d ++ rest) -> well_formed d ->
  parse s pos = Ret ((pos + length (text d))%nat, Some (actual d)).
Proof.
  intros s pos d rest A W. destruct W as [Wf (Ww1 & Ww2 & Ww3) Wp Wc].
  unfold text in A. cbn [app] in A. pose proof (at_length _ _ _ A) as LA.
  apply at_cons in A as (R & Lt & A). unfold parse. rewrite R. cbn [rbind Z.eqb Pos.eqb negb].
  repeat rewrite <- app_assoc in A. cbn [app] in A.
  destruct (len_head (dlen d) (dconv d) rest Wc) as (h & hr & Hh & Nd & Ndot & Nfl).
  set (tail1 := match dprec d with None => [] | Some p => 46 :: p end ++ len_text (dlen d) ++ dconv d :: rest) in *.
  assert (T1 : forall c r, tail1 = c :: r -> ~ is_digit c /\ ~ is_flag c).
  { intros c r E. unfold tail1 in E. destruct (dprec d); cbn [app] in E.
    - inversion E. unfold is_digit, is_flag. lia.
    - rewrite Hh in E. inversion E; subst. auto. }
  rewrite (flags_loop_run (dflags d) s (S pos) (dwidth d ++ tail1)); auto.
  2:{ intros c r E. destruct (dwidth d) as [|w0 ws]; cbn [app] in E; [apply (T1 c r E)|]. inversion E; subst w0.
      inversion Ww1 as [|? ? Dw _]; subst. unfold is_digit in Dw. cbn in Ww2. unfold is_flag. intros [->|[->|[->|[->| ->]]]]; try lia. congruence. }
  2:{ cbn [length] in LA. rewrite !app_length in LA. lia. }
  rewrite flags_fold. cbn [rbind plus minus pound oct space orb]. apply at_app in A.
  set (base := if has 48 (dflags d) || has 32 (dflags d) then 8 else 10).
  assert (Hb : 1 <= base) by (unfold base; destruct (_ || _); lia).
  assert (NV : forall ds, Forall is_digit ds -> decimal ds <= INT_MAX -> numval base 0 ds <= INT_MAX).
  { intros ds F H. rewrite decimal_numval in H. unfold base. destruct (_ || _); auto.
    pose proof (numval_mono ds 0 0 F ltac:(lia)). lia. }
  rewrite (digits_loop_run (dwidth d) s (S pos + length (dflags d)) tail1); auto; try lia.
  2:{ intros c r E. apply (T1 c r E). }
  2:{ cbn [length] in LA. rewrite !app_length in LA. lia. }
  cbn [rbind]. apply at_app in A.
  set (p2 := (S pos + length (dflags d) + length (dwidth d))%nat) in *.
  assert (PP : parse_precision s p2 base = Ret ((p2 + length (match dprec d with None => [] | Some p => 46%Z :: p end))%nat,
                 match dprec d with None => -1 | Some p => numval base 0 p end)).
  { unfold parse_precision, tail1 in *. destruct (dprec d) as [p|] eqn:Ep; cbn [app length] in A |- *.
    - destruct (Wp p eq_refl) as [Fp Hp]. apply at_cons in A as (R2 & Lt2 & A2). rewrite Lt2, R2. cbn [rbind Z.eqb Pos.eqb].
      rewrite (digits_loop_run p s (S p2) (len_text (dlen d) ++ dconv d :: rest)); auto; try lia.
      + do 2 f_equal. lia.
      + intros c r E. rewrite Hh in E. inversion E; subst. auto.
      + pose proof (at_length _ _ _ A2) as Q. rewrite app_length in Q. lia.
    - rewrite Nat.add_0_r. rewrite Hh in A. apply at_cons in A as (R2 & Lt2 & _). rewrite Lt2, R2. cbn [rbind].
      replace (h =? 46) with false by lia. reflexivity. }
  rewrite PP. cbn [rbind]. unfold tail1 in A. apply at_app in A.
  rewrite (len_text_run (dlen d) s _ (dconv d) rest A Wc). cbn [rbind]. apply at_app in A. apply at_cons in A as (R3 & _ & _).
  rewrite R3. cbn [rbind]. replace (isalpha (dconv d)) with true by (symmetry; destruct Wc as [Wc _]; unfold isalpha; lia).
  unfold actual, base_of. fold base. do 2 f_equal. unfold p2, text. cbn [length]. rewrite !app_length. cbn [length]. lia.
Qed.

Lemma actual_meaning : forall d, ~ In 48 (dflags d) -> ~ In 32 (dflags d) -> actual d = meaning d.
Proof.
  intros d H1 H2. assert (K : forall c l, ~ In c l -> has c l = false).
  { intros c l H. destruct (has c l) eqn:E; auto. exfalso. apply H. unfold has in E. apply existsb_exists in E as (x & Hx & Q).
    replace c with x by lia. auto. }
  unfold actual, meaning, base_of. rewrite (K 48), (K 32) by auto. cbn [orb]. rewrite decimal_numval. f_equal.
  destruct (dprec d); auto. rewrite decimal_numval. reflexivity.
Qed.

(** * Counting *)
Lemma parse_pp : forall s pos rest, at_ s pos (37 :: 37 :: rest) -> parse s pos = Ret (S pos, None).
Proof.
  intros s pos rest A. pose proof (at_length _ _ _ A) as LA. cbn in LA. apply at_cons in A as (R & Lt & A).
  unfold parse. rewrite R. cbn [rbind Z.eqb Pos.eqb negb].
  rewrite (flags_loop_run [] s (S pos) (37 :: rest)); auto; [|intros c r E; inversion E; unfold is_flag; lia|cbn; lia].
  cbn [rbind fold_left oct length]. rewrite Nat.add_0_r.
  rewrite (digits_loop_run [] s (S pos) (37 :: rest)); auto; try lia;
    [|intros c r E; inversion E; unfold is_digit; lia|cbn; lia|cbn; unfold INT_MAX; lia].
  cbn [rbind numval fold_left length]. rewrite Nat.add_0_r.
  apply at_cons in A as (R2 & Lt2 & _). unfold parse_precision. rewrite Lt2, R2. cbn [rbind Z.eqb Pos.eqb].
  unfold parse_len. rewrite Lt2, R2. cbn [rbind Z.eqb Pos.eqb orb]. rewrite R2. reflexivity.
Qed.

Lemma text_length : forall d, (2 <= length (text d))%nat.
Proof. intros d. unfold text. cbn [length]. rewrite !app_length. cbn. lia. Qed.

(** Consuming a literal. *)
Lemma count_lit : forall l s pos suf fuel n, at_ s pos (l ++ suf) -> Forall (fun c => c <> 37) l -> (length l <= fuel)%nat ->
  count_loop fuel s pos n = count_loop (fuel - length l) s (pos + length l) n.
Proof.
  induction l as [|c l IH]; intros s pos suf fuel n A F L; cbn [length] in *.
  - rewrite Nat.sub_0_r, Nat.add_0_r. reflexivity.
  - destruct fuel as [|g]; [lia|]. cbn [app] in A. apply at_cons in A as (R & Lt & A). cbn [count_loop]. rewrite Lt, R. cbn [rbind].
    inversion F; subst. replace (c =? 37) with false by lia. rewrite (IH s (S pos) suf) by (auto; lia).
    f_equal; lia.
Qed.

Lemma count_pieces : forall k ps s pos fuel n, (length ps <= k)%nat -> at_ s pos (format_text ps) -> Forall wf_piece ps -> separated ps ->
  (length (format_text ps) + 1 <= fuel)%nat ->
  count_loop fuel s pos n = Ret (n + Z.of_nat (length (conversions ps))).
Proof.
  induction k as [|k IH]; intros ps s pos fuel n Lk A F Sp L.
  { destruct ps; [|cbn in Lk; lia]. destruct fuel; [lia|]. cbn in A. apply at_nil in A as (_ & _ & Lt).
    cbn [count_loop]. rewrite Lt. cbn. rewrite Z.add_0_r. reflexivity. }
  destruct ps as [|p ps].
  { destruct fuel; [lia|]. cbn in A. apply at_nil in A as (_ & _ & Lt).
    cbn [count_loop]. rewrite Lt. cbn. rewrite Z.add_0_r. reflexivity. }
  inversion F as [|? ? Wp F']; subst. unfold format_text in A, L. cbn [flat_map] in A, L. fold (format_text ps) in A, L. rewrite app_length in L.
  destruct p as [l| |d]; cbn [piece_text wf_piece] in *.
  - rewrite (count_lit l s pos (format_text ps)) by (auto; lia). apply at_app in A.
    rewrite (IH ps); auto; cbn in Lk; lia.
  - cbn [length] in L. destruct fuel as [|g]; [lia|]. cbn [app] in A. pose proof (parse_pp _ _ _ A) as PP.
    apply at_cons in A as (R & Lt & A). cbn [count_loop]. rewrite Lt, R. cbn [rbind Z.eqb Pos.eqb]. rewrite PP. cbn [rbind].
    apply at_cons in A as (_ & _ & A). rewrite (IH ps); auto; cbn in Lk; lia.
  - destruct fuel as [|g]; [lia|]. pose proof (parse_directive s pos d _ A Wp) as PD. pose proof (text_length d).
    assert (R : rd s pos = Ret 37 /\ Nat.ltb pos (length s) = true).
    { unfold text in A. cbn [app] in A. apply at_cons in A as (R & Lt & _). auto. }
    destruct R as [R Lt]. cbn [count_loop]. rewrite Lt, R. cbn [rbind Z.eqb Pos.eqb]. rewrite PD. cbn [rbind].
    apply at_app in A. cbn [separated] in Sp. destruct Sp as [[->|(c & l & r' & ->)] Sp].
    + change (format_text []) with (@nil Z) in A. destruct g as [|g]; [lia|]. cbn [count_loop]. apply at_nil in A as (EA & _ & _).
      destruct (Nat.ltb (S (pos + length (text d))) (length s)) eqn:Q9; [apply Nat.ltb_lt in Q9; lia|]. cbn. reflexivity.
    + unfold format_text in A, L. cbn [flat_map piece_text app length] in A, L. fold (format_text r') in A, L.
      apply at_cons in A as (_ & _ & A). inversion F' as [|? ? Wl F'']; subst. cbn in Wl. inversion Wl; subst.
      rewrite (IH (Lit l :: r')); auto.
      * cbn [conversions flat_map app length]. f_equal. lia.
      * cbn in Lk |- *. lia.
      * unfold format_text. cbn [flat_map piece_text]. fold (format_text r'). lia.
Qed.

Lemma count_spec : forall ps, Forall wf_piece ps -> separated ps ->
  count (format_text ps) = Ret (Z.of_nat (length (conversions ps))).
Proof.
  intros ps F Sp. unfold count. rewrite (count_pieces (length ps) ps); auto; [apply at_start|lia].
Qed.

(** * Storing *)
Lemma upd_app : forall st p q, upd (st ++ [p]) (length st) q = st ++ [q].
Proof. induction st as [|x st IH]; intros p q; cbn; [reflexivity|]. rewrite IH. reflexivity. Qed.

Lemma write_last : forall st ty size c p, ptype p = ty -> psize p = size -> content_size ty c <= size ->
  write (st ++ [p]) (length st) ty c = Ret (st ++ [Param ty size c]).
Proof.
  intros st ty size c p E1 E2 H. unfold write. rewrite nth_error_app2 by lia. rewrite Nat.sub_diag. cbn [nth_error].
  replace (psize p <? content_size ty c) with false by lia. rewrite upd_app. subst. reflexivity.
Qed.

Lemma swrap_spec : forall bits z, 0 < bits -> (swrap bits z - z) mod 2 ^ bits = 0 /\ - 2 ^ (bits - 1) <= swrap bits z < 2 ^ (bits - 1).
Proof.
  intros bits z Hb. unfold swrap. assert (E : 2 ^ bits = 2 * 2 ^ (bits - 1)).
  { replace bits with (1 + (bits - 1)) at 1 by lia. rewrite Z.pow_add_r by lia. reflexivity. }
  assert (0 < 2 ^ (bits - 1)) by (apply Z.pow_pos_nonneg; lia).
  set (m := 2 ^ bits) in *. set (h := 2 ^ (bits - 1)) in *.
  assert (m / 2 = h) by (rewrite E, Z.mul_comm; apply Z.div_mul; lia). rewrite H0.
  pose proof (Z.mod_pos_bound z m ltac:(lia)). pose proof (Z.div_mod z m ltac:(lia)) as DM.
  destruct (z mod m <? h) eqn:Q.
  - split; [|lia]. replace (z mod m - z) with ((- (z / m)) * m) by lia. apply Z.mod_mul. lia.
  - split; [|lia]. replace (z mod m - m - z) with ((- (z / m) - 1) * m) by lia. apply Z.mod_mul. lia.
Qed.
Lemma uwrap_spec : forall bits z, 0 < bits -> (uwrap bits z - z) mod 2 ^ bits = 0 /\ 0 <= uwrap bits z < 2 ^ bits.
Proof.
  intros bits z Hb. unfold uwrap. assert (0 < 2 ^ bits) by (apply Z.pow_pos_nonneg; lia).
  set (m := 2 ^ bits) in *. pose proof (Z.mod_pos_bound z m ltac:(lia)). pose proof (Z.div_mod z m ltac:(lia)) as DM.
  split; [|lia]. replace (z mod m - z) with ((- (z / m)) * m) by lia. apply Z.mod_mul. lia.
Qed.

(** Conversions the code supports. *)
Definition supported (d : directive) : Prop :=
  ~ In (dconv d) [69; 70; 71; 97; 65] /\ ~ (In (dconv d) [101; 102; 103] /\ dlen d = psal_l).
Definition short_string (a : arg) : Prop := match a with AStr (Some b) => (length b < 8)%nat | _ => True end.

Definition class_of (ty : ctype) : va :=
  match ty with
  | TLong | TLLong | TULong | TULLong => Va64 | TDouble => VaDbl | TLDouble => VaLDbl
  | TVoidP | TCharP | TShortP | TIntP | TLongP | TLLongP => VaPtr | _ => Va32
  end.

Lemma dispatch_spec : forall d ty, demanded d ty -> supported d ->
  dispatch (dconv d) (dlen d) = Some (ty, class_of ty) /\ dconv d <> 115.
Proof.
  intros [fl w p a c] ty (row & Hr & Hc & Hl) (S1 & S2). cbn [dconv dlen] in *. unfold table in Hr. cbn in Hr, S1, S2.
  destruct Hr as [<-|[<-|[<-|[<-|[<-|[<-|[]]]]]]]; cbn [fst snd] in *;
    repeat (destruct Hc as [Hc|Hc]; [subst c; cbn in Hl; repeat (destruct Hl as [Hl|Hl]; [inversion Hl; subst; (split; [reflexivity|lia]) || (exfalso; intuition congruence)|]); destruct Hl|]); destruct Hc.
Qed.

Lemma nth_last : forall (st : list param) p, nth_error (st ++ [p]) (length st) = Some p.
Proof. intros. rewrite nth_error_app2 by lia. rewrite Nat.sub_diag. reflexivity. Qed.

Lemma demanded_fun : forall d ty ty', demanded d ty -> demanded d ty' -> supported d -> ty = ty'.
Proof. intros d ty ty' H1 H2 S. destruct (dispatch_spec d ty H1 S), (dispatch_spec d ty' H2 S). congruence. Qed.

Lemma store_one_spec : forall st a r d sp, fits d a -> supported d -> short_string a ->
  t sp = dconv d -> alen sp = dlen d ->
  exists p, stores d a p /\ store_one st (a :: r) (length st) sp = Ret (inr (st ++ [p], r)).
Proof.
  intros st a r d sp (p0 & H) Sup Sh Et El.
  assert (G : forall ty v c, demanded d ty -> class_of ty = v -> va_arg v ty (a :: r) = Ret (c, r) -> content_size ty c <= sizeof ty ->
     store_one st (a :: r) (length st) sp = Ret (inr (st ++ [Param ty (sizeof ty) c], r))).
  { intros ty v c Hd Hv Ha Hs. destruct (dispatch_spec d ty Hd Sup) as [Hdis N]. unfold store_one. rewrite Et, El. replace (dconv d =? 115) with false by lia.
    rewrite Hdis, Hv. cbv zeta. unfold append. rewrite nth_last. rewrite Ha. cbn [rbind].
    rewrite (write_last st ty (sizeof ty) c (Param ty (sizeof ty) CZero)) by auto. reflexivity. }
  inversion H; subst; clear H.
  - destruct (swrap_spec bits z) as [M1 M2]; [cbn in H1; destruct H1 as [Q|[Q|[Q|[]]]]; inversion Q; lia|].
    exists (Param ty (bits / 8) (CNum (swrap bits z))). split; [eapply StS32; eauto|].
    assert (sizeof ty = bits / 8 /\ class_of ty = Va32 /\ cast ty z = swrap bits z) as (Q1 & Q2 & Q3).
    { cbn in H1. destruct H1 as [Q|[Q|[Q|[]]]]; inversion Q; subst; auto. }
    rewrite (G ty Va32 (CNum (swrap bits z))); auto; [congruence|cbn; rewrite Q3; reflexivity|cbn; lia].
  - destruct (uwrap_spec bits z) as [M1 M2]; [cbn in H1; destruct H1 as [Q|[Q|[Q|[]]]]; inversion Q; lia|].
    exists (Param ty (bits / 8) (CNum (uwrap bits z))). split; [eapply StU32; eauto|].
    assert (sizeof ty = bits / 8 /\ class_of ty = Va32 /\ cast ty z = uwrap bits z) as (Q1 & Q2 & Q3).
    { cbn in H1. destruct H1 as [Q|[Q|[Q|[]]]]; inversion Q; subst; auto. }
    rewrite (G ty Va32 (CNum (uwrap bits z))); auto; [congruence|cbn; rewrite Q3; reflexivity|cbn; lia].
  - destruct (swrap_spec 64 z) as [M1 M2]; [lia|].
    exists (Param ty 8 (CNum (swrap 64 z))). split; [eapply StS64; eauto|].
    assert (sizeof ty = 8 /\ class_of ty = Va64 /\ cast ty z = swrap 64 z) as (Q1 & Q2 & Q3).
    { cbn in H1. destruct H1 as [<-|[<-|[]]]; auto. }
    rewrite (G ty Va64 (CNum (swrap 64 z))); auto; [congruence|cbn [va_arg]; rewrite Q3; reflexivity|cbn [content_size]; lia].
  - destruct (uwrap_spec 64 z) as [M1 M2]; [lia|].
    exists (Param ty 8 (CNum (uwrap 64 z))). split; [eapply StU64; eauto|].
    assert (sizeof ty = 8 /\ class_of ty = Va64 /\ cast ty z = uwrap 64 z) as (Q1 & Q2 & Q3).
    { cbn in H1. destruct H1 as [<-|[<-|[]]]; auto. }
    rewrite (G ty Va64 (CNum (uwrap 64 z))); auto; [congruence|cbn [va_arg]; rewrite Q3; reflexivity|cbn [content_size]; lia].
  - eexists. split; [apply StDbl; auto|]. rewrite (G TDouble VaDbl (CNum x)); auto; cbn; lia.
  - eexists. split; [apply StLDbl; auto|]. rewrite (G TLDouble VaLDbl (CNum x)); auto; cbn; lia.
  - exists (Param ty 8 (CPtr p)). split; [apply StPtr; auto|].
    assert (sizeof ty = 8 /\ class_of ty = VaPtr) as (Q1 & Q2).
    { cbn in H1. destruct H1 as [<-|[<-|[<-|[<-|[<-|[<-|[]]]]]]]; auto. }
    rewrite (G ty VaPtr (CPtr p)); auto; [congruence|cbn; lia].
  - exists (Param TCharP 8 (CPtr 0)). split; [apply StNull; auto|]. unfold store_one. rewrite Et, H0. cbn [Z.eqb Pos.eqb]. cbv zeta. unfold append.
    rewrite nth_last. rewrite (write_last st TCharP 8 (CPtr 0) (Param TCharP 8 CZero)) by (auto; cbn; lia). reflexivity.
  - cbn in Sh. exists (Param (TCharArr (Z.of_nat (length b) + 1)) 8 (CBytes (b ++ [0]))).
    split; [apply StStr; auto; lia|]. unfold store_one. rewrite Et, H0. cbn [Z.eqb Pos.eqb]. cbv zeta. unfold append. rewrite nth_last.
    unfold write. rewrite nth_last. cbn [psize content_size ptype]. rewrite app_length. cbn [length].
    replace (8 <? Z.of_nat (length b + 1)) with false by lia. rewrite upd_app. reflexivity.
Qed.

Lemma store_lit : forall l s pos suf fuel id st args, at_ s pos (l ++ suf) -> Forall (fun c => c <> 37) l -> (length l <= fuel)%nat ->
  store_loop fuel s pos id st args = store_loop (fuel - length l) s (pos + length l) id st args.
Proof.
  induction l as [|c l IH]; intros s pos suf fuel id st args A F L; cbn [length] in *.
  - rewrite Nat.sub_0_r, Nat.add_0_r. reflexivity.
  - destruct fuel as [|g]; [lia|]. cbn [app] in A. apply at_cons in A as (R & Lt & A). cbn [store_loop]. rewrite Lt, R. cbn [rbind].
    inversion F; subst. replace (c =? 37) with false by lia. rewrite (IH s (S pos) suf) by (auto; lia).
    f_equal; lia.
Qed.

Definition is_pp (p : piece) : Prop := p = PP.

Lemma store_pieces : forall k ps s pos fuel st args, (length ps <= k)%nat -> at_ s pos (format_text ps) ->
  Forall wf_piece ps -> separated ps -> Forall (fun p => p <> PP) ps ->
  Forall supported (conversions ps) -> Forall2 fits (conversions ps) args -> Forall short_string args ->
  (length (format_text ps) + 1 <= fuel)%nat ->
  exists l, store_loop fuel s pos (length st) st args = Ret (0, st ++ l) /\
    length l = length args /\ forall i d a, nth_error (conversions ps) i = Some d -> nth_error args i = Some a ->
      exists p, nth_error l i = Some p /\ stores d a p.
Proof.
  induction k as [|k IH]; intros ps s pos fuel st args Lk A F Sp NP Su Fi Sh L.
  { destruct ps; [|cbn in Lk; lia]. destruct fuel; [lia|]. cbn in A. apply at_nil in A as (_ & _ & Lt).
    cbn in Fi. inversion Fi; subst. exists []. cbn [store_loop]. rewrite Lt. rewrite app_nil_r. split; auto. split; auto. intros [|i] d a Q; discriminate. }
  destruct ps as [|p ps].
  { destruct fuel; [lia|]. cbn in A. apply at_nil in A as (_ & _ & Lt).
    cbn in Fi. inversion Fi; subst. exists []. cbn [store_loop]. rewrite Lt. rewrite app_nil_r. split; auto. split; auto. intros [|i] d a Q; discriminate. }
  inversion F as [|? ? Wp F']; subst. inversion NP as [|? ? Np NP']; subst.
  unfold format_text in A, L. cbn [flat_map] in A, L. fold (format_text ps) in A, L. rewrite app_length in L.
  destruct p as [l| |d]; cbn [piece_text wf_piece] in *.
  - rewrite (store_lit l s pos (format_text ps)) by (auto; lia). apply at_app in A.
    apply (IH ps); auto; cbn in Lk; lia.
  - congruence.
  - destruct fuel as [|g]; [lia|]. pose proof (parse_directive s pos d _ A Wp) as PD. pose proof (text_length d).
    assert (R : rd s pos = Ret 37 /\ Nat.ltb pos (length s) = true).
    { unfold text in A. cbn [app] in A. apply at_cons in A as (R & Lt & _). auto. }
    destruct R as [R Lt]. cbn [store_loop]. rewrite Lt, R. cbn [rbind Z.eqb Pos.eqb]. rewrite PD. cbn [rbind].
    cbn [conversions flat_map app] in Su, Fi. fold (conversions ps) in Su, Fi.
    inversion Fi as [|? a ? args' Fa Fi']; subst. inversion Su as [|? ? Sd Su']; subst. inversion Sh as [|? ? Sa Sh']; subst.
    destruct (store_one_spec st a args' d (actual d) Fa Sd Sa eq_refl eq_refl) as (p & Hp & E). rewrite E. cbn [rbind].
    assert (K : forall l, (store_loop g s (S (pos + length (text d))) (length (st ++ [p])) (st ++ [p]) args' = Ret (0, (st ++ [p]) ++ l) /\
        length l = length args' /\ forall i d0 a0, nth_error (conversions ps) i = Some d0 -> nth_error args' i = Some a0 ->
        exists p0, nth_error l i = Some p0 /\ stores d0 a0 p0) ->
        exists l, store_loop g s (S (pos + length (text d))) (S (length st)) (st ++ [p]) args' = Ret (0, st ++ l) /\
        length l = length (a :: args') /\ forall i d0 a0, nth_error (d :: conversions ps) i = Some d0 -> nth_error (a :: args') i = Some a0 ->
        exists p0, nth_error l i = Some p0 /\ stores d0 a0 p0).
    { intros l (Q1 & Q2 & Q3). exists (p :: l). rewrite app_length in Q1. cbn [length] in Q1. rewrite Nat.add_1_r in Q1.
      split; [rewrite Q1, <- app_assoc; reflexivity|]. split; [cbn; lia|].
      intros [|i] d0 a0 H1 H2; cbn in H1, H2; [inversion H1; inversion H2; subst; cbn; eauto|]. cbn. eauto. }
    apply at_app in A. cbn [separated] in Sp. destruct Sp as [[->|(c & l & r' & ->)] Sp].
    + change (format_text []) with (@nil Z) in A. destruct g as [|g]; [lia|]. apply at_nil in A as (EA & _ & _). apply (K []).
      cbn [store_loop]. destruct (Nat.ltb (S (pos + length (text d))) (length s)) eqn:Q9; [apply Nat.ltb_lt in Q9; lia|]. rewrite app_nil_r.
      cbn in Fi'. inversion Fi'; subst. split; auto. split; auto. intros [|i] d0 a0 Q; discriminate.
    + unfold format_text in A, L. cbn [flat_map piece_text app length] in A, L. fold (format_text r') in A, L.
      apply at_cons in A as (_ & _ & A). inversion F' as [|? ? Wl F'']; subst. cbn in Wl. inversion Wl; subst. inversion NP' as [|? ? _ NP'']; subst.
      destruct (IH (Lit l :: r') s (S (pos + length (text d))) g (st ++ [p]) args') as (l' & Q); auto.
      * cbn in Lk |- *. lia.
      * constructor; auto; discriminate.
      * unfold format_text. cbn [flat_map piece_text]. fold (format_text r'). lia.
      * apply (K l'). exact Q.
Qed.

Lemma store_spec : forall ps args, Forall wf_piece ps -> separated ps -> Forall (fun p => p <> PP) ps ->
  Forall supported (conversions ps) -> Forall2 fits (conversions ps) args -> Forall short_string args ->
  exists l, store (format_text ps) [] args = Ret (0, l) /\ length l = length args /\
    forall i d a, nth_error (conversions ps) i = Some d -> nth_error args i = Some a ->
      exists p, nth_error l i = Some p /\ stores d a p.
Proof.
  intros ps args F Sp NP Su Fi Sh. unfold store.
  apply (store_pieces (length ps) ps (format_text ps) 0 (S (length (format_text ps))) [] args); auto; [apply at_start|lia].
Qed.

Lemma count_good : forall s, count s = Overflow \/ exists z, count s = Ret z /\ 0 <= z <= Z.of_nat (length s).
Proof.
  intros s. unfold count. destruct (count_loop_good s (S (length s)) 0 0) as [H|(z & H & B)]; [lia|auto|].
  right. exists z. split; auto. lia.
Qed.
Lemma count_defined : forall s, no_long_number s -> exists z, count s = Ret z /\ 0 <= z <= Z.of_nat (length s).
Proof.
  intros s NL. destruct (count_good s) as [H|H]; auto. exfalso. apply (count_loop_no_overflow s NL (S (length s)) 0%nat 0). exact H.
Qed.
Lemma store_no : forall s st args, store s st args <> OOB /\ store s st args <> NoFuel.
Proof. intros. apply store_loop_no. lia. Qed.

Lemma directive_at : forall pre d rest, well_formed d ->
  parse (pre ++ text d ++ rest) (length pre) = Ret (length (pre ++ text d), Some (actual d)).
Proof.
  intros pre d rest W. rewrite app_length. apply (parse_directive _ _ d rest); auto. split.
  - rewrite app_length. lia.
  - rewrite skipn_app, Nat.sub_diag, skipn_all. reflexivity.
Qed.

Lemma directive_exact : forall pre d rest, well_formed d -> ~ In 48 (dflags d) -> ~ In 32 (dflags d) ->
  parse (pre ++ text d ++ rest) (length pre) = Ret (length (pre ++ text d), Some (meaning d)).
Proof. intros. rewrite directive_at, actual_meaning; auto. Qed.

(** Whatever the flags: the end, the letter, the length modifier and the flags + - # are right. *)
Lemma directive_most : forall pre d rest, well_formed d -> exists sp,
  parse (pre ++ text d ++ rest) (length pre) = Ret (length (pre ++ text d), Some sp) /\
  t sp = t (meaning d) /\ alen sp = alen (meaning d) /\ plus (sflags sp) = plus (sflags (meaning d)) /\
  minus (sflags sp) = minus (sflags (meaning d)) /\ pound (sflags sp) = pound (sflags (meaning d)) /\
  (format_len sp = 0 <-> format_len (meaning d) = 0) /\ (precision sp = -1 <-> precision (meaning d) = -1).
Proof.
  intros pre d rest W. exists (actual d). split; [apply directive_at; auto|]. unfold actual, meaning. cbn [t alen sflags plus minus pound format_len precision].
  repeat (split; [reflexivity|]).
  assert (Z0 : forall base ds acc, 1 <= base -> Forall is_digit ds -> 0 <= acc -> (numval base acc ds = 0 <-> acc = 0 /\ Forall (fun c => c = 48) ds)).
  { intros base ds. induction ds as [|c ds IH]; intros acc Hb F Ha; cbn.
    - split; [auto|tauto].
    - inversion F as [|? ? Dc F']; subst. unfold is_digit in Dc. fold (numval base (acc * base + (c - 48)) ds). rewrite IH; auto; [|nia]. split.
      + intros [Q1 Q2]. assert (acc = 0) by nia. split; auto. constructor; auto. nia.
      + intros [-> Q2]. inversion Q2; subst. split; auto; lia. }
  assert (B : 1 <= base_of d) by (unfold base_of; destruct (_ || _); lia).
  destruct W as [_ (W1 & _) W3 _]. split.
  - rewrite decimal_numval, !Z0; auto; try lia. tauto.
  - destruct (dprec d) as [p|]; [|tauto]. destruct (W3 p eq_refl) as [Fp _]. rewrite decimal_numval.
    pose proof (numval_ge (base_of d) p 0 B ltac:(lia) Fp). pose proof (numval_ge 10 p 0 ltac:(lia) ltac:(lia) Fp). lia.
Qed.

(** Strings: the copy fits its buffer exactly when it is shorter than a pointer. *)
Lemma string_copy : forall st b r sp, t sp = 115 ->
  (exists x, store_one st (AStr (Some b) :: r) (length st) sp = Ret x) <-> (length b < 8)%nat.
Proof.
  intros st b r sp E. unfold store_one. rewrite E. cbn [Z.eqb Pos.eqb]. cbv zeta. unfold append. rewrite nth_last.
  unfold write. rewrite nth_last. cbn [psize content_size]. rewrite app_length. cbn [length]. split.
  - intros (x & H). destruct (8 <? Z.of_nat (length b + 1)) eqn:Q; [discriminate H|]. lia.
  - intros H. replace (8 <? Z.of_nat (length b + 1)) with false by lia. cbn. eauto.
Qed.

Lemma string_copy_store : forall b, Forall (fun c => c <> 0) b ->
  (exists x, store [37; 115] [] [AStr (Some b)] = Ret x) <-> (length b < 8)%nat.
Proof.
  intros b _. unfold store. cbn [length].
  assert (P : parse [37; 115] 0 = Ret (2%nat, Some (Spec (Flags false false false false false) 0 (-1) psal_no 115))) by reflexivity.
  cbn [store_loop length Nat.ltb Nat.leb rd nth_error rbind Z.eqb Pos.eqb]. rewrite P. cbn [rbind].
  rewrite <- (string_copy [] b [] (Spec (Flags false false false false false) 0 (-1) psal_no 115) eq_refl). cbn [length].
  destruct (store_one _ _ _ _) as [[y|[st' args']]| | | | |]; cbn [rbind Nat.ltb Nat.leb];
    split; intros (x & H); try discriminate H; eauto.
Qed.

Lemma wf_simple : forall fl a c, Forall is_flag fl -> is_conv c -> well_formed (Dir fl [] None a c).
Proof.
  intros fl a c F Hc. constructor; cbn; auto.
  - split; [constructor|]. split; [discriminate|vm_compute; discriminate].
  - discriminate.
Qed.

Ltac wf_pieces :=
  repeat match goal with
  | |- Forall wf_piece [] => apply Forall_nil
  | |- Forall wf_piece (_ :: _) => apply Forall_cons
  | |- wf_piece PP => exact I
  | |- wf_piece (Lit _) => cbn; repeat (apply Forall_cons; [lia|]); apply Forall_nil
  | |- wf_piece (Conv (Dir [] [] None _ _)) => cbn; apply wf_simple; [apply Forall_nil|unfold is_conv; lia]
  end.
