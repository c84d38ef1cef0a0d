(** Merging of types (C67): the loop. *)
From Coq Require Import ZArith String Ascii List Bool Lia.
From Verif Require Import Base MetadbModel MetadbSpec MetadbProof MetadbProof2 MetadbProof3 MetadbProof4.
Import ListNotations.
Open Scope string_scope.

Lemma find_header_some : forall h l r, find_header h l = Some r -> In (h, r) l.
Proof.
  intros h l r E. unfold find_header in E. destruct (List.find _ l) as [[k x]|] eqn:F; [|discriminate]. apply find_some in F. destruct F as [I Q]. apply String.eqb_eq in Q. subst. injection E as <-. assumption.
Qed.
Lemma find_header_none : forall h l, find_header h l = None -> ~ In h (map fst l).
Proof.
  intros h l E I. unfold find_header in E. destruct (List.find _ l) as [[k x]|] eqn:F; [discriminate|]. apply in_map_iff in I. destruct I as [[k r] [X I]]. cbn in X. subst. pose proof (find_none _ _ F _ I) as Q. cbn in Q. rewrite String.eqb_refl in Q. discriminate.
Qed.
Lemma find_sig_some : forall h c l r, find_sig h c l = Some r -> In (h, c, r) l.
Proof.
  intros h c l r E. unfold find_sig in E. destruct (List.find _ l) as [[[k d] x]|] eqn:F; [|discriminate]. apply find_some in F. destruct F as [I Q]. apply andb_true_iff in Q. destruct Q as [Q1 Q2]. apply String.eqb_eq in Q1, Q2. subst. injection E as <-. assumption.
Qed.
Lemma find_sig_none : forall h c l, find_sig h c l = None -> ~ In (h, c) (map fst l).
Proof.
  intros h c l E I. unfold find_sig in E. destruct (List.find _ l) as [[[k d] x]|] eqn:F; [discriminate|]. apply in_map_iff in I. destruct I as [[[k d] r] [X I]]. cbn in X. injection X as -> ->. pose proof (find_none _ _ F _ I) as Q. cbn in Q. rewrite !String.eqb_refl in Q. discriminate.
Qed.
Lemma put_same : forall A (f : nat -> A) i x, put f i x i = x.
Proof. intros. unfold put. rewrite Nat.eqb_refl. reflexivity. Qed.
Lemma put_other : forall A (f : nat -> A) i j x, j <> i -> put f i x j = f j.
Proof. intros. unfold put. apply Nat.eqb_neq in H. rewrite H. reflexivity. Qed.

Section Loop.
Variables (G : nat -> option object) (parent : nat -> nat).
Hypothesis GO : graph_ok G.
Record known (st : index) (done : list nat) (d : bool) (h : string) (r : nat) (o : object) : Prop := {
  kn_obj : G r = Some o; kn_decl : o_decl o = d; kn_sig : sg G false r h; kn_rep : i_rep st r = r; kn_dup : i_dup st r = false; kn_db : In r (i_db st); kn_done : In r done }.
Definition placed (st : index) (i : nat) (o : object) : Prop :=
  (i_rep st i = i /\ i_dup st i = true /\ i_dup st (parent i) = true) \/
  (In (i_rep st i) (i_db st) /\ exists b h, G (i_rep st i) = Some b /\ o_decl b = o_decl o /\ sg G false i h /\ sg G false (i_rep st i) h /\ (o_decl o = false -> exists c, sg G true i c /\ sg G true (i_rep st i) c)).
Record inv (done : list nat) (st : index) : Prop := {
  in_new : forall i, ~ In i done -> i_rep st i = i /\ i_dup st i = false;
  in_other : forall i, G i = None -> i_rep st i = i /\ i_dup st i = false;
  in_headers : forall h r, In (h, r) (i_headers st) -> exists o, known st done true h r o;
  in_sigs : forall h c r, In (h, c, r) (i_sigs st) -> exists o, known st done false h r o /\ sg G true r c;
  in_db : forall r, In r (i_db st) -> (exists h, In (h, r) (i_headers st)) \/ (exists h c, In (h, c, r) (i_sigs st));
  in_keys1 : NoDup (map fst (i_headers st));
  in_keys2 : NoDup (map fst (i_sigs st));
  in_nodup : NoDup (i_db st);
  in_done : forall i o, In i done -> G i = Some o -> placed st i o }.
Lemma inv0 : inv [] index0.
Proof. constructor; cbn; try (intros; contradiction); try constructor; auto. Qed.
Lemma inv_faithful : forall done st, inv done st -> faithful G (i_rep st).
Proof.
  intros done st I i o Go. destruct (in_dec Nat.eq_dec i done) as [D|D].
  - destruct (in_done _ _ I i o D Go) as [[R _]|[_ [b [h [_ [_ [A [B _]]]]]]]]; [|eauto]. rewrite R. destruct (sg_exists G GO i o Go) as [s S]. eauto.
  - rewrite (proj1 (in_new _ _ I i D)). destruct (sg_exists G GO i o Go) as [s S]. eauto.
Qed.
Lemma nodup_snoc : forall (l : list nat) x, NoDup l -> ~ In x l -> NoDup (l ++ [x]).
Proof. intros l x D N. induction D as [|y l Y D IH]; cbn; [constructor; [intros []|constructor]|]. constructor; [|apply IH; intros I; apply N; right; assumption]. rewrite in_app_iff. intros [I|[I|[]]]; [contradiction|]. subst. apply N. left. reflexivity. Qed.

(** the new entry is a duplicate of f *)
Lemma inv_merge : forall done st i o f b h, inv done st -> ~ In i done -> G i = Some o -> i_dup st (parent i) = false -> known st done (o_decl o) h f b -> sg G false i h -> (o_decl o = false -> exists c, sg G true i c /\ sg G true f c) ->
  inv (i :: done) {| i_rep := put (i_rep st) i (i_rep st f); i_dup := put (i_dup st) i true; i_headers := i_headers st; i_sigs := i_sigs st; i_db := i_db st |}.
Proof.
  intros done st i o f b h I N Go Pd Kf S C.
  assert (Kn : forall d h r o', known st done d h r o' -> known {| i_rep := put (i_rep st) i (i_rep st f); i_dup := put (i_dup st) i true; i_headers := i_headers st; i_sigs := i_sigs st; i_db := i_db st |} (i :: done) d h r o').
  { intros d h' r o' [K1 K2 K3 K4 K5 K6 K7]. assert (r <> i) by (intros ->; contradiction). constructor; cbn [i_rep i_dup i_db]; try assumption; try (rewrite put_other by assumption; assumption). right. assumption. }
  constructor; cbn [i_rep i_dup i_headers i_sigs i_db].
  - intros j Nj. assert (j <> i) by (intros ->; apply Nj; left; reflexivity). rewrite !put_other by assumption. apply (in_new _ _ I). intros J. apply Nj. right. assumption.
  - intros j Gj. assert (j <> i) by (intros ->; congruence). rewrite !put_other by assumption. exact (in_other _ _ I j Gj).
  - intros h' r J. destruct (in_headers _ _ I h' r J) as [o' K]. exists o'. apply Kn. assumption.
  - intros h' c r J. destruct (in_sigs _ _ I h' c r J) as [o' [K X]]. exists o'. split; [apply Kn; assumption|assumption].
  - exact (in_db _ _ I).
  - exact (in_keys1 _ _ I).
  - exact (in_keys2 _ _ I).
  - exact (in_nodup _ _ I).
  - intros j o' J Gj. unfold placed. cbn [i_rep i_dup i_db]. destruct (Nat.eq_dec j i) as [->|Ne].
    + rewrite Go in Gj. injection Gj as <-. rewrite put_same. right. rewrite (kn_rep _ _ _ _ _ _ Kf). split; [exact (kn_db _ _ _ _ _ _ Kf)|]. exists b, h. split; [exact (kn_obj _ _ _ _ _ _ Kf)|]. split; [exact (kn_decl _ _ _ _ _ _ Kf)|]. split; [assumption|]. split; [exact (kn_sig _ _ _ _ _ _ Kf)|assumption].
    + destruct J as [J|J]; [congruence|]. rewrite !(put_other _ _ i j) by assumption. destruct (in_done _ _ I j o' J Gj) as [[A [B D]]|[A B]]; [|right; split; assumption]. left. split; [assumption|]. split; [assumption|]. destruct (Nat.eq_dec (parent j) i) as [->|Np]; [apply put_same|]. rewrite put_other; assumption.
Qed.
(** the new entry goes to the database *)
Lemma inv_append : forall done st i o h hd sgs, inv done st -> ~ In i done -> G i = Some o -> sg G false i h -> (o_decl o = false -> exists c, sg G true i c) ->
  (o_decl o = true /\ hd = (h, i) :: i_headers st /\ sgs = i_sigs st /\ ~ In h (map fst (i_headers st))) \/
  (o_decl o = false /\ hd = i_headers st /\ exists c, sgs = (h, c, i) :: i_sigs st /\ ~ In (h, c) (map fst (i_sigs st)) /\ sg G true i c) ->
  inv (i :: done) {| i_rep := i_rep st; i_dup := i_dup st; i_headers := hd; i_sigs := sgs; i_db := i_db st ++ [i_rep st i] |}.
Proof.
  intros done st i o h hd sgs I N Go S C Ch. destruct (in_new _ _ I i N) as [Ri Di].
  assert (Nd : ~ In i (i_db st)).
  { intros J. destruct (in_db _ _ I i J) as [[h' X]|[h' [c X]]]; [destruct (in_headers _ _ I _ _ X) as [o' K]|destruct (in_sigs _ _ I _ _ _ X) as [o' [K _]]]; exact (N (kn_done _ _ _ _ _ _ K)). }
  assert (Kn : forall d h r o', known st done d h r o' -> known {| i_rep := i_rep st; i_dup := i_dup st; i_headers := hd; i_sigs := sgs; i_db := i_db st ++ [i_rep st i] |} (i :: done) d h r o').
  { intros d h' r o' [K1 K2 K3 K4 K5 K6 K7]. constructor; cbn [i_rep i_dup i_db]; try assumption; [apply in_or_app; left; assumption|right; assumption]. }
  assert (Kn2 : forall d, o_decl o = d -> known {| i_rep := i_rep st; i_dup := i_dup st; i_headers := hd; i_sigs := sgs; i_db := i_db st ++ [i_rep st i] |} (i :: done) d h i o).
  { intros d D. constructor; cbn [i_rep i_dup i_db]; try assumption; [apply in_or_app; right; left; assumption|left; reflexivity]. }
  constructor; cbn [i_rep i_dup i_headers i_sigs i_db].
  - intros j Nj. apply (in_new _ _ I). intros J. apply Nj. right. assumption.
  - exact (in_other _ _ I).
  - intros h' r J. assert (J' : (h', r) = (h, i) /\ o_decl o = true \/ In (h', r) (i_headers st)) by (destruct Ch as [[D [-> _]]|[_ [-> _]]]; [destruct J as [J|J]; [left; auto|right; assumption]|right; assumption]).
    destruct J' as [[J' D]|J']; [injection J' as -> ->; exists o; apply Kn2; assumption|]. destruct (in_headers _ _ I h' r J') as [o' K]. exists o'. apply Kn. assumption.
  - intros h' c r J. assert (J' : ((h', r) = (h, i) /\ o_decl o = false /\ sg G true i c) \/ In (h', c, r) (i_sigs st)).
    { destruct Ch as [[_ [_ [-> _]]]|[D [_ [c' [-> [_ Sc]]]]]]; [right; assumption|]. destruct J as [J|J]; [left; injection J as -> -> ->; auto|right; assumption]. }
    destruct J' as [[J' [D Sc]]|J']; [injection J' as -> ->; exists o; split; [apply Kn2; assumption|assumption]|]. destruct (in_sigs _ _ I h' c r J') as [o' [K X]]. exists o'. split; [apply Kn; assumption|assumption].
  - intros r J. apply in_app_or in J. destruct J as [J|[J|[]]].
    + destruct (in_db _ _ I r J) as [[h' X]|[h' [c X]]]; [left|right].
      * exists h'. destruct Ch as [[_ [-> _]]|[_ [-> _]]]; [right|]; assumption.
      * exists h', c. destruct Ch as [[_ [_ [-> _]]]|[_ [_ [c' [-> _]]]]]; [|right]; assumption.
    + rewrite Ri in J. subst r. destruct Ch as [[_ [-> _]]|[_ [_ [c' [-> _]]]]]; [left; exists h; left; reflexivity|right; exists h, c'; left; reflexivity].
  - destruct Ch as [[_ [-> [_ X]]]|[_ [-> _]]]; [cbn; constructor; [assumption|exact (in_keys1 _ _ I)]|exact (in_keys1 _ _ I)].
  - destruct Ch as [[_ [_ [-> _]]]|[_ [_ [c' [-> [X _]]]]]]; [exact (in_keys2 _ _ I)|cbn; constructor; [assumption|exact (in_keys2 _ _ I)]].
  - rewrite Ri. apply nodup_snoc; [exact (in_nodup _ _ I)|assumption].
  - intros j o' J Gj. unfold placed. cbn [i_rep i_dup i_db]. destruct (Nat.eq_dec j i) as [->|Ne].
    + rewrite Go in Gj. injection Gj as <-. right. split; [apply in_or_app; right; left; reflexivity|]. rewrite Ri. exists o, h. split; [assumption|]. split; [reflexivity|]. split; [assumption|]. split; [assumption|]. intros D. destruct (C D) as [c X]. eauto.
    + destruct J as [J|J]; [congruence|]. destruct (in_done _ _ I j o' J Gj) as [A|[A B]]; [left; assumption|]. right. split; [apply in_or_app; left; assumption|assumption].
Qed.
Lemma inv_skip : forall done st i o, inv done st -> ~ In i done -> G i = Some o -> i_dup st (parent i) = true ->
  inv (i :: done) {| i_rep := i_rep st; i_dup := put (i_dup st) i true; i_headers := i_headers st; i_sigs := i_sigs st; i_db := i_db st |}.
Proof.
  intros done st i o I N Go Pd. destruct (in_new _ _ I i N) as [Ri Di].
  assert (Kn : forall d h r o', known st done d h r o' -> known {| i_rep := i_rep st; i_dup := put (i_dup st) i true; i_headers := i_headers st; i_sigs := i_sigs st; i_db := i_db st |} (i :: done) d h r o').
  { intros d h' r o' [K1 K2 K3 K4 K5 K6 K7]. assert (r <> i) by (intros ->; contradiction). constructor; cbn [i_rep i_dup i_db]; try assumption; try (rewrite put_other by assumption; assumption). right. assumption. }
  assert (Pd' : put (i_dup st) i true (parent i) = true) by (unfold put; destruct (Nat.eqb _ _); [reflexivity|assumption]).
  constructor; cbn [i_rep i_dup i_headers i_sigs i_db].
  - intros j Nj. assert (j <> i) by (intros ->; apply Nj; left; reflexivity). rewrite !put_other by assumption. apply (in_new _ _ I). intros J. apply Nj. right. assumption.
  - intros j Gj. assert (j <> i) by (intros ->; congruence). rewrite !put_other by assumption. exact (in_other _ _ I j Gj).
  - intros h' r J. destruct (in_headers _ _ I h' r J) as [o' K]. exists o'. apply Kn. assumption.
  - intros h' c r J. destruct (in_sigs _ _ I h' c r J) as [o' [K X]]. exists o'. split; [apply Kn; assumption|assumption].
  - exact (in_db _ _ I).
  - exact (in_keys1 _ _ I).
  - exact (in_keys2 _ _ I).
  - exact (in_nodup _ _ I).
  - intros j o' J Gj. unfold placed. cbn [i_rep i_dup i_db]. destruct (Nat.eq_dec j i) as [->|Ne].
    + left. split; [assumption|]. split; [apply put_same|assumption].
    + destruct J as [J|J]; [congruence|]. rewrite !(put_other _ _ i j) by assumption. destruct (in_done _ _ I j o' J Gj) as [[A [B D]]|[A B]]; [|right; split; assumption]. left. split; [assumption|]. split; [assumption|]. destruct (Nat.eq_dec (parent j) i) as [->|Np]; [apply put_same|]. rewrite put_other; assumption.
Qed.
Lemma inv_none : forall done st i, inv done st -> ~ In i done -> G i = None -> inv (i :: done) st.
Proof.
  intros done st i I N Gi.
  assert (Kn : forall d h r o', known st done d h r o' -> known st (i :: done) d h r o') by (intros d h r o' [K1 K2 K3 K4 K5 K6 K7]; constructor; try assumption; right; assumption).
  destruct I as [I1 I2 I3 I4 I5 I6 I7 I8 I9]. constructor; try assumption.
  - intros j Nj. apply I1. intros J. apply Nj. right. assumption.
  - intros h r J. destruct (I3 h r J) as [o K]. eauto.
  - intros h c r J. destruct (I4 h c r J) as [o [K X]]. eauto.
  - intros j o [->|J] Gj; [congruence|]. exact (I9 j o J Gj).
Qed.
Lemma dedup1_inv : forall fuel done st i st', inv done st -> ~ In i done -> dedup1 fuel G parent st i = Ok st' -> inv (i :: done) st'.
Proof.
  intros fuel done st i st' I N E. unfold dedup1 in E. destruct (G i) as [o|] eqn:Go; [|injection E as <-; apply inv_none; assumption].
  destruct (i_dup st (parent i)) eqn:Pd; [injection E as <-; apply (inv_skip done st i o); assumption|]. destruct (in_new _ _ I i N) as [Ri _]. pose proof (inv_faithful done st I) as F.
  destruct (signature fuel G (i_rep st) false i) as [hs| | |] eqn:Hs; cbn [obind] in E; try discriminate. pose proof (rep_sound G GO _ F _ _ _ _ _ Go Hs) as S. rewrite Ri in S. destruct (o_decl o) eqn:D.
  - destruct (find_header hs (i_headers st)) as [f|] eqn:Fh.
    + injection E as <-. apply find_header_some in Fh. destruct (in_headers _ _ I _ _ Fh) as [b K]. apply (inv_merge done st i o f b hs); try assumption; [rewrite D; assumption|intros X; congruence].
    + injection E as <-. apply find_header_none in Fh. apply (inv_append done st i o hs); try assumption; [intros X; congruence|]. left. auto.
  - destruct (signature fuel G (i_rep st) true i) as [cs| | |] eqn:Cs; cbn [obind] in E; try discriminate. pose proof (rep_sound G GO _ F _ _ _ _ _ Go Cs) as Sc. rewrite Ri in Sc. destruct (find_sig hs cs (i_sigs st)) as [f|] eqn:Fh.
    + injection E as <-. apply find_sig_some in Fh. destruct (in_sigs _ _ I _ _ _ Fh) as [b [K Kc]]. apply (inv_merge done st i o f b hs); try assumption; [rewrite D; assumption|intros _; eauto].
    + injection E as <-. apply find_sig_none in Fh. apply (inv_append done st i o hs); try assumption; [intros _; eauto|]. right. eauto 10.
Qed.
Lemma dedup_inv : forall fuel order done st st', inv done st -> NoDup order -> (forall i, In i order -> ~ In i done) -> dedup fuel G parent st order = Ok st' -> inv (rev order ++ done) st'.
Proof.
  intros fuel order. induction order as [|i order IH]; intros done st st' I N D E; cbn [dedup rev app] in *; [injection E as <-; assumption|]. inversion N as [|? ? Ni N']; subst.
  destruct (dedup1 fuel G parent st i) as [st1| | |] eqn:E1; cbn [obind] in E; try discriminate. rewrite <- app_assoc. apply (IH (i :: done) st1 st'); try assumption.
  - apply (dedup1_inv fuel done st i); [assumption|apply D; left; reflexivity|assumption].
  - intros j J [->|K]; [contradiction|]. exact (D j (or_intror J) K).
Qed.

(** ** Enough fuel *)
Lemma dedup1_total : forall fuel done st i, inv done st -> ~ In i done ->
  (forall o s, G i = Some o -> sg G false i s -> (String.length s < fuel)%nat) -> (forall o s, G i = Some o -> o_decl o = false -> sg G true i s -> (String.length s < fuel)%nat) -> exists st', dedup1 fuel G parent st i = Ok st'.
Proof.
  intros fuel done st i I N L1 L2. unfold dedup1. destruct (G i) as [o|] eqn:Go; [|eauto]. destruct (i_dup st (parent i)); [eauto|]. destruct (in_new _ _ I i N) as [Ri _]. pose proof (inv_faithful done st I) as F.
  destruct (sg_exists G GO i o Go) as [s S]. rewrite (rep_total G GO _ F fuel i s o Go S (L1 o s eq_refl S)). cbn [obind]. destruct (o_decl o) eqn:D; [destruct (find_header _ _); eauto|].
  destruct (sg_full_exists G GO i o Go D) as [c C]. assert (X : signature fuel G (i_rep st) true i = Ok c) by (apply (rep_total_full G GO _ F fuel i c o); [rewrite Ri; assumption|rewrite Ri; assumption|exact (L2 o c eq_refl D C)]). rewrite X. cbn [obind]. destruct (find_sig _ _ _); eauto.
Qed.
Lemma dedup_total : forall fuel order done st, inv done st -> NoDup order -> (forall i, In i order -> ~ In i done) ->
  (forall i o c s, In i order -> G i = Some o -> (c = true -> o_decl o = false) -> sg G c i s -> (String.length s < fuel)%nat) -> exists st', dedup fuel G parent st order = Ok st'.
Proof.
  intros fuel order. induction order as [|i order IH]; intros done st I N D L; cbn [dedup]; [eauto|]. inversion N as [|? ? Ni N']; subst.
  destruct (dedup1_total fuel done st i I (D i (or_introl eq_refl))) as [st1 E1]; [intros o s Go S; apply (L i o false s (or_introl eq_refl) Go); [discriminate|assumption]|intros o s Go D1 S; exact (L i o true s (or_introl eq_refl) Go (fun _ => D1) S)|]. rewrite E1. cbn [obind]. apply (IH (i :: done) st1); try assumption.
  - apply (dedup1_inv fuel done st i); [assumption|apply D; left; reflexivity|assumption].
  - intros j J [->|K]; [contradiction|]. exact (D j (or_intror J) K).
  - intros j o c s J. apply L. right. assumption.
Qed.
Lemma fuel_exists : forall order, exists fuel, forall i o c s, In i order -> G i = Some o -> (c = true -> o_decl o = false) -> sg G c i s -> (String.length s < fuel)%nat.
Proof.
  intros order. induction order as [|i order [n IH]]; [exists O; intros i o c s []|].
  assert (H : exists m, forall o c s, G i = Some o -> (c = true -> o_decl o = false) -> sg G c i s -> (String.length s < m)%nat).
  { destruct (G i) as [o|] eqn:Go; [|exists O; intros; discriminate]. destruct (sg_exists G GO i o Go) as [s1 S1].
    assert (X : exists k, forall t, o_decl o = false -> sg G true i t -> (String.length t < k)%nat).
    { destruct (o_decl o) eqn:D; [exists O; intros; discriminate|]. destruct (sg_full_exists G GO i o Go D) as [c C]. exists (Datatypes.S (String.length c)). intros t _ T. rewrite (sg_fun G GO _ _ _ _ T C). lia. }
    destruct X as [k K]. exists (Datatypes.S (String.length s1) + k)%nat. intros o' c s E D T. injection E as <-. destruct c; [specialize (K s (D eq_refl) T); lia|]. rewrite (sg_fun G GO _ _ _ _ T S1). lia. }
  destruct H as [m M]. exists (n + m)%nat. intros j o c s [<-|J] Go D T; [specialize (M o c s Go D T)|specialize (IH j o c s J Go D T)]; lia.
Qed.

(** ** The result *)
Theorem dedup_ok : forall fuel order st, NoDup order -> dedup fuel G parent index0 order = Ok st ->
  (forall i a, In i order -> G i = Some a ->
     (i_rep st i = i /\ i_dup st (parent i) = true) \/
     (In (i_rep st i) (i_db st) /\ exists b, G (i_rep st i) = Some b /\ o_decl b = o_decl a /\ o_name b = o_name a /\ same_kind (o_body a) (o_body b) /\ (o_decl a = false -> alike (same_text G) a b))) /\
  (forall r, In r (i_db st) -> In r order /\ i_rep st r = r /\ i_dup st r = false /\ G r <> None) /\ NoDup (i_db st) /\
  (forall r q a b, In r (i_db st) -> In q (i_db st) -> r <> q -> G r = Some a -> G q = Some b -> o_decl a = o_decl b -> o_name a = o_name b -> same_kind (o_body a) (o_body b) ->
     o_decl a = false /\ ~ alike (same_text G) a b) /\
  (forall i, i_dup st i = true -> G i <> None).
Proof.
  intros fuel order st N E. assert (I : inv (rev order ++ []) st) by (apply (dedup_inv fuel order [] index0); [exact inv0|assumption|intros i _ []|assumption]). rewrite app_nil_r in I. split; [|split; [|split; [|split]]].
  - intros i a Oi Ga. apply in_rev in Oi. destruct (in_done _ _ I i a Oi Ga) as [[A [_ B]]|[A [b [h [Gb [D [S1 [S2 C]]]]]]]]; [left; auto|]. right. split; [assumption|]. exists b. split; [assumption|]. split; [assumption|].
    destruct (same_text_titled G _ _ (sg_same_text G GO _ _ h S1 S2)) as [a' [b' [Ga' [Gb' [Nm [K _]]]]]]. rewrite Ga in Ga'. injection Ga' as <-. rewrite Gb in Gb'. injection Gb' as <-. split; [congruence|]. split; [assumption|].
    intros Da. destruct (C Da) as [c [C1 C2]]. destruct (full_alike G GO _ _ h c S1 S2 C1 C2) as [a' [b' [Ga' [Gb' [_ Al]]]]]. rewrite Ga in Ga'. injection Ga' as <-. rewrite Gb in Gb'. injection Gb' as <-. assumption.
  - intros r R. assert (K : exists d h o, known st (rev order) d h r o) by (destruct (in_db _ _ I r R) as [[h X]|[h [c X]]]; [destruct (in_headers _ _ I _ _ X) as [o K]|destruct (in_sigs _ _ I _ _ _ X) as [o [K _]]]; eauto).
    destruct K as [d [h [o K]]]. split; [apply in_rev; exact (kn_done _ _ _ _ _ _ K)|]. split; [exact (kn_rep _ _ _ _ _ _ K)|]. split; [exact (kn_dup _ _ _ _ _ _ K)|]. rewrite (kn_obj _ _ _ _ _ _ K). discriminate.
  - exact (in_nodup _ _ I).
  - intros r q a b R Q Ne Ga Gb D Nm K.
    assert (Uh : forall A (l : list (A * nat)) h x y, NoDup (map fst l) -> In (h, x) l -> In (h, y) l -> x = y).
    { clear. intros A l h x y N. induction l as [|[k z] l IH]; [intros []|]. cbn in N. inversion N as [|? ? Nk N']; subst. intros [X|X] [Y|Y]; [congruence| | |auto].
      - injection X as -> ->. destruct Nk. apply in_map_iff. exists (h, y). auto.
      - injection Y as -> ->. destruct Nk. apply in_map_iff. exists (h, x). auto. }
    assert (St : forall h, sg G false r h -> sg G false q h -> same_text G r q) by (intros h; apply sg_same_text; assumption).
    destruct (in_db _ _ I r R) as [[h X]|[h [c X]]].
    + exfalso. destruct (in_headers _ _ I _ _ X) as [o Kr]. pose proof (kn_obj _ _ _ _ _ _ Kr) as Or. rewrite Ga in Or. injection Or as <-. pose proof (kn_decl _ _ _ _ _ _ Kr) as Da.
      destruct (in_db _ _ I q Q) as [[h' X']|[h' [c' X']]]; [|destruct (in_sigs _ _ I _ _ _ X') as [o' [Kq _]]; pose proof (kn_obj _ _ _ _ _ _ Kq) as Oq; rewrite Gb in Oq; injection Oq as <-; pose proof (kn_decl _ _ _ _ _ _ Kq); congruence].
      destruct (in_headers _ _ I _ _ X') as [o' Kq]. assert (Hn : o_name a <> None) by exact (ok_decl _ _ (gok G GO _ _ Ga) Da). destruct (o_name a) as [n|] eqn:Na; [|destruct Hn; reflexivity].
      assert (S : same_text G r q) by exact (st_named G r q a b n Ga Gb Na (eq_sym Nm) K). pose proof (same_text_sg G GO r q h S (kn_sig _ _ _ _ _ _ Kr)) as Sq. rewrite <- (sg_fun G GO _ _ _ _ Sq (kn_sig _ _ _ _ _ _ Kq)) in X'. exact (Ne (Uh _ _ _ _ _ (in_keys1 _ _ I) X X')).
    + destruct (in_sigs _ _ I _ _ _ X) as [o [Kr Kc]]. pose proof (kn_obj _ _ _ _ _ _ Kr) as Or. rewrite Ga in Or. injection Or as <-. pose proof (kn_decl _ _ _ _ _ _ Kr) as Da. split; [assumption|]. intros Al.
      destruct (in_db _ _ I q Q) as [[h' X']|[h' [c' X']]]; [destruct (in_headers _ _ I _ _ X') as [o' Kq]; pose proof (kn_obj _ _ _ _ _ _ Kq) as Oq; rewrite Gb in Oq; injection Oq as <-; pose proof (kn_decl _ _ _ _ _ _ Kq); congruence|].
      destruct (in_sigs _ _ I _ _ _ X') as [o' [Kq Kc']]. assert (S : same_text G r q).
      { destruct (o_name a) as [n|] eqn:Na; [exact (st_named G r q a b n Ga Gb Na (eq_sym Nm) K)|exact (st_plain G r q a b Ga Gb Na (eq_sym Nm) Al)]. }
      pose proof (same_text_sg G GO r q h S (kn_sig _ _ _ _ _ _ Kr)) as Sq. pose proof (alike_full G GO r q a b c Ga Gb Nm (eq_trans (eq_sym D) Da) Al Kc) as Cq.
      rewrite <- (sg_fun G GO _ _ _ _ Sq (kn_sig _ _ _ _ _ _ Kq)), <- (sg_fun G GO _ _ _ _ Cq Kc') in X'. exact (Ne (Uh _ _ _ _ _ (in_keys2 _ _ I) X X')).
  - intros i D Gn. pose proof (proj2 (in_other _ _ I i Gn)). congruence.
Qed.
Theorem dedup_goes : forall order, NoDup order -> exists fuel st, dedup fuel G parent index0 order = Ok st.
Proof.
  intros order N. destruct (fuel_exists order) as [fuel F]. exists fuel. apply (dedup_total fuel order [] index0); [exact inv0|assumption|intros i _ []|assumption].
Qed.

(** ** The meaning of the links of the database *)
Definition sametitle (i r : nat) : Prop := exists s, sg G false i s /\ sg G false r s.
Lemma kept_alike : forall i r a b, one_definition G -> G i = Some a -> G r = Some b -> sametitle i r -> o_name a = o_name b /\ same_kind (o_body a) (o_body b) /\ (o_decl a = false -> o_decl b = false -> alike sametitle a b).
Proof.
  intros i r a b One Ga Gb [s [Si Sr]]. pose proof (sg_same_text G GO i r s Si Sr) as T.
  destruct (same_text_titled G _ _ T) as [a' [b' [Ga' [Gb' [Nm [K P]]]]]]. rewrite Ga in Ga'. injection Ga' as <-. rewrite Gb in Gb'. injection Gb' as <-. split; [assumption|]. split; [assumption|]. intros Da Db.
  assert (St : forall R : nat -> nat -> Prop, (forall x y t, R x y -> sg G false x t -> sg G false y t) -> alike R a b -> alike sametitle a b).
  { intros R H. apply alike_mono. intros x y Ix Iy Rxy. destruct (G x) as [p|] eqn:Gx; [|destruct (ok_links _ _ (gok G GO _ _ Ga) x (visited_links a x Ix) Gx)]. destruct (sg_exists G GO x p Gx) as [t X]. exists t. split; [assumption|exact (H x y t Rxy X)]. }
  destruct (o_name a) as [n|] eqn:Na.
  - destruct (One i r a b n Ga Gb Da Db Na (eq_sym Nm) K) as [Q [Kp Qi]]. destruct (Kp i r Qi) as [a' [b' [Ga' [Gb' [_ [_ Al]]]]]]. rewrite Ga in Ga'. injection Ga' as <-. rewrite Gb in Gb'. injection Gb' as <-. specialize (Al Da Db).
    apply (St Q); [|assumption]. intros x y t Qxy. apply (agree_sg G GO). exists Q. auto.
  - apply (St (same_text G)); [intros x y t; apply (same_text_sg G GO)|exact (P eq_refl)].
Qed.
Lemma linked_map : forall (R Q : nat -> nat -> Prop) rep t u, (forall x y, In y (olist u) -> R x y -> Q x (rep y)) -> linked R t u -> linked Q t (option_map rep u).
Proof. intros R Q rep t u M H. destruct H as [|i j H]; cbn; constructor. apply M; [left; reflexivity|assumption]. Qed.
Lemma alike_relink : forall (R Q : nat -> nat -> Prop) rep a b, (forall x y, In y (visited b) -> R x y -> Q x (rep y)) -> alike R a b -> alike Q a (relink rep b).
Proof.
  intros R Q rep a b M H. destruct H as [e A B E|l A B E1 E2|q t u A B K|t u A B K|t u A B K|A B|r t u A B K|ps t qs u A B Ps K|t u s l c v A B K|g fs hs gs ks A B E1 E2 F H]; unfold visited in M; rewrite B in M.
  - apply (al_base _ a _ e A); [cbn; rewrite B; reflexivity|assumption].
  - apply (al_enum _ a _ l A); [cbn; rewrite B; reflexivity|assumption|assumption].
  - apply (al_qual _ a _ q t (option_map rep u) A); [cbn; rewrite B; reflexivity|apply (linked_map R); assumption].
  - apply (al_typedef _ a _ t (option_map rep u) A); [cbn; rewrite B; reflexivity|apply (linked_map R); assumption].
  - apply (al_pointer _ a _ t (option_map rep u) A); [cbn; rewrite B; reflexivity|apply (linked_map R); assumption].
  - apply (al_unspec _ a _ A). cbn. rewrite B. reflexivity.
  - apply (al_ref _ a _ r t (option_map rep u) A); [cbn; rewrite B; reflexivity|apply (linked_map R); assumption].
  - apply (al_sub _ a _ ps t (map (relink_param rep) qs) (option_map rep u) A); [cbn; rewrite B; reflexivity| |apply (linked_map R); [intros x y Y; apply M; apply in_or_app; auto|assumption]].
    assert (M' : forall x y, In y (flat_map pvisit qs) -> R x y -> Q x (rep y)) by (intros x y Y; apply M; apply in_or_app; auto). clear - M' Ps.
    induction Ps as [|p q ps qs P Ps IH]; cbn; constructor; [|apply IH; intros x y Y; apply M'; cbn; apply in_or_app; auto].
    destruct P as [P1 P2|P1 P2 P3]; [apply pa_dots; assumption|]. apply pa_type; [assumption|assumption|]. cbn. apply (linked_map R); [|assumption]. intros x y Y. apply M'. cbn. apply in_or_app. left. unfold pvisit. destruct (a_unspec q) as [[]|]; [destruct P2; reflexivity|assumption|assumption].
  - apply (al_array _ a _ t (option_map rep u) s l c v A); [cbn; rewrite B; reflexivity|apply (linked_map R); assumption].
  - apply (al_struct _ a _ g fs hs (map (relink_field rep) gs) (map (option_map rep) ks) A); [cbn; rewrite B; reflexivity|assumption|assumption| |].
    + assert (M' : forall x y, In y (flat_map (fun d => olist (f_type d)) gs) -> R x y -> Q x (rep y)) by (intros x y Y; apply M; apply in_or_app; auto). clear - M' F.
      induction F as [|p q ps qs P Ps IH]; cbn; constructor; [|apply IH; intros x y Y; apply M'; cbn; apply in_or_app; auto]. destruct P as [P1 P2 P3 P4 P5 P6 P7]. constructor; cbn; try assumption. apply (linked_map R); [|assumption]. intros x y Y. apply M'. cbn. apply in_or_app. auto.
    + intros Ne. specialize (H Ne). assert (Ng : gs <> []) by (intros ->; inversion F; subst; apply Ne; reflexivity).
      assert (M' : forall x y, In y (flat_map olist ks) -> R x y -> Q x (rep y)) by (intros x y Y; apply M; apply in_or_app; right; destruct gs; [destruct Ng; reflexivity|assumption]). clear - M' H.
      induction H as [|t u hs ks K H IH]; cbn; constructor; [|apply IH; intros x y Y; apply M'; cbn; apply in_or_app; auto]. apply (linked_map R); [|assumption]. intros x y Y. apply M'. cbn. apply in_or_app. auto.
Qed.
Theorem dedup_agrees : forall fuel order st, one_definition G -> nested_alone G parent -> NoDup order -> (forall i, G i <> None -> In i order) -> dedup fuel G parent index0 order = Ok st ->
  forall i, G i <> None -> (i_dup st (parent i) = false \/ In (i_rep st i) (i_db st)) -> agree G (db_graph G st) i (i_rep st i).
Proof.
  intros fuel order st One Nest N All E. assert (I : inv (rev order ++ []) st) by (apply (dedup_inv fuel order [] index0); [exact inv0|assumption|intros i _ []|assumption]). rewrite app_nil_r in I.
  pose proof (inv_faithful _ _ I) as Fa. destruct (dedup_ok fuel order st N E) as [P1 [P2 [_ [_ P5]]]].
  assert (Db : forall i, G i <> None -> (i_dup st (parent i) = false \/ In (i_rep st i) (i_db st)) -> In (i_rep st i) (i_db st)).
  { intros i Gi [D|D]; [|assumption]. destruct (G i) as [a|] eqn:Ga; [|destruct Gi; reflexivity]. destruct (P1 i a (All i ltac:(congruence)) Ga) as [[_ X]|[X _]]; [congruence|assumption]. }
  assert (Kp : kept G (db_graph G st) (fun i r => In r (i_db st) /\ sametitle i r)).
  { intros i r [R T]. destruct (P2 r R) as [_ [_ [Dr Gr]]]. destruct T as [s [Si Sr]].
    assert (Gi : exists a, G i = Some a) by (destruct Si as [n Sn]; destruct n; [discriminate|]; cbn in Sn; unfold same in Sn; destruct (G i); [eauto|discriminate]). destruct Gi as [a Ga].
    destruct (G r) as [b|] eqn:Gb; [|destruct Gr; reflexivity]. destruct (kept_alike i r a b One Ga Gb (ex_intro _ s (conj Si Sr))) as [Nm [K Al]].
    exists a, (relink (i_rep st) b). split; [assumption|]. split; [unfold db_graph; rewrite Gb; assert (X : existsb (Nat.eqb r) (i_db st) = true) by (apply existsb_exists; exists r; split; [assumption|apply Nat.eqb_refl]); rewrite X; reflexivity|].
    split; [assumption|]. split; [cbn; destruct K; constructor|]. cbn [o_decl relink]. intros Da Dbb. specialize (Al Da Dbb). revert Al. apply alike_relink. intros x y Iy [t [Tx Ty]]. pose proof (visited_links b y Iy) as Ly.
    assert (Gy : G y <> None) by exact (ok_links _ _ (gok G GO _ _ Gb) y Ly). split.
    - apply Db; [assumption|]. left. destruct (Nest r b y Gb Ly) as [X|X]; [|rewrite X; assumption]. destruct (i_dup st (parent y)) eqn:Dp; [destruct (P5 _ Dp X)|reflexivity].
    - destruct (G y) as [c|] eqn:Gc; [|destruct Gy; reflexivity]. destruct (Fa y c Gc) as [u [U1 U2]]. exists t. split; [assumption|]. rewrite (sg_fun G GO _ _ _ _ Ty U1). assumption. }
  intros i Gi D. eexists. split; [exact Kp|]. split; [apply Db; assumption|]. destruct (G i) as [a|] eqn:Ga; [|destruct Gi; reflexivity]. destruct (Fa i a Ga) as [u [U1 U2]]. exists u. auto.
Qed.
End Loop.
