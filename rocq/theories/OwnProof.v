(** Ownership of memory maps (C64): heaps, trees of entries, deletion. *)
From Coq Require Import ZArith List Bool Lia Permutation.
From Verif Require Import Base OwnModel OwnSpec.
Import ListNotations.
Open Scope Z_scope.
Notation blk := h_blk.

Lemma upd_same : forall f p b, upd f p b p = b.
Proof. intros. unfold upd. rewrite Nat.eqb_refl. reflexivity. Qed.
Lemma upd_other : forall f p b q, q <> p -> upd f p b q = f q.
Proof. intros. unfold upd. apply Nat.eqb_neq in H. rewrite H. reflexivity. Qed.
Lemma eqb0 : forall p, p <> 0%nat -> Nat.eqb p 0 = false.
Proof. intros. apply Nat.eqb_neq. assumption. Qed.
Lemma nodup_disj : forall {A} (a b : list A) x, NoDup (a ++ b) -> In x a -> In x b -> False.
Proof.
  intros A a b x D I J. induction a as [|y a IH]; [contradiction|]. cbn in D. inversion D; subst. destruct I as [->|I]; [|auto]. apply H1. apply in_app_iff. auto.
Qed.
Lemma nodup_left : forall {A} (a b : list A), NoDup (a ++ b) -> NoDup a.
Proof.
  intros A a b D. induction a as [|y a IH]; [constructor|]. cbn in D. inversion D; subst. constructor; [|auto]. intros I. apply H1. apply in_app_iff. auto.
Qed.
Lemma nodup_right : forall {A} (a b : list A), NoDup (a ++ b) -> NoDup b.
Proof. intros A a b D. induction a as [|y a IH]; [assumption|]. cbn in D. inversion D; subst. auto. Qed.
Lemma nodup_join : forall {A} (a b : list A), NoDup a -> NoDup b -> (forall x, In x a -> In x b -> False) -> NoDup (a ++ b).
Proof.
  intros A a b Da Db X. induction Da as [|y a N D IH]; [assumption|]. cbn. constructor.
  - rewrite in_app_iff. intros [I|I]; [auto|]. apply (X y); [left; reflexivity|assumption].
  - apply IH. intros x I J. apply (X x); [right; assumption|assumption].
Qed.

(** * Growing heaps *)
(** [h'] is [h] with the new blocks [L]; the block of the hash map may differ *)
Record step (hash : ptr) (h h' : heap) (L : list ptr) : Prop := {
  s_ok : h_ok h' = h_ok h;
  s_next : (h_next h <= h_next h')%nat;
  s_nodup : NoDup L;
  s_new : forall q, In q L -> (h_next h <= q < h_next h')%nat /\ blk h' q <> None;
  s_same : forall q, ~ In q L -> (q = hash -> hash = 0%nat) -> blk h' q = blk h q }.
Definition holds (h : heap) (hash : ptr) (l : list (Z * ptr)) : Prop := hash <> 0%nat -> blk h hash = Some (BHash l).
Definition agree (h h' : heap) (K : list ptr) : Prop := forall q, In q K -> blk h' q = blk h q.
(** blocks released *)
Record gone (h h' : heap) (L : list ptr) : Prop := {
  go_ok : h_ok h' = h_ok h;
  go_next : (h_next h <= h_next h')%nat;
  go_in : forall q, In q L -> blk h' q = None;
  go_out : forall q, ~ In q L -> blk h' q = blk h q }.

Lemma step_refl : forall hash h, step hash h h [].
Proof. intros. constructor; auto; [constructor|intros q []]. Qed.
Lemma step_perm : forall hash h h' L L', step hash h h' L -> Permutation L L' -> step hash h h' L'.
Proof.
  intros hash h h' L L' [A B C D E] P. constructor; auto.
  - eapply Permutation_NoDup; eassumption.
  - intros q Q. apply D. eapply Permutation_in; [symmetry; eassumption|assumption].
  - intros q Q. apply E. intros X. apply Q. eapply Permutation_in; eassumption.
Qed.
Lemma sane_hash : forall h hash l, sane h -> holds h hash l -> (hash < h_next h)%nat.
Proof.
  intros h hash l [S1 [S2 S3]] H. destruct (Nat.eq_dec hash 0) as [->|N]; [assumption|]. destruct (Nat.lt_ge_cases hash (h_next h)) as [X|X]; [assumption|]. specialize (H N). rewrite S2 in H by assumption. discriminate.
Qed.
Lemma step_sane : forall hash h h' L l, sane h -> holds h hash l -> step hash h h' L -> sane h'.
Proof.
  intros hash h h' L l S H [A B C D E]. pose proof (sane_hash _ _ _ S H) as Lt. destruct S as [S1 [S2 S3]]. split; [lia|]. split.
  - intros q Q. rewrite E; [apply S2; lia| |]. { intros X. apply D in X. lia. } { intros ->. lia. }
  - rewrite E; [assumption| |]. { intros X. apply D in X. lia. } { intros <-. reflexivity. }
Qed.
Lemma step_trans : forall hash h h1 h2 L L' l, sane h -> holds h hash l -> step hash h h1 L -> step hash h1 h2 L' -> step hash h h2 (L ++ L').
Proof.
  intros hash h h1 h2 L L' l S H S1 S2. pose proof (step_sane _ _ _ _ _ S H S1) as Sa. pose proof (sane_hash _ _ _ S H) as Lt. destruct S1 as [A B C D E], S2 as [A2 B2 C2 D2 E2]. constructor; [congruence|lia| | |].
  - apply nodup_join; auto. intros x I J. apply D in I. apply D2 in J. lia.
  - intros q Q. apply in_app_iff in Q. destruct Q as [Q|Q]; [|apply D2 in Q; split; [lia|tauto]].
    destruct (D q Q) as [D1 Dn]. split; [lia|]. rewrite E2; [assumption| |]. { intros X. apply D2 in X. lia. } { intros ->. lia. }
  - intros q Q X. rewrite in_app_iff in Q. rewrite E2, E by tauto. reflexivity.
Qed.
Lemma step_gone : forall hash h h1 h2 L G L' l, sane h -> holds h hash l -> step hash h h1 L -> gone h1 h2 G -> Permutation L (G ++ L') -> step hash h h2 L'.
Proof.
  intros hash h h1 h2 L G L' l S H S1 [A2 B2 C2 D2] P. pose proof (step_perm _ _ _ _ _ S1 P) as S2. clear S1. destruct S2 as [A B C D E]. constructor; [congruence|lia|exact (nodup_right _ _ C)| |].
  - intros q Q. assert (I : In q (G ++ L')) by (apply in_app_iff; auto). destruct (D q I) as [D1 D3]. split; [lia|]. rewrite D2; [assumption|]. intros X. exact (nodup_disj _ _ _ C X Q).
  - intros q Q X. destruct (in_dec Nat.eq_dec q G) as [I|I].
    + rewrite C2 by assumption. assert (J : In q (G ++ L')) by (apply in_app_iff; auto). apply D in J. symmetry. destruct S as [_ [S2 _]]. apply S2. lia.
    + rewrite D2 by assumption. apply E; [|assumption]. rewrite in_app_iff. tauto.
Qed.
Lemma step_write : forall hash h h' L p b, step hash h h' L -> In p L -> step hash h (write h' p b) L.
Proof.
  intros hash h h' L p b [A B C D E] I. constructor; auto; cbn.
  - intros q Q. destruct (D q Q) as [D1 D2]. split; [assumption|]. destruct (Nat.eq_dec q p) as [->|N]; [rewrite upd_same; discriminate|]. rewrite upd_other; assumption.
  - intros q Q X. rewrite upd_other; [auto|]. intros ->. contradiction.
Qed.
Lemma step_tick : forall hash h k ok h', tick h k = (ok, h') -> step hash h h' [].
Proof. intros hash h k ok h' E. injection E as _ <-. constructor; cbn; auto; [constructor|intros q []]. Qed.
Lemma step_alloc : forall hash h k b p h', sane h -> alloc h k b = (p, h') ->
  (h_ok h k (h_next h) = true /\ p <> 0%nat /\ blk h' p = Some b /\ step hash h h' [p]) \/ (h_ok h k (h_next h) = false /\ p = 0%nat /\ step hash h h' []).
Proof.
  intros hash h k b p h' [S1 [S2 S3]] E. unfold alloc in E. destruct (h_ok h k (h_next h)); injection E as <- <-.
  - left. split; [reflexivity|]. split; [lia|]. split; [apply upd_same|]. constructor; cbn; auto.
    + repeat constructor. intros [].
    + intros q [<-|[]]. split; [lia|]. rewrite upd_same. discriminate.
    + intros q Q _. apply upd_other. intros ->. apply Q. left. reflexivity.
  - right. split; [reflexivity|]. split; [reflexivity|]. constructor; cbn; auto; [constructor|intros q []].
Qed.
Lemma step_agree : forall hash h h' L K l, sane h -> holds h hash l -> step hash h h' L -> (forall q, In q K -> blk h q <> None) -> (hash <> 0%nat -> ~ In hash K) -> agree h h' K.
Proof.
  intros hash h h' L K l [S1 [S2 S3]] H [A B C D E] X N q Q. apply E.
  - intros I. apply D in I. apply (X q Q). apply S2. lia.
  - intros ->. destruct (Nat.eq_dec hash 0); [assumption|]. exfalso. apply N; assumption.
Qed.
Lemma free_gone : forall h p, p <> 0%nat -> blk h p <> None -> exists h', free h p = Ret h' /\ gone h h' [p].
Proof.
  intros h p N B. unfold free. destruct p as [|p]; [congruence|]. destruct (blk h (S p)) eqn:E; [|congruence]. eexists. split; [reflexivity|]. constructor; cbn [h_next h_ok h_blk]; auto.
  - intros q [<-|[]]. apply upd_same.
  - intros q Q. apply upd_other. intros ->. apply Q. left. reflexivity.
Qed.
Lemma gone_nil : forall h, gone h h [].
Proof. intros h. constructor; auto. intros q []. Qed.
Lemma gone_app : forall h h1 h2 L L', gone h h1 L -> gone h1 h2 L' -> gone h h2 (L ++ L').
Proof.
  intros h h1 h2 L L' [O1 N1 I1 E1] [O2 N2 I2 E2]. constructor; try congruence; try lia.
  - intros q Q. apply in_app_iff in Q. destruct (in_dec Nat.eq_dec q L') as [X|X]; [auto|]. rewrite E2 by assumption. destruct Q; [auto|contradiction].
  - intros q Q. rewrite in_app_iff in Q. rewrite E2, E1 by tauto. reflexivity.
Qed.
Lemma gone_perm : forall h h' L L', gone h h' L -> Permutation L L' -> gone h h' L'.
Proof.
  intros h h' L L' [O N I E] P. constructor; auto.
  - intros q Q. apply I. eapply Permutation_in; [symmetry; eassumption|assumption].
  - intros q Q. apply E. intros X. apply Q. eapply Permutation_in; eassumption.
Qed.
Lemma gone_agree : forall h h' L K, gone h h' L -> (forall x, In x K -> In x L -> False) -> agree h h' K.
Proof. intros h h' L K G D q Q. apply (go_out _ _ _ G). intros X. exact (D _ Q X). Qed.
Lemma gone_tick : forall h k ok h', tick h k = (ok, h') -> gone h h' [].
Proof. intros h k ok h' E. injection E as _ <-. constructor; cbn; auto. intros q []. Qed.
Lemma gone_sane : forall h h' L, sane h -> gone h h' L -> sane h'.
Proof.
  intros h h' L [S1 [S2 S3]] [O N I E]. split; [lia|]. split.
  - intros q Q. destruct (in_dec Nat.eq_dec q L); [auto|]. rewrite E by assumption. apply S2. lia.
  - destruct (in_dec Nat.eq_dec 0%nat L); [auto|]. rewrite E by assumption. assumption.
Qed.

(** * Trees of entries *)
(** [own h r v L]: at [r] an entry of the value [v] (which is not in [L]) with everything below, in the blocks [L]; children may be missing *)
Inductive own (h : heap) : ptr -> ptr -> list ptr -> Prop :=
| ow_leaf r v s : r <> 0%nat -> blk h r = Some (BEntry v s 0 0%nat) -> own h r v [r]
| ow_node r v s n k l L : r <> 0%nat -> blk h r = Some (BEntry v s n k) -> n <> 0%nat -> k <> 0%nat -> blk h k = Some (BKids l) -> length l = n -> owns h l L ->
    own h r v (r :: k :: L)
with owns (h : heap) : list ptr -> list ptr -> Prop :=
| os_nil : owns h [] []
| os_null l L : owns h l L -> owns h (0%nat :: l) L
| os_cons r v L l L' : v <> 0%nat -> blk h v = Some BVal -> own h r v L -> owns h l L' -> owns h (r :: l) (v :: L ++ L').
Scheme own_mind := Induction for own Sort Prop with owns_mind := Induction for owns Sort Prop.
Combined Scheme own_both from own_mind, owns_mind.
Lemma own_frames : (forall h r v L, own h r v L -> forall h', agree h h' L -> own h' r v L) /\ (forall h l L, owns h l L -> forall h', agree h h' L -> owns h' l L).
Proof.
  assert (X : forall h, (forall r v L, own h r v L -> forall h', agree h h' L -> own h' r v L) /\ (forall l L, owns h l L -> forall h', agree h h' L -> owns h' l L)).
  { intros h. apply (own_both h (fun r v L _ => forall h', agree h h' L -> own h' r v L) (fun l L _ => forall h', agree h h' L -> owns h' l L)).
    - intros r v s N B h' A. econstructor; [assumption|]. rewrite A; [eassumption|left; reflexivity].
    - intros r v s n k l L N B Nn Nk Bk Le O IH h' A. apply (ow_node h' r v s n k l L); auto.
      + rewrite A; [assumption|left; reflexivity].
      + rewrite A; [assumption|right; left; reflexivity].
      + apply IH. intros q Q. apply A. right. right. assumption.
    - constructor.
    - intros l L O IH h' A. constructor. auto.
    - intros r v L l L' N B O IH O' IH' h' A. constructor; auto.
      + rewrite A; [assumption|left; reflexivity].
      + apply IH. intros q Q. apply A. right. apply in_app_iff. auto.
      + apply IH'. intros q Q. apply A. right. apply in_app_iff. auto. }
  split; intros h; apply (X h).
Qed.
Definition tree_block (b : option block) : Prop := match b with Some BVal | Some (BEntry _ _ _ _) | Some (BKids _) => True | _ => False end.
Lemma own_kinds : forall h, (forall r v L, own h r v L -> forall q, In q L -> tree_block (blk h q)) /\ (forall l L, owns h l L -> forall q, In q L -> tree_block (blk h q)).
Proof.
  intros h. apply (own_both h (fun r v L _ => forall q, In q L -> tree_block (blk h q)) (fun l L _ => forall q, In q L -> tree_block (blk h q))).
  - intros r v s N B q [<-|[]]. rewrite B. exact I.
  - intros r v s n k l L N B Nn Nk Bk Le O IH q [<-|[<-|Q]]; [rewrite B; exact I|rewrite Bk; exact I|auto].
  - intros q [].
  - intros l L O IH. exact IH.
  - intros r v L l L' N B O IH O' IH' q [<-|Q]; [rewrite B; exact I|]. apply in_app_iff in Q. destruct Q; auto.
Qed.
Lemma tree_live : forall b, tree_block b -> b <> None.
Proof. intros [b|] H; [discriminate|contradiction]. Qed.
Lemma tree_hash : forall h hash l K, holds h hash l -> (forall q, In q K -> tree_block (blk h q)) -> hash <> 0%nat -> ~ In hash K.
Proof. intros h hash l K H X N I. specialize (X _ I). rewrite (H N) in X. exact X. Qed.
Lemma own_entry : forall h r v L, own h r v L -> r <> 0%nat /\ exists s n k, blk h r = Some (BEntry v s n k).
Proof. intros h r v L []; split; eauto. Qed.
Lemma own_head : forall h r v L, own h r v L -> In r L.
Proof. intros h r v L []; left; reflexivity. Qed.

(** * Deletion *)
Definition itered (h : heap) : Prop := forall n, h_ok h KIter n = true.
Definition vl (v : ptr) : list ptr := if Nat.eqb v 0 then [] else [v].
Lemma queue_all : forall l h, itered h -> exists h', queue_kids h l = (filter (fun p => negb (Nat.eqb p 0)) l, h') /\ gone h h' [].
Proof.
  intros l. induction l as [|p l IH]; intros h It; cbn; [eexists; split; [reflexivity|apply gone_nil]|]. destruct p as [|p]; cbn; [auto|].
  destruct (IH (snd (tick h KIter))) as [h' [E G]]; [exact It|]. cbn in E. rewrite E, It. eexists. split; [reflexivity|].
  apply (gone_app _ (snd (tick h KIter)) _ [] []); [exact (gone_tick h KIter _ _ eq_refl)|assumption].
Qed.
Lemma itered_gone : forall h h' L, itered h -> gone h h' L -> itered h'.
Proof. intros h h' L It G n. rewrite (go_ok _ _ _ G). apply It. Qed.
Lemma in_vl : forall x v, In x (vl v) <-> (x = v /\ v <> 0%nat).
Proof. intros x v. unfold vl. destruct (Nat.eqb v 0) eqn:E; [apply Nat.eqb_eq in E; subst; cbn; tauto|]. apply Nat.eqb_neq in E. cbn. split; [intros [->|[]]; auto|intros [-> _]; auto]. Qed.
Lemma vl_some : forall v, v <> 0%nat -> vl v = [v].
Proof. intros v N. unfold vl. rewrite (eqb0 _ N). reflexivity. Qed.
Lemma delete_tree : forall fuel h r v L, own h r v L -> NoDup (vl v ++ L) -> (v <> 0%nat -> blk h v = Some BVal) -> itered h -> (length L <= fuel)%nat ->
  exists h', delete_rec fuel h r = Ret h' /\ gone h h' (vl v ++ L).
Proof.
  intros fuel. induction fuel as [|f IH]; intros h r v L O D V It Le.
  { exfalso. apply own_head in O. destruct L; [contradiction|cbn in Le; lia]. }
  cbn [delete_rec]. unfold entry_at.
  assert (F : exists h1, (if Nat.eqb v 0 then Ret h else free h v) = Ret h1 /\ gone h h1 (vl v)).
  { unfold vl. destruct (Nat.eqb v 0) eqn:E; [eexists; split; [reflexivity|apply gone_nil]|]. apply Nat.eqb_neq in E. apply free_gone; [assumption|]. rewrite V by assumption. discriminate. }
  destruct F as [h1 [F1 G1]]. pose proof (itered_gone _ _ _ It G1) as It1.
  assert (A1 : agree h h1 L). { eapply gone_agree; [eassumption|]. intros x I J. exact (nodup_disj _ _ _ D J I). }
  assert (O1 : own h1 r v L) by (apply (proj1 own_frames _ _ _ _ O _ A1)). clear A1.
  destruct O as [r v s N B|r v s n k l L N B Nn Nk Bk Len O].
  - rewrite B. cbn [bind]. rewrite F1. cbn [bind]. rewrite Nat.eqb_refl. cbn. destruct (free_gone h1 r N) as [h2 [F2 G2]].
    { destruct (own_entry _ _ _ _ O1) as [_ [? [? [? E]]]]. rewrite E. discriminate. }
    exists h2. split; [assumption|]. eapply gone_app; eassumption.
  - rewrite B. cbn [bind]. rewrite F1. cbn [bind]. rewrite (eqb0 _ Nn). inversion O1 as [|? ? s' n' k' l' L' N' B' Nn' Nk' Bk' Len' O' ]; subst.
    rewrite Bk'. assert (l' = l). { destruct (in_dec Nat.eq_dec k (vl v)) as [I|I]; [exfalso; apply (nodup_disj _ _ _ D I); right; left; reflexivity|]. rewrite (go_out _ _ _ G1 k I), Bk in Bk'. congruence. } subst l'.
    rewrite firstn_all. destruct (queue_all l h1 It1) as [h2 [Q G2]]. rewrite Q. pose proof (itered_gone _ _ _ It1 G2) as It2.
    assert (Dl : NoDup (r :: k :: L)) by (apply nodup_right in D; assumption).
    assert (Sq : exists h3, seq_free (delete_rec f) (filter (fun p => negb (Nat.eqb p 0)) l) h2 = Ret h3 /\ gone h2 h3 L).
    { assert (O2 : owns h2 l L). { apply (proj2 own_frames _ _ _ O'). intros q Qq. apply (go_out _ _ _ G2). intros []. }
      assert (DL : NoDup L) by (inversion Dl as [|? ? ? Z1]; inversion Z1; assumption).
      assert (LeL : (length L <= f)%nat) by (cbn in Le; lia).
      clear -IH O2 DL LeL It2. revert h2 L O2 DL LeL It2. induction l as [|p l IHl]; intros h2 L O2 DL LeL It2; inversion O2 as [|? ? O3|? v L0 ? L' H1 Hb H4 H5]; subst; cbn.
      - exists h2. split; [reflexivity|apply gone_nil].
      - apply IHl; assumption.
      - destruct (own_entry _ _ _ _ H4) as [Np _]. rewrite (eqb0 _ Np). cbn.
        assert (DL' : NoDup ((v :: L0) ++ L')) by exact DL.
        destruct (IH h2 p v L0) as [h3 [E3 G3]]; [assumption|rewrite (vl_some _ H1); exact (nodup_left _ _ DL')|intros _; assumption|assumption|cbn in LeL; rewrite app_length in LeL; lia|].
        rewrite (vl_some _ H1) in G3. cbn in G3. rewrite E3. cbn. destruct (IHl h3 L') as [h4 [E4 G4]].
        + apply (proj2 own_frames _ _ _ H5). eapply gone_agree; [eassumption|]. intros x I J. exact (nodup_disj _ _ _ DL' J I).
        + exact (nodup_right _ _ DL').
        + cbn in LeL. rewrite app_length in LeL. lia.
        + eapply itered_gone; eassumption.
        + exists h4. split; [assumption|]. exact (gone_app _ _ _ _ _ G3 G4). }
    destruct Sq as [h3 [E3 G3]]. rewrite E3. cbn [bind]. pose proof (gone_app _ _ _ _ _ G2 G3) as G4. cbn [app] in G4.
    inversion Dl as [|? ? Nr Dl']; subst. inversion Dl' as [|? ? Nkl _]; subst.
    destruct (free_gone h3 k Nk) as [h4 [F4 G5]]. { rewrite (go_out _ _ _ G4 k) by assumption. rewrite Bk'. discriminate. }
    rewrite F4. cbn [bind]. destruct (free_gone h4 r N) as [h5 [F5 G6]].
    { rewrite (go_out _ _ _ G5 r) by (intros [<-|[]]; apply Nr; left; reflexivity). rewrite (go_out _ _ _ G4 r) by (intros X; apply Nr; right; assumption). rewrite B'. discriminate. }
    exists h5. split; [assumption|]. eapply gone_perm; [eapply gone_app; [exact G1|]; eapply gone_app; [exact G4|]; eapply gone_app; eassumption|].
    apply Permutation_app_head. cbn. rewrite Permutation_app_comm. cbn. apply perm_swap.
Qed.
Lemma live_bound : forall h L, sane h -> NoDup L -> (forall q, In q L -> blk h q <> None) -> (length L <= h_next h)%nat.
Proof.
  intros h L [S1 [S2 S3]] D X. rewrite <- (seq_length (h_next h) 0). apply NoDup_incl_length; [assumption|]. intros q Q. apply in_seq. split; [lia|].
  destruct (Nat.lt_ge_cases q (h_next h)) as [Y|Y]; [lia|]. exfalso. apply (X q Q). apply S2. assumption.
Qed.
Lemma entry_gone : forall h r v L, own h r v L -> NoDup (vl v ++ L) -> (v <> 0%nat -> blk h v = Some BVal) -> itered h -> sane h ->
  exists h', entry_delete h r = Ret h' /\ gone h h' (vl v ++ L).
Proof.
  intros h r v L O D V It Sa. unfold entry_delete. destruct (own_entry _ _ _ _ O) as [N _]. rewrite (eqb0 _ N). cbn. rewrite It.
  pose proof (gone_tick h KIter _ _ eq_refl) as G. set (h1 := Build_heap (S (h_next h)) (h_ok h) (h_blk h)) in *.
  destruct (delete_tree (S (h_next h)) h1 r v L) as [h2 [E G2]]; auto.
  - apply (proj1 own_frames _ _ _ _ O). intros q _. reflexivity.
  - pose proof (live_bound h L Sa (nodup_right _ _ D)) as Lb. assert (length L <= h_next h)%nat; [|lia]. apply Lb. intros q Q. apply tree_live. exact (proj1 (own_kinds h) _ _ _ O q Q).
  - exists h2. split; [exact E|]. exact (gone_app _ _ _ _ _ G G2).
Qed.
