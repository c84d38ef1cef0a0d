(** Ownership of memory maps (C64): construction. *)
From Coq Require Import ZArith List Bool Lia Permutation.
From Verif Require Import Base OwnModel OwnSpec OwnProof.
Import ListNotations.
Open Scope Z_scope.

Section Plan_ind.
Variable P : plan -> Prop.
Hypothesis HR : P Refused.
Hypothesis HL : forall s, P (Leaf s).
Hypothesis HP : forall s t l c, Forall P l -> P (Parts s t l c).
Hypothesis HQ : forall s t k p, P p -> P (Pointer s t k p).
Fixpoint plan_ind' (p : plan) : P p :=
  match p with
  | Refused => HR
  | Leaf s => HL s
  | Parts s t l c => HP s t l c ((fix go (l : list plan) : Forall P l := match l with [] => Forall_nil P | x :: r => Forall_cons x (plan_ind' x) (go r) end) l)
  | Pointer s t k p => HQ s t k p (plan_ind' p)
  end.
End Plan_ind.

(** where pointers of different parts lead to one address, the earlier part cannot fail *)
Inductive apart (ok : kind -> nat -> bool) : plan -> Prop :=
| ap_refused : apart ok Refused
| ap_leaf s : apart ok (Leaf s)
| ap_parts s t l c : Forall (apart ok) l -> ForallOrdPairs (fun a b => (forall k, In k (keys a) -> In k (keys b) -> False) \/ (accepted a /\ plenty ok)) l -> apart ok (Parts s t l c)
| ap_pointer s t k p : apart ok p -> apart ok (Pointer s t k p).

Definition live_entry (h : heap) (e : ptr) : Prop := exists v s n c, blk h e = Some (BEntry v s n c).
Definition safe (h : heap) (hash : ptr) (l : list (Z * ptr)) (ks : list Z) : Prop := hash <> 0%nat -> forall k e, In k ks -> find l k = Some e -> live_entry h e.
Definition newer (h : heap) (ks : list Z) (l l' : list (Z * ptr)) (done : Prop) (L : list ptr) : Prop :=
  forall k e, find l' k = Some e -> find l k = Some e \/ (In k ks /\ (done -> In e L /\ live_entry h e)).
Definition outcome (hash : ptr) (p : plan) (v : ptr) (h : heap) (l : list (Z * ptr)) (x : res (ptr * heap)) : Prop :=
  exists r h' L l', x = Ret (r, h') /\ step hash h h' L /\ holds h' hash l' /\ newer h' (keys p) l l' (r <> 0%nat) L /\
    ((r = 0%nat /\ L = []) \/ (own h' r v L /\ S (length L) = weight p /\ accepted p)) /\ (accepted p -> plenty (h_ok h) -> r <> 0%nat).

(** * Small pieces *)
Lemma step_not_hash : forall hash h h' L l, sane h -> holds h hash l -> step hash h h' L -> ~ In hash L.
Proof. intros hash h h' L l Sa H T I. pose proof (sane_hash _ _ _ Sa H). apply (s_new _ _ _ _ T) in I. lia. Qed.
Lemma step_holds : forall hash h h' L l, sane h -> holds h hash l -> step hash h h' L -> blk h' hash = blk h hash -> holds h' hash l.
Proof. intros hash h h' L l Sa H T E N. rewrite E. auto. Qed.
Lemma alloc_other : forall h k b p h', sane h -> alloc h k b = (p, h') -> forall q, q <> p -> blk h' q = blk h q.
Proof. intros h k b p h' Sa E q N. unfold alloc in E. destruct (h_ok h k (h_next h)); injection E as <- <-; [apply upd_other; assumption|reflexivity]. Qed.
Lemma live_less : forall h q, sane h -> blk h q <> None -> (q < h_next h)%nat /\ q <> 0%nat.
Proof.
  intros h q [S1 [S2 S3]] B. split; [destruct (Nat.lt_ge_cases q (h_next h)); [assumption|exfalso; apply B; auto]|]. intros ->. contradiction.
Qed.
Lemma step_live : forall hash h h' L q l, sane h -> holds h hash l -> step hash h h' L -> blk h q <> None -> q <> hash -> blk h' q = blk h q.
Proof.
  intros hash h h' L q l Sa H T B N. apply (s_same _ _ _ _ T); [|contradiction]. intros I. apply (s_new _ _ _ _ T) in I. apply (live_less _ _ Sa) in B. lia.
Qed.
Lemma step_entry : forall hash h h' L e l, sane h -> holds h hash l -> step hash h h' L -> live_entry h e -> live_entry h' e.
Proof.
  intros hash h h' L e l Sa H T [v [s [n [c B]]]]. destruct (Nat.eq_dec e hash) as [->|N].
  - exfalso. assert (Nz : hash <> 0%nat). { intros ->. destruct Sa as [_ [_ S3]]. congruence. } rewrite (H Nz) in B. discriminate.
  - exists v, s, n, c. rewrite (step_live _ _ _ _ _ _ Sa H T); [assumption|congruence|assumption].
Qed.
Lemma new_entry_makes : forall hash h k v size n l, sane h -> holds h hash l -> exists e h' E, new_entry h k v size n = Ret (e, h') /\ step hash h h' E /\ holds h' hash l /\
  ((e = 0%nat /\ E = [] /\ exists i, h_ok h k i = false) \/
   (e <> 0%nat /\ n = 0%nat /\ E = [e] /\ blk h' e = Some (BEntry v size 0 0%nat)) \/
   (exists c, e <> 0%nat /\ n <> 0%nat /\ c <> 0%nat /\ E = [e; c] /\ blk h' e = Some (BEntry v size n c) /\ blk h' c = Some (BKids (repeat 0%nat n)))).
Proof.
  intros hash h k v size n l Sa H. pose proof (sane_hash _ _ _ Sa H) as Hl. unfold new_entry. destruct (alloc h k (BEntry 0%nat 0 0 0%nat)) as [e h1] eqn:A1. pose proof (alloc_other _ _ _ _ _ Sa A1) as O1.
  destruct (step_alloc hash _ _ _ _ _ Sa A1) as [[K1 [N1 [B1 T1]]]|[K1 [-> T1]]].
  - rewrite (eqb0 _ N1). assert (He : hash <> e). { intros <-. apply (step_not_hash _ _ _ _ _ Sa H T1). left. reflexivity. }
    destruct (Nat.eqb n 0) eqn:En.
    + apply Nat.eqb_eq in En. subst n. exists e. eexists. exists [e]. split; [reflexivity|]. split; [apply step_write; [assumption|left; reflexivity]|]. split.
      * intros N. cbn. rewrite upd_other by assumption. rewrite O1 by assumption. auto.
      * right. left. repeat split; auto. cbn. apply upd_same.
    + apply Nat.eqb_neq in En. destruct (alloc h1 k (BKids (repeat 0%nat n))) as [c h2] eqn:A2. assert (H1 : holds h1 hash l) by (intros N; rewrite O1 by assumption; auto).
      pose proof (step_sane _ _ _ _ _ Sa H T1) as Sa1. pose proof (alloc_other _ _ _ _ _ Sa1 A2) as O2.
      destruct (step_alloc hash _ _ _ _ _ Sa1 A2) as [[K2 [N2 [B2 T2]]]|[K2 [-> T2]]].
      * rewrite (eqb0 _ N2). assert (Hc : hash <> c). { intros <-. apply (step_not_hash _ _ _ _ _ Sa1 H1 T2). left. reflexivity. }
        assert (Ne : e <> c). { intros <-. assert (X : blk h1 e <> None) by congruence. apply (live_less _ _ Sa1) in X. assert (I : In e [e]) by (left; reflexivity). apply (s_new _ _ _ _ T2) in I. lia. }
        exists e. eexists. exists [e; c]. split; [reflexivity|]. split; [apply step_write; [exact (step_trans _ _ _ _ _ _ _ Sa H T1 T2)|left; reflexivity]|]. split.
        -- intros N. cbn. rewrite upd_other by assumption. rewrite O2 by assumption. auto.
        -- right. right. exists c. repeat split; auto; cbn; [apply upd_same|]. rewrite upd_other by auto. assumption.
      * cbn [Nat.eqb]. pose proof (step_trans _ _ _ _ _ _ _ Sa H T1 T2) as T3. rewrite app_nil_r in T3.
        destruct (free_gone h2 e N1) as [h3 [F G]]. { rewrite O2 by assumption. congruence. }
        rewrite F. cbn. exists 0%nat, h3, []. split; [reflexivity|]. split; [eapply step_gone; [exact Sa|exact H|exact T3|exact G|reflexivity]|]. split.
        -- intros N. rewrite (go_out _ _ _ G). ++ rewrite O2 by assumption. auto. ++ intros [<-|[]]. congruence.
        -- left. split; [reflexivity|]. split; [reflexivity|]. exists (h_next h1). rewrite <- (s_ok _ _ _ _ T1). assumption.
  - cbn. exists 0%nat, h1, []. split; [reflexivity|]. split; [assumption|]. split.
    + intros N. rewrite O1; [auto|]. congruence.
    + left. eauto.
Qed.
Lemma make_values_ok : forall hash n h l, sane h -> holds h hash l -> itered h -> exists vs all h', make_values n h = (vs, all, h') /\ step hash h h' vs /\ holds h' hash l /\
  Forall (fun v => v <> 0%nat /\ blk h' v = Some BVal) vs /\ (if all then length vs = n else (length vs < n)%nat /\ exists i, h_ok h KVal i = false).
Proof.
  intros hash n. induction n as [|n IH]; intros h l Sa H It; cbn [make_values].
  { exists [], true, h. split; [reflexivity|]. split; [apply step_refl|]. split; [assumption|]. split; [constructor|reflexivity]. }
  destruct (alloc h KVal BVal) as [v h1] eqn:A1. pose proof (alloc_other _ _ _ _ _ Sa A1) as O1. destruct (step_alloc hash _ _ _ _ _ Sa A1) as [[K1 [N1 [B1 T1]]]|[K1 [-> T1]]].
  - rewrite (eqb0 _ N1). destruct (tick h1 KIter) as [ok h2] eqn:Tk. pose proof (step_tick hash _ _ _ _ Tk) as T2.
    assert (He : hash <> v). { intros <-. apply (step_not_hash _ _ _ _ _ Sa H T1). left. reflexivity. }
    assert (H1 : holds h1 hash l) by (intros N; rewrite O1 by assumption; auto). pose proof (step_sane _ _ _ _ _ Sa H T1) as Sa1. pose proof (step_sane _ _ _ _ _ Sa1 H1 T2) as Sa2.
    assert (Bs : blk h2 = blk h1) by (injection Tk as _ <-; reflexivity). assert (H2 : holds h2 hash l) by (intros N; rewrite Bs; auto).
    assert (It2 : itered h2) by (intros i; rewrite (s_ok _ _ _ _ T2), (s_ok _ _ _ _ T1); apply It).
    destruct (IH h2 l Sa2 H2 It2) as [vs [all [h3 [E [T3 [H3 [F A]]]]]]]. rewrite E. exists (v :: vs), all, h3.
    assert (ok = true). { injection Tk as <- _. rewrite (s_ok _ _ _ _ T1). apply It. } subst ok. split; [reflexivity|].
    pose proof (step_trans _ _ _ _ _ _ _ Sa1 H1 T2 T3) as T4. pose proof (step_trans _ _ _ _ _ _ _ Sa H T1 T4) as T5. split; [exact T5|]. split; [assumption|]. split.
    + constructor; [|assumption]. split; [assumption|]. rewrite (step_live _ _ _ _ v _ Sa2 H2 T3); rewrite ?Bs; [assumption|congruence|auto].
    + destruct all; cbn; [lia|]. destruct A as [A1' [i A2]]. split; [lia|]. exists i. rewrite <- (s_ok _ _ _ _ T1), <- (s_ok _ _ _ _ T2). assumption.
  - cbn. exists [], false, h1. split; [reflexivity|]. split; [assumption|]. split; [intros N; rewrite O1; [auto|congruence]|]. split; [constructor|]. cbn. split; [lia|]. eauto.
Qed.
Lemma with_tmp_ok : forall hash t h l, sane h -> holds h hash l -> exists x h', with_tmp t h = (x, h') /\ holds h' hash l /\
  match x with
  | None => step hash h h' [] /\ exists i, h_ok h KVal i = false
  | Some p => step hash h h' (vl p) /\ (p <> 0%nat -> blk h' p = Some BVal)
  end.
Proof.
  intros hash t h l Sa H. unfold with_tmp. destruct t.
  - destruct (alloc h KVal BVal) as [v h1] eqn:A1. pose proof (alloc_other _ _ _ _ _ Sa A1) as O1. destruct (step_alloc hash _ _ _ _ _ Sa A1) as [[K1 [N1 [B1 T1]]]|[K1 [-> T1]]].
    + rewrite (eqb0 _ N1). exists (Some v), h1. split; [reflexivity|]. split.
      * intros N. rewrite O1; [auto|]. intros <-. apply (step_not_hash _ _ _ _ _ Sa H T1). left. reflexivity.
      * split; [rewrite (vl_some _ N1); assumption|auto].
    + cbn. exists None, h1. split; [reflexivity|]. split; [intros N; rewrite O1; [auto|congruence]|]. eauto.
  - exists (Some 0%nat), h. split; [reflexivity|]. split; [assumption|]. split; [apply step_refl|]. intros N. contradiction.
Qed.
Lemma free_vl : forall h p, (p <> 0%nat -> blk h p <> None) -> exists h', free h p = Ret h' /\ gone h h' (vl p).
Proof.
  intros h p B. unfold vl. destruct (Nat.eqb p 0) eqn:E; [apply Nat.eqb_eq in E; subst; exists h; split; [reflexivity|apply gone_nil]|]. apply Nat.eqb_neq in E. apply free_gone; auto.
Qed.

(** * Results of parts *)
Inductive results (h : heap) : list ptr -> list ptr -> list ptr -> Prop :=
| rt_nil : results h [] [] []
| rt_fail v vs rs L : results h vs rs L -> results h (v :: vs) (0%nat :: rs) L
| rt_ok v r L1 vs rs L : own h r v L1 -> results h vs rs L -> results h (v :: vs) (r :: rs) (L1 ++ L).
Lemma results_frame : forall h h' vs rs L, results h vs rs L -> agree h h' L -> results h' vs rs L.
Proof.
  intros h h' vs rs L H. induction H; intros A; constructor; auto.
  - apply (proj1 own_frames _ _ _ _ H). intros q Q. apply A, in_app_iff. auto.
  - apply IHresults. intros q Q. apply A, in_app_iff. auto.
Qed.
Lemma results_kinds : forall h vs rs L, results h vs rs L -> forall q, In q L -> tree_block (blk h q).
Proof.
  intros h vs rs L H. induction H; intros q Q; [contradiction|auto|]. apply in_app_iff in Q. destruct Q as [Q|Q]; [|auto]. exact (proj1 (own_kinds h) _ _ _ H q Q).
Qed.
Lemma results_queue : forall h vs rs L, results h vs rs L -> Forall (fun v => v <> 0%nat /\ blk h v = Some BVal) vs -> queued vs rs = combine vs rs.
Proof. intros h vs rs L H. induction H; intros F; [reflexivity| |]; inversion F as [|? ? [N _] F']; subst; cbn; rewrite (eqb0 _ N), IHresults; auto. Qed.
Definition nz (r : ptr) : Prop := r <> 0%nat.

Lemma put_zero : forall done m r, put_nth (done ++ repeat 0%nat (S m)) (length done) r = Some ((done ++ [r]) ++ repeat 0%nat m).
Proof. intros done. induction done as [|x done IH]; intros m r; cbn; [reflexivity|]. cbn in IH. rewrite IH. reflexivity. Qed.
Lemma owns_end : forall h r v L done Ld, owns h done Ld -> v <> 0%nat -> blk h v = Some BVal -> own h r v L -> exists K, owns h (done ++ [r]) K /\ Permutation K (Ld ++ v :: L).
Proof.
  intros h r v L done Ld O N B W. revert Ld O. induction done as [|x done IH]; intros Ld O; inversion O as [|? ? O1|? w L1 ? L2 Nw Bw O1 O2]; subst; cbn.
  - exists (v :: L ++ []). split; [constructor; auto; constructor|]. rewrite app_nil_r. reflexivity.
  - destruct (IH _ O1) as [K [K1 K2]]. exists K. split; [constructor; assumption|assumption].
  - destruct (IH _ O2) as [K [K1 K2]]. exists (w :: L1 ++ K). split; [constructor; assumption|]. rewrite K2. rewrite <- app_assoc. reflexivity.
Qed.
Lemma owns_zeros : forall h done Ld m, owns h done Ld -> owns h (done ++ repeat 0%nat m) Ld.
Proof.
  intros h done Ld m O. revert Ld O. induction done as [|x done IH]; intros Ld O; inversion O as [|? ? O1|? w L1 ? L2 Nw Bw O1 O2]; subst; cbn.
  - induction m; cbn; constructor; assumption.
  - constructor. auto.
  - constructor; auto.
Qed.

Section Collect.
Variables (hash : ptr) (h0 : heap) (l0 : list (Z * ptr)).
Hypothesis Sa0 : sane h0.
Hypothesis H0 : holds h0 hash l0.
Variables (e k v : ptr) (s : Z) (n : nat).
Hypothesis Ne : e <> 0%nat.
Hypothesis Nk : k <> 0%nat.
Lemma collect_ok : forall vs rs h L done Ld m T,
  step hash h0 h T -> Permutation T (e :: k :: Ld ++ vs ++ L) -> results h vs rs L -> blk h e = Some (BEntry v s n k) -> blk h k = Some (BKids (done ++ repeat 0%nat m)) ->
  (length vs <= m)%nat -> owns h done Ld -> Forall (fun v => v <> 0%nat /\ blk h v = Some BVal) vs ->
  exists b q h', collect h e (length done) (combine vs rs) = Ret (b, q, h') /\ (forall x, ~ In x T -> blk h' x = blk h x) /\
   ((b = true /\ q = [] /\ Forall nz rs /\ exists K, step hash h0 h' T /\ (forall x, x <> k -> blk h' x = blk h x) /\ blk h' e = Some (BEntry v s n k) /\
       blk h' k = Some (BKids ((done ++ rs) ++ repeat 0%nat (m - length rs))) /\ owns h' (done ++ rs) K /\ Permutation K (Ld ++ vs ++ L)) \/
    (b = false /\ ~ Forall nz rs /\ exists vs' rs' L' done' Ld' m' T', q = combine vs' rs' /\ step hash h0 h' T' /\ Permutation T' (e :: k :: Ld' ++ vs' ++ L') /\
       results h' vs' rs' L' /\ blk h' e = Some (BEntry v s n k) /\ blk h' k = Some (BKids (done' ++ repeat 0%nat m')) /\ (length done' + m' = length done + m)%nat /\ owns h' done' Ld' /\
       Forall (fun v => v <> 0%nat /\ blk h' v = Some BVal) vs')).
Proof.
  intros vs. induction vs as [|w vs IH]; intros rs h L done Ld m T St Pm R Be Bk Le O F; inversion R as [|? ? rs1 L1 R1|? r L1 ? rs1 L2 Ow R1]; subst; cbn [combine collect].
  - exists true, [], h. split; [reflexivity|]. split; [reflexivity|]. left. split; [reflexivity|]. split; [reflexivity|]. split; [constructor|]. exists Ld. cbn [length app]. rewrite ?app_nil_r, ?Nat.sub_0_r. split; [assumption|]. split; [reflexivity|]. split; [assumption|]. split; [assumption|]. split; [assumption|reflexivity].
  - inversion F as [|? ? [Nw Bw] F']; subst. destruct (free_gone h w Nw) as [h' [E G]]; [congruence|]. cbn [Nat.eqb]. rewrite E. cbn [bind].
    pose proof (Permutation_NoDup Pm (s_nodup _ _ _ _ St)) as D.
    assert (Pm2 : Permutation T ([w] ++ e :: k :: Ld ++ vs ++ L)).
    { rewrite Pm. cbn. etransitivity; [|apply perm_swap]. apply perm_skip. etransitivity; [|apply perm_swap]. apply perm_skip. symmetry. apply Permutation_middle. }
    pose proof (Permutation_NoDup Pm2 (s_nodup _ _ _ _ St)) as D2. cbn in D2. inversion D2 as [|? ? Nin _]; subst.
    assert (Ag : forall K, (forall x, In x K -> In x (e :: k :: Ld ++ vs ++ L)) -> agree h h' K). { intros K X. eapply gone_agree; [exact G|]. intros x I [<-|[]]. apply Nin, X, I. }
    exists false, (combine vs rs1), h'. split; [reflexivity|]. split.
    { intros x X. apply (go_out _ _ _ G). intros [<-|[]]. apply X. rewrite Pm2. left. reflexivity. }
    right. split; [reflexivity|]. split; [intros X; inversion X; subst; unfold nz in *; congruence|].
    exists vs, rs1, L, done, Ld, m, (e :: k :: Ld ++ vs ++ L). split; [reflexivity|]. split; [eapply step_gone; [exact Sa0|exact H0|exact St|exact G|exact Pm2]|]. split; [reflexivity|].
    split; [eapply results_frame; [exact R1|]; apply Ag; intros x I; do 2 right; rewrite !in_app_iff; auto|].
    split; [rewrite (Ag [e]); [assumption|intros x [<-|[]]; left; reflexivity|left; reflexivity]|].
    split; [rewrite (Ag [k]); [assumption|intros x [<-|[]]; right; left; reflexivity|left; reflexivity]|].
    split; [reflexivity|]. split; [apply (proj2 own_frames _ _ _ O); apply Ag; intros x I; do 2 right; rewrite in_app_iff; auto|].
    apply Forall_forall. intros x I. rewrite Forall_forall in F'. destruct (F' _ I) as [X1 X2]. split; [assumption|]. rewrite (Ag [x]); [assumption| |left; reflexivity].
    intros y [<-|[]]. do 2 right. rewrite !in_app_iff. auto.
  - inversion F as [|? ? [Nw Bw] F']; subst. destruct (own_entry _ _ _ _ Ow) as [Nr [s' [n' [k' Br]]]]. rewrite (eqb0 _ Nr). unfold hang, entry_at. rewrite Be. cbn [bind]. rewrite Br. cbn [bind]. rewrite Bk.
    destruct m as [|m]; [cbn in Le; lia|]. rewrite put_zero. cbn [bind].
    pose proof (Permutation_NoDup Pm (s_nodup _ _ _ _ St)) as D. inversion D as [|? ? Ne1 D1]; subst. inversion D1 as [|? ? Nk1 D2]; subst.
    set (h1 := write h k (BKids ((done ++ [r]) ++ repeat 0%nat m))).
    assert (Ag : forall x, x <> k -> blk h1 x = blk h x) by (intros x X; cbn; apply upd_other; assumption).
    assert (AgL : forall K, (forall x, In x K -> In x (Ld ++ (w :: vs) ++ L1 ++ L2)) -> agree h h1 K). { intros K X x I. apply Ag. intros ->. apply Nk1, X, I. }
    assert (Ow1 : own h1 r w L1). { apply (proj1 own_frames _ _ _ _ Ow). apply AgL. intros x I. rewrite !in_app_iff. tauto. }
    assert (O1 : owns h1 done Ld). { apply (proj2 own_frames _ _ _ O). apply AgL. intros x I. rewrite !in_app_iff. tauto. }
    assert (Bw1 : blk h1 w = Some BVal). { rewrite (AgL [w]); [assumption| |left; reflexivity]. intros x [<-|[]]. rewrite !in_app_iff. right. left. left. reflexivity. }
    destruct (owns_end _ _ _ _ _ _ O1 Nw Bw1 Ow1) as [K [K1 K2]].
    assert (St1 : step hash h0 h1 T). { apply step_write; [assumption|]. rewrite Pm. right. left. reflexivity. }
    assert (Pm1 : Permutation T (e :: k :: K ++ vs ++ L2)).
    { rewrite Pm. do 2 apply perm_skip. rewrite K2. rewrite <- !app_assoc. apply Permutation_app_head. cbn. apply perm_skip. rewrite !app_assoc. apply Permutation_app_tail. apply Permutation_app_comm. }
    destruct (IH rs1 h1 L2 (done ++ [r]) K m T) as [b [q [h' [E [Out X]]]]]; auto.
    + eapply results_frame; [exact R1|]. apply AgL. intros x I. rewrite !in_app_iff. tauto.
    + rewrite Ag; [assumption|]. intros ->. apply Ne1. left. reflexivity.
    + cbn. apply upd_same.
    + cbn in Le. lia.
    + apply Forall_forall. intros x I. rewrite Forall_forall in F'. destruct (F' _ I) as [X1 X2]. split; [assumption|]. rewrite (AgL [x]); [assumption| |left; reflexivity].
      intros y [<-|[]]. rewrite !in_app_iff. right. left. right. assumption.
    + rewrite app_length in E. cbn in E. rewrite Nat.add_1_r in E. rewrite E. exists b, q, h'. split; [reflexivity|]. split.
      { intros x X1. rewrite (Out x X1). apply Ag. intros ->. apply X1. rewrite Pm. right. left. reflexivity. }
      destruct X as [[-> [-> [Fz [K' [Y1 [Y2 [Y3 [Y4 [Y5 Y6]]]]]]]]]|[-> [Fz [vs' [rs' [L' [done' [Ld' [m' [T' [Y1 [Y2 [Y3 [Y4 [Y5 [Y6 [Y7 [Y8 Y9]]]]]]]]]]]]]]]]]].
      * left. split; [reflexivity|]. split; [reflexivity|]. split; [constructor; assumption|]. exists K'. split; [assumption|]. split; [intros x X1; rewrite Y2 by assumption; apply Ag; assumption|]. split; [assumption|].
        rewrite <- !app_assoc in Y4. rewrite <- app_assoc in Y5. cbn in Y4, Y5. split; [cbn; rewrite <- app_assoc; exact Y4|]. split; [exact Y5|]. rewrite Y6, K2. rewrite <- !app_assoc. apply Permutation_app_head. cbn. apply perm_skip. rewrite !app_assoc. apply Permutation_app_tail. apply Permutation_app_comm.
      * right. split; [reflexivity|]. split; [intros X1; inversion X1; auto|]. exists vs', rs', L', done', Ld', m', T'. repeat (split; [assumption|]). split; [rewrite app_length in Y7; cbn in Y7; lia|]. split; assumption.
Qed.
End Collect.
