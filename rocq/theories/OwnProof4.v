(** Ownership of memory maps (C64): the map. *)
From Coq Require Import ZArith List Bool Lia Permutation.
From Verif Require Import Base OwnModel OwnSpec OwnProof OwnProof2 OwnProof3.
Import ListNotations.
Open Scope Z_scope.

Lemma apart_distinct : forall ok p, NoDup (keys p) -> apart ok p.
Proof.
  intros ok p. induction p as [|size|size tmp l cut IH|size tmp key p IH] using plan_ind'; intros D; [constructor|constructor| |].
  - cbn in D. constructor.
    + induction IH as [|p l Hp IH IHl]; [constructor|]. cbn in D. constructor; [exact (Hp (nodup_left _ _ D))|exact (IHl (nodup_right _ _ D))].
    + clear IH. induction l as [|p l IHl]; [constructor|]. cbn in D. constructor; [|exact (IHl (nodup_right _ _ D))].
      apply Forall_forall. intros q Q. left. intros k X1 X2. apply (nodup_disj _ _ k D X1). apply in_concat. exists (keys q). split; [apply in_map; assumption|assumption].
  - cbn in D. inversion D; subst. constructor. auto.
Qed.
Lemma apart_accepted : forall ok p, plenty ok -> accepted p -> apart ok p.
Proof.
  intros ok p Pl. induction p as [|size|size tmp l cut IH|size tmp key p IH] using plan_ind'; intros A; [constructor|constructor| |].
  - inversion A as [|? ? ? F|]; subst. constructor.
    + rewrite Forall_forall in *. auto.
    + clear A IH. induction F as [|p l Hp F IH]; constructor; [|assumption]. apply Forall_forall. auto.
  - inversion A; subst. constructor. auto.
Qed.
Lemma find_in : forall l k, In k (map fst l) -> exists e, find l k = Some e.
Proof.
  intros l k. induction l as [|[j e] l IH]; cbn; [contradiction|]. intros I. destruct (j =? k) eqn:E; [eauto|]. apply IH. destruct I as [->|I]; [apply Z.eqb_neq in E; congruence|assumption].
Qed.
Lemma all_live_ok : forall h l ks, (forall k e, find l k = Some e -> live_entry h e) -> (forall k, In k ks -> In k (map fst l)) -> all_live h l ks = Ret h.
Proof.
  intros h l ks Lv. induction ks as [|k ks IH]; intros I; cbn; [reflexivity|]. destruct (find_in l k (I k (or_introl eq_refl))) as [e F]. rewrite F. destruct (Lv _ _ F) as [v [s [n [c B]]]]. unfold entry_at. rewrite B. cbn. apply IH. intros j J. apply I. right. assumption.
Qed.

(** what the holder of a map has *)
Record mine (h : heap) (m hash e v : ptr) (L : list ptr) : Prop := {
  mi_m : blk h m = Some (BMap e hash);
  mi_hash : hash <> 0%nat -> blk h hash <> None;
  mi_v : v <> 0%nat /\ blk h v = Some BVal;
  mi_own : own h e v L;
  mi_nodup : NoDup (m :: vl hash ++ v :: L) }.
Lemma map_gone : forall h m hash e v L, mine h m hash e v L -> m <> 0%nat -> itered h -> sane h -> exists h', map_delete h m = Ret h' /\ gone h h' (m :: vl hash ++ v :: L).
Proof.
  intros h m hash e v L [Bm Bh [Nv Bv] Ow D] Nm It Sa. unfold map_delete. rewrite Bm.
  assert (F : exists h1, (if Nat.eqb hash 0 then Ret h else free h hash) = Ret h1 /\ gone h h1 (vl hash)).
  { unfold vl. destruct (Nat.eqb hash 0) eqn:E; [exists h; split; [reflexivity|apply gone_nil]|]. apply Nat.eqb_neq in E. apply free_gone; auto. }
  destruct F as [h1 [E1 G1]]. rewrite E1. cbn [bind]. destruct (own_entry _ _ _ _ Ow) as [Ne _]. rewrite (eqb0 _ Ne).
  inversion D as [|? ? Dm D1]; subst. rewrite in_app_iff in Dm.
  assert (Ag : agree h h1 (m :: v :: L)). { eapply gone_agree; [exact G1|]. intros x [<-|I] J; [tauto|]. exact (nodup_disj _ _ x D1 J I). }
  destruct (entry_gone h1 e v L) as [h2 [E2 G2]].
  - apply (proj1 own_frames _ _ _ _ Ow). intros x I. apply Ag. right. right. assumption.
  - rewrite (vl_some _ Nv). exact (nodup_right _ _ D1).
  - intros _. rewrite Ag by (right; left; reflexivity). assumption.
  - eapply itered_gone; eassumption.
  - eapply gone_sane; eassumption.
  - rewrite E2. cbn [bind]. rewrite (vl_some _ Nv) in G2. destruct (free_gone h2 m Nm) as [h3 [E3 G3]].
    { rewrite (go_out _ _ _ G2) by (cbn in *; tauto). rewrite Ag by (left; reflexivity). congruence. }
    exists h3. split; [assumption|]. eapply gone_perm; [exact (gone_app _ _ _ _ _ (gone_app _ _ _ _ _ G1 G2) G3)|]. cbn [app]. symmetry. apply Permutation_cons_append.
Qed.

Lemma step_grown : forall h h' L, sane h -> step 0%nat h h' L -> grown h h' L.
Proof.
  intros h h' L Sa T. constructor; [apply (s_ok _ _ _ _ T)|apply (s_next _ _ _ _ T)|apply (s_nodup _ _ _ _ T)| |].
  - intros q I. apply (s_new _ _ _ _ T) in I. split; [apply Sa; lia|tauto].
  - intros q I. apply (s_same _ _ _ _ T); auto.
Qed.
Lemma step_into : forall hash h h1 h2 A L, step 0%nat h h1 A -> step hash h1 h2 L -> (hash <> 0%nat -> In hash A) -> (hash <> 0%nat -> blk h2 hash <> None) -> step 0%nat h h2 (A ++ L).
Proof.
  intros hash h h1 h2 A L T1 T2 I B2. constructor.
  - rewrite (s_ok _ _ _ _ T2). apply (s_ok _ _ _ _ T1).
  - etransitivity; [apply (s_next _ _ _ _ T1)|apply (s_next _ _ _ _ T2)].
  - apply nodup_join; [apply (s_nodup _ _ _ _ T1)|apply (s_nodup _ _ _ _ T2)|]. intros x X1 X2. apply (s_new _ _ _ _ T1) in X1. apply (s_new _ _ _ _ T2) in X2. lia.
  - intros q Q. apply in_app_iff in Q. destruct Q as [Q|Q].
    + pose proof (s_new _ _ _ _ T1 _ Q) as [X1 X2]. pose proof (s_next _ _ _ _ T2). split; [lia|]. destruct (Nat.eq_dec q hash) as [->|N].
      * destruct (Nat.eq_dec hash 0) as [Z0|Z0]; [|auto]. rewrite (s_same _ _ _ _ T2); [assumption| |auto]. intros J. apply (s_new _ _ _ _ T2) in J. lia.
      * rewrite (s_same _ _ _ _ T2); [assumption| |contradiction]. intros J. apply (s_new _ _ _ _ T2) in J. lia.
    + pose proof (s_new _ _ _ _ T2 _ Q) as [X1 X2]. pose proof (s_next _ _ _ _ T1). split; [lia|assumption].
  - intros q Q _. rewrite in_app_iff in Q. rewrite (s_same _ _ _ _ T2); [apply (s_same _ _ _ _ T1); tauto|tauto|]. intros ->. destruct (Nat.eq_dec hash 0); [assumption|]. exfalso. tauto.
Qed.
Theorem new_map_ok : forall dag p h, sane h -> mild (h_ok h) -> dag = false \/ NoDup (keys p) \/ (accepted p /\ plenty (h_ok h)) ->
  exists m h', new_map dag p h = Ret (m, h') /\
    (m = 0%nat -> grown h h' []) /\
    (m <> 0%nat -> exists L, accepted p /\ grown h h' L /\ length L = (1 + Nat.b2n dag + weight p)%nat /\
       forall h2, sane h2 -> (forall q, In q L -> h_blk h2 q = h_blk h' q) -> (forall n, h_ok h2 KIter n = true) ->
         exists h3, map_delete h2 m = Ret h3 /\ released h2 h3 L) /\
    (accepted p -> plenty (h_ok h) -> m <> 0%nat).
Proof.
  intros dag p h Sa M Cond. unfold new_map.
  assert (None0 : holds h 0%nat []) by (intros N; contradiction).
  destruct (alloc h KVal BVal) as [v h1] eqn:A1. destruct (step_alloc 0%nat _ _ _ _ _ Sa A1) as [[K1 [Nv [Bv T1]]]|[K1 [-> T1]]].
  2:{ cbn. exists 0%nat, h1. split; [reflexivity|]. split; [intros _; apply step_grown; assumption|]. split; [intros X; contradiction|]. intros _ P. rewrite P in K1. discriminate. }
  rewrite (eqb0 _ Nv). pose proof (step_sane _ _ _ _ _ Sa None0 T1) as Sa1. pose proof (s_ok _ _ _ _ T1) as Ok1.
  destruct (alloc h1 KMap (BMap 0%nat 0%nat)) as [m h2] eqn:A2. pose proof (alloc_other _ _ _ _ _ Sa1 A2) as O2. destruct (step_alloc 0%nat _ _ _ _ _ Sa1 A2) as [[_ [Nm [Bm T2]]]|[K2 _]].
  2:{ exfalso. rewrite Ok1, (M KMap) in K2; [discriminate|cbn; tauto]. }
  rewrite (eqb0 _ Nm).
  assert (None1 : holds h1 0%nat []) by (intros N; contradiction).
  pose proof (step_trans _ _ _ _ _ _ _ Sa None0 T1 T2) as T2'. cbn [app] in T2'. pose proof (step_sane _ _ _ _ _ Sa None0 T2') as Sa2. pose proof (s_ok _ _ _ _ T2') as Ok2.
  assert (Nvm : v <> m). { intros ->. pose proof (s_nodup _ _ _ _ T2') as D. inversion D; subst. apply H1. left. reflexivity. }
  assert (Bv2 : blk h2 v = Some BVal) by (rewrite O2 by assumption; assumption).
  assert (Hs : exists hash h3, (if dag then alloc h2 KHash (BHash []) else (0%nat, h2)) = (hash, h3) /\ step 0%nat h h3 ([v; m] ++ vl hash) /\ (if dag then hash <> 0%nat else hash = 0%nat) /\ holds h3 hash [] /\
    blk h3 v = Some BVal /\ blk h3 m = Some (BMap 0%nat 0%nat)).
  { destruct dag.
    - destruct (alloc h2 KHash (BHash [])) as [hash h3] eqn:A3. pose proof (alloc_other _ _ _ _ _ Sa2 A3) as O3. destruct (step_alloc 0%nat _ _ _ _ _ Sa2 A3) as [[_ [Nh [Bh T3]]]|[K3 _]].
      2:{ exfalso. rewrite Ok2, (M KHash) in K3; [discriminate|cbn; tauto]. }
      exists hash, h3. split; [reflexivity|]. pose proof (step_trans _ _ _ _ _ _ [] Sa None0 T2' T3) as T3'. pose proof (s_nodup _ _ _ _ T3') as D. split; [rewrite (vl_some _ Nh); assumption|]. split; [assumption|]. split; [intros _; assumption|].
      cbn in D. inversion D as [|? ? D1 D2]; subst. inversion D2 as [|? ? D3 D4]; subst. cbn in D1, D3. rewrite !O3 by (intros ->; tauto). auto.
    - exists 0%nat, h2. split; [reflexivity|]. split; [assumption|]. split; [reflexivity|]. split; [intros N; contradiction|]. auto. }
  destruct Hs as [hash [h3 [E3 [T3 [Nh [H3 [Bv3 Bm3]]]]]]]. rewrite E3.
  assert (Eh : dag && Nat.eqb hash 0 = false) by (destruct dag; [cbn; apply eqb0; assumption|reflexivity]). rewrite Eh. pose proof (step_sane _ _ _ _ _ Sa None0 T3) as Sa3.
  destruct (tick h3 KIter) as [ok h4] eqn:Tk. assert (Y : ok = true). { injection Tk as <- _. rewrite (s_ok _ _ _ _ T3). apply (mild_itered _ M). } subst ok. cbn [negb].
  assert (Bs : blk h4 = blk h3) by (injection Tk as _ <-; reflexivity). pose proof (step_trans _ _ _ _ _ _ _ Sa None0 T3 (step_tick 0%nat _ _ _ _ Tk)) as T4. rewrite app_nil_r in T4.
  assert (H4 : holds h4 hash []) by (intros N; rewrite Bs; auto). pose proof (step_sane _ _ _ _ _ Sa None0 T4) as Sa4. pose proof (s_ok _ _ _ _ T4) as Ok4.
  assert (Bv4 : blk h4 v = Some BVal) by (rewrite Bs; assumption). assert (Bm4 : blk h4 m = Some (BMap 0%nat 0%nat)) by (rewrite Bs; assumption).
  destruct (build_good hash p v h4 [] Sa4 H4) as [e [h5 [L [lh [E5 [T5 [H5 [Nw [O5 A5]]]]]]]]].
  { rewrite Ok4. assumption. }
  { assumption. }
  { assumption. }
  { intros _ k x _ X. discriminate. }
  { intros N. rewrite Ok4. destruct Cond as [->|[D|[Ac Pl]]]; [congruence|apply apart_distinct; assumption|apply apart_accepted; assumption]. }
  rewrite E5. cbn [bind].
  assert (Ih : hash <> 0%nat -> In hash ([v; m] ++ vl hash)) by (intros N; apply in_app_iff; right; apply in_vl; auto).
  assert (T5' : step 0%nat h h5 (([v; m] ++ vl hash) ++ L)). { apply (step_into hash h h4 h5); auto. intros N. rewrite (H5 N). discriminate. }
  assert (Hv : v <> hash) by exact (val_not_hash _ _ _ _ H4 Nv Bv4).
  assert (Hm : m <> hash). { intros ->. rewrite (H4 Nm) in Bm4. discriminate. }
  assert (Bv5 : blk h5 v = Some BVal) by (rewrite (step_live _ _ _ _ _ _ Sa4 H4 T5); [assumption|congruence|assumption]).
  assert (Bm5 : blk h5 m = Some (BMap 0%nat 0%nat)) by (rewrite (step_live _ _ _ _ _ _ Sa4 H4 T5); [assumption|congruence|assumption]).
  destruct O5 as [[-> ->]|[Ow [Wt Acp]]].
  - cbn [Nat.eqb]. rewrite app_nil_r in T5'. destruct (free_vl h5 hash) as [h6 [E6 G6]]. { intros N. rewrite (H5 N). discriminate. }
    rewrite E6. cbn [bind]. assert (Ag6 : agree h5 h6 [v; m]). { eapply gone_agree; [exact G6|]. intros x I J. apply in_vl in J. destruct J as [-> _]. cbn in I. destruct I as [I|[I|[]]]; congruence. }
    destruct (free_gone h6 m Nm) as [h7 [E7 G7]]. { rewrite Ag6 by (right; left; reflexivity). congruence. }
    rewrite E7. cbn [bind]. destruct (free_gone h7 v Nv) as [h8 [E8 G8]]. { rewrite (go_out _ _ _ G7) by (intros [X|[]]; congruence). rewrite Ag6 by (left; reflexivity). congruence. }
    rewrite E8. cbn [bind]. exists 0%nat, h8. split; [reflexivity|]. split; [|split; [intros X; contradiction|]].
    + intros _. apply step_grown; [assumption|]. eapply (step_gone 0%nat h h5 h8 _ _ [] []); [exact Sa|exact None0|exact T5'|exact (gone_app _ _ _ _ _ (gone_app _ _ _ _ _ G6 G7) G8)|].
      rewrite app_nil_r, <- app_assoc. cbn [app]. etransitivity; [|apply Permutation_app_comm]. cbn. apply perm_swap.
    + intros Ac Pl. exfalso. apply A5; [assumption| |reflexivity]. rewrite Ok4. assumption.
  - destruct (own_entry _ _ _ _ Ow) as [Ne [se [ne [ke Be]]]]. rewrite (eqb0 _ Ne). set (h6 := write h5 m (BMap e hash)).
    assert (PT : Permutation (([v; m] ++ vl hash) ++ L) (m :: vl hash ++ v :: L)). { cbn. rewrite perm_swap. apply perm_skip. apply Permutation_middle. }
    assert (T6 : step 0%nat h h6 (m :: vl hash ++ v :: L)). { eapply step_perm; [apply step_write; [exact T5'|]|exact PT]. right. left. reflexivity. }
    pose proof (s_nodup _ _ _ _ T6) as D. inversion D as [|? ? Dm D1]; subst.
    assert (Oth : forall x, x <> m -> blk h6 x = blk h5 x) by (intros x X; cbn; apply upd_other; assumption).
    assert (H6 : holds h6 hash lh) by (intros N; rewrite Oth by congruence; auto).
    assert (Mi6 : mine h6 m hash e v L).
    { constructor.
      - cbn. apply upd_same.
      - intros N. rewrite (H6 N). discriminate.
      - split; [assumption|]. rewrite Oth by assumption. assumption.
      - apply (proj1 own_frames _ _ _ _ Ow). intros x I. apply Oth. intros ->. apply Dm. apply in_app_iff. right. right. assumption.
      - assumption. }
    pose proof (step_sane _ _ _ _ _ Sa None0 T6) as Sa6. pose proof (s_ok _ _ _ _ T6) as Ok6.
    assert (None6 : holds h6 0%nat []) by (intros N; contradiction).
    assert (Id : exists ok h7, identify h6 hash = Ret (ok, h7) /\ step 0%nat h6 h7 [] /\ (ok = false -> exists i, h_ok h KKeys i = false)).
    { unfold identify. destruct (Nat.eqb hash 0) eqn:Z0; [exists true, h6; split; [reflexivity|]; split; [apply step_refl|discriminate]|]. apply Nat.eqb_neq in Z0. rewrite (H6 Z0).
      assert (Lv6 : forall j y, find lh j = Some y -> live_entry h6 y).
      { intros j y F. destruct (Nw _ _ F) as [X|[_ X]]; [discriminate|]. destruct (X Ne) as [_ [yv [ys [yn [yk Y]]]]]. exists yv, ys, yn, yk. rewrite Oth; [assumption|]. intros ->. rewrite Bm5 in Y. discriminate. }
      destruct lh as [|x lh]; [exists true, h6; split; [reflexivity|]; split; [apply step_refl|discriminate]|].
      destruct (alloc h6 KKeys BKeys) as [k h7] eqn:A7. pose proof (alloc_other _ _ _ _ _ Sa6 A7) as O7. destruct (step_alloc 0%nat _ _ _ _ _ Sa6 A7) as [[_ [Nk [Bk T7]]]|[K7 [-> T7]]].
      - rewrite (eqb0 _ Nk). rewrite all_live_ok; [|intros j y F|auto].
        + cbn [bind]. destruct (free_gone h7 k Nk) as [h8 [E8 G8]]; [congruence|]. rewrite E8. cbn [bind]. pose proof (step_gone _ _ _ _ _ _ [] _ Sa6 None6 T7 G8 (Permutation_refl _)) as T8.
          exists true, h8. split; [reflexivity|]. split; [assumption|discriminate].
        + exact (step_entry _ _ _ _ _ _ Sa6 None6 T7 (Lv6 j y F)).
      - cbn [Nat.eqb]. exists false, h7. split; [reflexivity|]. split; [assumption|]. intros _. exists (h_next h6). congruence. }
    destruct Id as [ok [h7 [E7 [T7 Fl]]]]. rewrite E7. cbn [bind].
    assert (Same : forall q, blk h7 q = blk h6 q) by (intros q; apply (s_same _ _ _ _ T7); auto).
    pose proof (step_trans _ _ _ _ _ _ _ Sa None0 T6 T7) as T7'. rewrite app_nil_r in T7'.
    assert (Fr : forall g, (forall q, In q (m :: vl hash ++ v :: L) -> blk g q = blk h7 q) -> mine g m hash e v L).
    { intros g Ag. assert (Ag' : forall q, In q (m :: vl hash ++ v :: L) -> blk g q = blk h6 q) by (intros q I; rewrite <- Same; auto). destruct Mi6 as [Y1 Y2 [Y3 Y3'] Y4 Y5]. constructor.
      - rewrite Ag' by (left; reflexivity). assumption.
      - intros N. rewrite Ag'; [auto|]. right. apply in_app_iff. left. apply in_vl. auto.
      - split; [assumption|]. rewrite Ag'; [assumption|]. right. apply in_app_iff. right. left. reflexivity.
      - apply (proj1 own_frames _ _ _ _ Y4). intros q I. apply Ag'. right. apply in_app_iff. right. right. assumption.
      - assumption. }
    destruct ok.
    + exists m, h7. split; [reflexivity|]. split; [intros X; contradiction|]. split; [|auto]. intros _. exists (m :: vl hash ++ v :: L). split; [assumption|]. split; [apply step_grown; assumption|]. split.
      * cbn [length]. rewrite app_length. cbn [length]. unfold vl. destruct dag; [rewrite (eqb0 _ Nh)|rewrite Nh]; cbn [length Nat.eqb Nat.b2n]; cbn in Wt; lia.
      * intros g Sg Ag Ig. destruct (map_gone g m hash e v L (Fr g Ag) Nm Ig Sg) as [g' [E G]]. exists g'. split; [assumption|]. constructor; [apply (go_in _ _ _ G)|apply (go_out _ _ _ G)].
    + destruct (map_gone h7 m hash e v L) as [h8 [E8 G8]]; [apply Fr; reflexivity|assumption| | |].
      * apply mild_itered. rewrite (s_ok _ _ _ _ T7'). assumption.
      * exact (step_sane _ _ _ _ _ Sa None0 T7').
      * rewrite E8. cbn [bind]. exists 0%nat, h8. split; [reflexivity|]. split; [|split; [intros X; contradiction|]].
        -- intros _. apply step_grown; [assumption|]. eapply (step_gone 0%nat h h7 h8 _ _ [] []); [exact Sa|exact None0|exact T7'|exact G8|rewrite app_nil_r; reflexivity].
        -- intros _ Pl. exfalso. destruct (Fl eq_refl) as [i X]. rewrite Pl in X. discriminate.
Qed.
