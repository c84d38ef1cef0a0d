(** Ownership of memory maps (C64): the traversal and the map. *)
From Coq Require Import ZArith List Bool Lia Permutation.
From Verif Require Import Base OwnModel OwnSpec OwnProof OwnProof2.
Import ListNotations.
Open Scope Z_scope.

Definition builds (hash : ptr) : list plan -> list ptr -> heap -> res (list ptr * heap) :=
  fix go (l : list plan) (vs : list ptr) (h : heap) : res (list ptr * heap) :=
    match l, vs with
    | p :: l, v :: vs => bind (if Nat.eqb v 0 then Ret (0%nat, h) else build hash p v h) (fun '(r, h) => bind (go l vs h) (fun '(rs, h) => Ret (r :: rs, h)))
    | _, _ => Ret ([], h)
    end.
Lemma mild_itered : forall h, mild (h_ok h) -> itered h.
Proof. intros h M n. apply M. cbn. tauto. Qed.

Section Clean.
Variables (hash : ptr) (h0 : heap) (l0 : list (Z * ptr)).
Hypothesis Sa0 : sane h0.
Hypothesis H0 : holds h0 hash l0.
Lemma step_drop : forall h h1 T G T1, step hash h0 h T -> gone h h1 G -> Permutation T (G ++ T1) ->
  step hash h0 h1 T1 /\ agree h h1 T1 /\ (forall x, ~ In x T -> blk h1 x = blk h x).
Proof.
  intros h h1 T G T1 St Go Pm. split; [eapply step_gone; [exact Sa0|exact H0|exact St|exact Go|exact Pm]|]. pose proof (Permutation_NoDup Pm (s_nodup _ _ _ _ St)) as D. split.
  - eapply gone_agree; [exact Go|]. intros x I J. exact (nodup_disj _ _ _ D J I).
  - intros x X. apply (go_out _ _ _ Go). intros I. apply X. rewrite Pm. apply in_app_iff. auto.
Qed.
Lemma drop_ok : forall vs rs h L T X, step hash h0 h T -> Permutation T (vs ++ L ++ X) -> results h vs rs L -> Forall (fun v => v <> 0%nat /\ blk h v = Some BVal) vs -> itered h ->
  exists h', drop h (combine vs rs) = Ret h' /\ step hash h0 h' X /\ agree h h' X /\ (forall x, ~ In x T -> blk h' x = blk h x).
Proof.
  intros vs. induction vs as [|w vs IH]; intros rs h L T X St Pm R F It; inversion R as [|? ? rs1 L1 R1|? r L1 ? rs1 L2 Ow R1]; subst; cbn [combine drop].
  - exists h. split; [reflexivity|]. split; [eapply step_perm; eassumption|]. split; [intros q _; reflexivity|reflexivity].
  - inversion F as [|? ? [Nw Bw] F']; subst. destruct (free_gone h w Nw) as [h1 [E G]]; [congruence|]. cbn [Nat.eqb]. rewrite E. cbn [bind].
    destruct (step_drop h h1 T [w] (vs ++ L ++ X) St G Pm) as [St1 [Ag Out]].
    destruct (IH rs1 h1 L (vs ++ L ++ X) X St1) as [h' [E' [St' [Ag' Out']]]]; auto.
    + eapply results_frame; [exact R1|]. intros q Q. apply Ag. rewrite !in_app_iff. auto.
    + apply Forall_forall. intros q Q. rewrite Forall_forall in F'. destruct (F' _ Q) as [X1 X2]. split; [assumption|]. rewrite Ag; [assumption|]. rewrite !in_app_iff. auto.
    + eapply itered_gone; eassumption.
    + exists h'. split; [assumption|]. split; [assumption|]. split.
      * intros q Q. rewrite Ag', Ag by (rewrite ?in_app_iff; auto). reflexivity.
      * intros q Q. rewrite Out', Out; auto. intros I. apply Q. rewrite Pm. right. assumption.
  - inversion F as [|? ? [Nw Bw] F']; subst. destruct (own_entry _ _ _ _ Ow) as [Nr _]. rewrite (eqb0 _ Nr).
    assert (Pm1 : Permutation T ((w :: L1) ++ vs ++ L2 ++ X)).
    { rewrite Pm. cbn. apply perm_skip. rewrite <- !app_assoc. rewrite !app_assoc. do 2 apply Permutation_app_tail. apply Permutation_app_comm. }
    pose proof (Permutation_NoDup Pm1 (s_nodup _ _ _ _ St)) as D.
    destruct (entry_gone h r w L1 Ow) as [h1 [E G]]; [rewrite (vl_some _ Nw); exact (nodup_left _ _ D)|auto|assumption|exact (step_sane _ _ _ _ _ Sa0 H0 St)|].
    rewrite E. cbn [bind]. rewrite (vl_some _ Nw) in G. destruct (step_drop h h1 T (w :: L1) (vs ++ L2 ++ X) St G Pm1) as [St1 [Ag Out]].
    destruct (IH rs1 h1 L2 (vs ++ L2 ++ X) X St1) as [h' [E' [St' [Ag' Out']]]]; auto.
    + eapply results_frame; [exact R1|]. intros q Q. apply Ag. rewrite !in_app_iff. auto.
    + apply Forall_forall. intros q Q. rewrite Forall_forall in F'. destruct (F' _ Q) as [X1 X2]. split; [assumption|]. rewrite Ag; [assumption|]. rewrite !in_app_iff. auto.
    + eapply itered_gone; eassumption.
    + exists h'. split; [assumption|]. split; [assumption|]. split.
      * intros q Q. rewrite Ag', Ag by (rewrite ?in_app_iff; auto). reflexivity.
      * intros q Q. rewrite Out', Out; auto. intros I. apply Q. rewrite Pm1. apply in_app_iff. right. assumption.
Qed.
Lemma abandon_ok : forall h e k v s n l Ld T, step hash h0 h T -> Permutation T (e :: k :: Ld) -> e <> 0%nat -> k <> 0%nat -> n <> 0%nat ->
  blk h e = Some (BEntry v s n k) -> blk h k = Some (BKids l) -> length l = n -> owns h l Ld -> itered h ->
  exists h', abandon h e = Ret h' /\ step hash h0 h' [] /\ (forall x, ~ In x T -> blk h' x = blk h x).
Proof.
  intros h e k v s n l Ld T St Pm Ne Nk Nn Be Bk Le O It. unfold abandon, entry_at. rewrite (eqb0 _ Ne), Be. cbn [bind]. set (h1 := write h e (BEntry 0%nat s n k)).
  pose proof (Permutation_NoDup Pm (s_nodup _ _ _ _ St)) as D. inversion D as [|? ? Ne1 D1]; subst.
  assert (Ie : In e T) by (rewrite Pm; left; reflexivity).
  assert (St1 : step hash h0 h1 T) by (apply step_write; assumption).
  assert (Ag : forall x, x <> e -> blk h1 x = blk h x) by (intros x X; cbn; apply upd_other; assumption).
  destruct (entry_gone h1 e 0%nat (e :: k :: Ld)) as [h' [E G]].
  - econstructor; try eassumption; [cbn; apply upd_same|rewrite Ag; [eassumption|]|reflexivity|].
    + intros ->. apply Ne1. left. reflexivity.
    + apply (proj2 own_frames _ _ _ O). intros x X. apply Ag. intros ->. apply Ne1. right. assumption.
  - exact D.
  - intros X. contradiction.
  - exact It.
  - exact (step_sane _ _ _ _ _ Sa0 H0 St1).
  - cbn in G. destruct (step_drop h1 h' T (e :: k :: Ld) [] St1 G) as [St2 [_ Out]]; [rewrite app_nil_r; assumption|].
    exists h'. split; [assumption|]. split; [assumption|]. intros x X. rewrite Out by assumption. apply Ag. intros ->. contradiction.
Qed.
End Clean.

Definition good (hash : ptr) (p : plan) : Prop := forall v h l, sane h -> holds h hash l -> mild (h_ok h) -> v <> 0%nat -> blk h v = Some BVal -> safe h hash l (keys p) ->
  (hash <> 0%nat -> apart (h_ok h) p) -> outcome hash p v h l (build hash p v h).
Lemma val_not_hash : forall h hash l v, holds h hash l -> v <> 0%nat -> blk h v = Some BVal -> v <> hash.
Proof. intros h hash l v H N B ->. rewrite (H N) in B. discriminate. Qed.
Lemma builds_ok : forall hash l, Forall (good hash) l -> forall vs h lh, sane h -> holds h hash lh -> mild (h_ok h) -> Forall (fun v => v <> 0%nat /\ blk h v = Some BVal) vs ->
  (length vs <= length l)%nat -> safe h hash lh (concat (map keys l)) ->
  (hash <> 0%nat -> Forall (apart (h_ok h)) l /\ ForallOrdPairs (fun a b => (forall k, In k (keys a) -> In k (keys b) -> False) \/ (accepted a /\ plenty (h_ok h))) l) ->
  exists rs h' L lh', builds hash l vs h = Ret (rs, h') /\ step hash h h' L /\ holds h' hash lh' /\ newer h' (concat (map keys l)) lh lh' (Forall nz rs /\ length vs = length l) L /\ results h' vs rs L /\
    (Forall nz rs -> length vs = length l -> (length vs + length L = list_sum (map weight l))%nat /\ Forall accepted l) /\ (Forall accepted l -> plenty (h_ok h) -> Forall nz rs) /\ length rs = length vs.
Proof.
  intros hash l G. induction G as [|p l Gp G IH]; intros vs h lh Sa H M F Le Sf Ap.
  { destruct vs; [|cbn in Le; lia]. exists [], h, [], lh. split; [reflexivity|]. split; [apply step_refl|]. split; [assumption|]. split; [intros k e E; auto|]. split; [constructor|]. split; [intros; split; [reflexivity|constructor]|]. split; [intros; constructor|reflexivity]. }
  destruct vs as [|v vs].
  { exists [], h, [], lh. split; [reflexivity|]. split; [apply step_refl|]. split; [assumption|]. split; [intros k e E; auto|]. split; [constructor|]. split; [cbn; discriminate|]. split; [intros; constructor|reflexivity]. }
  inversion F as [|? ? [Nv Bv] F']; subst. cbn [builds]. fold (builds hash). rewrite (eqb0 _ Nv).
  destruct (Gp v h lh Sa H M Nv Bv) as [r [h1 [L1 [lh1 [E1 [St1 [H1 [Nw1 [O1 A1]]]]]]]]].
  { intros N k e I. apply Sf; [assumption|]. cbn. apply in_app_iff. auto. }
  { intros N. destruct (Ap N) as [X _]. inversion X; assumption. }
  rewrite E1. cbn [bind]. pose proof (step_sane _ _ _ _ _ Sa H St1) as Sa1. pose proof (s_ok _ _ _ _ St1) as Ok1.
  destruct (IH vs h1 lh1 Sa1 H1) as [rs [h2 [L2 [lh2 [E2 [St2 [H2 [Nw2 [R2 [W2 [A2 Lr]]]]]]]]]]].
  { rewrite Ok1. assumption. }
  { apply Forall_forall. intros q Q. rewrite Forall_forall in F'. destruct (F' _ Q) as [X1 X2]. split; [assumption|]. rewrite (step_live _ _ _ _ _ _ Sa H St1); [assumption|congruence|]. exact (val_not_hash _ _ _ _ H X1 X2). }
  { cbn in Le. lia. }
  { intros N k e I Fd. destruct (Ap N) as [_ X]. inversion X as [|? ? X1 X2]; subst. destruct (Nw1 _ _ Fd) as [Old|[Ik Done]].
    - eapply step_entry; [exact Sa|exact H|exact St1|]. apply (Sf N k e); [cbn; apply in_app_iff; auto|assumption].
    - apply in_concat in I. destruct I as [ks [I1 I2]]. apply in_map_iff in I1. destruct I1 as [b [<- I1]]. rewrite Forall_forall in X1. destruct (X1 _ I1) as [Y|[Y1 Y2]].
      + exfalso. exact (Y _ Ik I2).
      + apply Done. apply A1; assumption. }
  { intros N. rewrite Ok1. destruct (Ap N) as [X1 X2]. inversion X1; inversion X2; auto. }
  rewrite E2. cbn [bind]. exists (r :: rs), h2, (L1 ++ L2), lh2. split; [reflexivity|]. split; [exact (step_trans _ _ _ _ _ _ _ Sa H St1 St2)|]. split; [assumption|].
  assert (AgO : forall r0 w K, own h1 r0 w K -> own h2 r0 w K).
  { intros r0 w K Ow. apply (proj1 own_frames _ _ _ _ Ow). pose proof (proj1 (own_kinds h1) _ _ _ Ow) as Kd. eapply step_agree; [exact Sa1|exact H1|exact St2| |].
    - intros q Q. apply tree_live. auto.
    - exact (tree_hash _ _ _ _ H1 Kd). }
  split; [|split; [|split; [|split]]].
  - intros k e Fd. destruct (Nw2 _ _ Fd) as [Old|[Ik Done]].
    + destruct (Nw1 _ _ Old) as [Old1|[Ik Done]]; [auto|]. right. split; [cbn; apply in_app_iff; auto|]. intros [D _]. inversion D; subst. destruct (Done H4) as [X1 X2]. split; [apply in_app_iff; auto|]. eapply step_entry; [exact Sa1|exact H1|exact St2|assumption].
    + right. split; [cbn; apply in_app_iff; auto|]. intros [D DL]. inversion D; subst. cbn in DL. destruct Done as [X1 X2]; [split; [assumption|lia]|]. split; [apply in_app_iff; auto|assumption].
  - destruct O1 as [[-> ->]|[Ow _]]; [constructor; assumption|]. constructor; [auto|assumption].
  - intros D DL. inversion D; subst. destruct O1 as [[-> _]|[_ [Wp Acp]]]; [unfold nz in *; congruence|]. assert (Wl := W2 H5). cbn in DL. destruct (Wl ltac:(lia)) as [Wl' Acl]. split; [|constructor; assumption]. unfold list_sum in *. cbn [map fold_right length]. rewrite app_length. lia.
  - intros Ac Pl. inversion Ac; subst. constructor; [unfold nz; auto|]. apply A2; [assumption|]. rewrite Ok1. assumption.
  - cbn. congruence.
Qed.

Lemma find_replace : forall l k c k', find (replace l k c) k' = if (k' =? k) && match find l k with Some _ => true | None => false end then Some c else find l k'.
Proof.
  intros l k c k'. induction l as [|[j e] l IH]; cbn; [rewrite andb_false_r; reflexivity|]. destruct (j =? k) eqn:Ek; cbn.
  - apply Z.eqb_eq in Ek. subst j. rewrite (Z.eqb_sym k k'). destruct (k' =? k) eqn:E; reflexivity.
  - destruct (j =? k') eqn:E'.
    + apply Z.eqb_eq in E'. subst j. rewrite Ek. cbn. reflexivity.
    + exact IH.
Qed.
Lemma step_hash : forall hash h b, hash <> 0%nat -> step hash h (write h hash b) [].
Proof.
  intros hash h b Nh. constructor; cbn; auto; [constructor|intros q []|]. intros q _ X. destruct (Nat.eq_dec q hash) as [->|N]; [exfalso; auto|apply upd_other; assumption].
Qed.
Lemma register_ok : forall hash h key c l, sane h -> holds h hash l -> live_entry h c -> (hash <> 0%nat -> forall e, find l key = Some e -> live_entry h e) ->
  exists b h' l', register h hash key c = Ret (b, h') /\ step hash h h' [] /\ holds h' hash l' /\ (forall x, (x = hash -> hash = 0%nat) -> blk h' x = blk h x) /\
    (b = false -> exists i, h_ok h KNode i = false) /\ (forall k e, find l' k = Some e -> find l k = Some e \/ (k = key /\ e = c)).
Proof.
  intros hash h key c l Sa H [vc [sc [nc [kc Bc]]]] Sf. unfold register. destruct (Nat.eqb hash 0) eqn:Eh.
  { apply Nat.eqb_eq in Eh. exists true, h, l. split; [reflexivity|]. split; [apply step_refl|]. split; [assumption|]. split; [reflexivity|]. split; [discriminate|auto]. }
  apply Nat.eqb_neq in Eh. rewrite (H Eh). destruct (find l key) as [e|] eqn:Fd.
  - destruct (Sf Eh e eq_refl) as [ve [se [ne [ke Be]]]]. unfold entry_at. rewrite Bc. cbn [bind]. rewrite Be. cbn [bind]. destruct (sc >? se).
    + exists true. eexists. exists (replace l key c). split; [reflexivity|]. split; [apply step_hash; assumption|]. split; [intros _; cbn; apply upd_same|]. split.
      * intros x X. cbn. apply upd_other. intros ->. auto.
      * split; [discriminate|]. intros k e' F. rewrite find_replace, Fd, andb_true_r in F. destruct (k =? key) eqn:Ek; [|auto]. apply Z.eqb_eq in Ek. right. split; congruence.
    + exists true, h, l. split; [reflexivity|]. split; [apply step_refl|]. split; [assumption|]. split; [reflexivity|]. split; [discriminate|auto].
  - destruct (tick h KNode) as [ok h1] eqn:Tk. pose proof (step_tick hash _ _ _ _ Tk) as T1. assert (Bs : blk h1 = blk h) by (injection Tk as _ <-; reflexivity). destruct ok.
    + exists true. eexists. exists ((key, c) :: l). split; [reflexivity|]. split; [exact (step_trans _ _ _ _ [] [] _ Sa H T1 (step_hash hash h1 _ Eh))|]. split; [intros _; cbn; apply upd_same|]. split.
      * intros x X. cbn. rewrite upd_other; [congruence|]. intros ->. auto.
      * split; [discriminate|]. intros k e' F. cbn in F. destruct (key =? k) eqn:Ek; [|auto]. apply Z.eqb_eq in Ek. right. split; congruence.
    + exists false, h1, l. split; [reflexivity|]. split; [assumption|]. split; [intros N; rewrite Bs; auto|]. split; [intros; rewrite Bs; reflexivity|]. split; [|auto]. intros _. injection Tk as Tk _. eauto.
Qed.

Lemma build_good : forall hash p, good hash p.
Proof.
  intros hash p. induction p as [|size|size tmp l cut IH|size tmp key p IH] using plan_ind'; intros v h lh Sa H M Nv Bv Sf Ap.
  - exists 0%nat, h, [], lh. split; [reflexivity|]. split; [apply step_refl|]. split; [assumption|]. split; [intros k e E; auto|]. split; [auto|]. intros X. inversion X.
  - cbn [build]. destruct (new_entry_makes hash h KEntry v size 0 lh Sa H) as [e [h' [E [Eq [St [H' Q]]]]]]. exists e, h', E, lh. split; [assumption|]. split; [assumption|]. split; [assumption|]. split; [intros k x X; auto|].
    destruct Q as [[-> [-> [i Q]]]|[[Q1 [_ [-> Q2]]]|[c [_ [Q _]]]]]; [| |contradiction].
    + split; [auto|]. intros _ P. rewrite P in Q. discriminate.
    + split; [|auto]. right. split; [econstructor; eassumption|]. split; [reflexivity|constructor].
  - cbn [build]. destruct (with_tmp_ok hash tmp h lh Sa H) as [t [h1 [E1 [H1 Q1]]]]. rewrite E1. destruct t as [t|].
    2:{ destruct Q1 as [St1 [i Q]]. exists 0%nat, h1, [], lh. split; [reflexivity|]. split; [assumption|]. split; [assumption|]. split; [intros k x X; auto|]. split; [auto|]. intros _ P. rewrite P in Q. discriminate. }
    destruct Q1 as [St1 Bt]. pose proof (step_sane _ _ _ _ _ Sa H St1) as Sa1. pose proof (s_ok _ _ _ _ St1) as Ok1.
    assert (M1 : mild (h_ok h1)) by (rewrite Ok1; assumption).
    destruct (make_values_ok hash (length l) h1 lh Sa1 H1 (mild_itered _ M1)) as [vs [all [h2 [E2 [St2 [H2 [F2 A2]]]]]]]. rewrite E2.
    pose proof (step_trans _ _ _ _ _ _ _ Sa H St1 St2) as St2'.
    assert (Bt2 : t <> 0%nat -> blk h2 t <> None). { intros N. assert (I : In t (vl t ++ vs)) by (apply in_app_iff; left; apply in_vl; auto). apply (s_new _ _ _ _ St2' t I). }
    destruct (free_vl h2 t Bt2) as [h3 [E3 G3]]. rewrite E3. cbn [bind].
    destruct (step_drop hash h lh Sa H h2 h3 _ _ vs St2' G3 (Permutation_refl _)) as [St3 [Ag3 Out3]].
    pose proof (step_not_hash _ _ _ _ _ Sa H St2') as Nh2.
    assert (H3 : holds h3 hash lh) by (intros N; rewrite (Out3 _ Nh2); auto).
    assert (F3 : Forall (fun v => v <> 0%nat /\ blk h3 v = Some BVal) vs).
    { apply Forall_forall. intros q Q. rewrite Forall_forall in F2. destruct (F2 _ Q) as [X1 X2]. split; [assumption|]. rewrite Ag3; assumption. }
    pose proof (step_sane _ _ _ _ _ Sa H St3) as Sa3. pose proof (s_ok _ _ _ _ St3) as Ok3.
    (* the entry *)
    assert (Ent : exists e h4 E, (if all && negb cut then new_entry h3 KEntry v size (length l) else Ret (0%nat, h3)) = Ret (e, h4) /\ step hash h3 h4 E /\ holds h4 hash lh /\
      ((e = 0%nat /\ E = [] /\ (cut = true \/ exists k i, h_ok h k i = false)) \/
       (e <> 0%nat /\ length vs = length l /\ ((l = [] /\ E = [e] /\ blk h4 e = Some (BEntry v size 0 0%nat)) \/
         exists c, l <> [] /\ c <> 0%nat /\ E = [e; c] /\ blk h4 e = Some (BEntry v size (length l) c) /\ blk h4 c = Some (BKids (repeat 0%nat (length l))))))).
    { destruct all; cbn [andb].
      2:{ exists 0%nat, h3, []. split; [reflexivity|]. split; [apply step_refl|]. split; [assumption|]. left. split; [reflexivity|]. split; [reflexivity|]. right. destruct A2 as [_ [i A2]]. exists KVal, i. congruence. }
      destruct cut; cbn [negb].
      { exists 0%nat, h3, []. split; [reflexivity|]. split; [apply step_refl|]. split; [assumption|]. left. auto. }
      destruct (new_entry_makes hash h3 KEntry v size (length l) lh Sa3 H3) as [e [h4 [E [Eq [St [H4 Q]]]]]]. exists e, h4, E. split; [assumption|]. split; [assumption|]. split; [assumption|].
      destruct Q as [[-> [-> [i Q]]]|[[Q1 [Q2 [-> Q3]]]|[c [Q1 [Q2 [Q3 [-> [Q4 Q5]]]]]]]].
      - left. split; [reflexivity|]. split; [reflexivity|]. right. exists KEntry, i. congruence.
      - right. split; [assumption|]. split; [assumption|]. left. destruct l; [auto|discriminate].
      - right. split; [assumption|]. split; [assumption|]. right. exists c. destruct l; [cbn in Q2; congruence|]. repeat split; auto. discriminate. }
    destruct Ent as [e [h4 [E [E4 [St4 [H4 Q4]]]]]].
    assert (NoCut : e <> 0%nat -> cut = false). { intros N. destruct cut; [|reflexivity]. rewrite andb_false_r in E4. congruence. }
    rewrite E4. cbn [bind]. pose proof (step_trans _ _ _ _ _ _ _ Sa H St3 St4) as St4'.
    pose proof (step_sane _ _ _ _ _ Sa3 H3 St4) as Sa4. pose proof (s_ok _ _ _ _ St4) as Ok4. assert (Ok : h_ok h4 = h_ok h) by congruence.
    assert (F4 : Forall (fun v => v <> 0%nat /\ blk h4 v = Some BVal) vs).
    { apply Forall_forall. intros q Q. rewrite Forall_forall in F3. destruct (F3 _ Q) as [X1 X2]. split; [assumption|]. rewrite (step_live _ _ _ _ _ _ Sa3 H3 St4); [assumption|congruence|exact (val_not_hash _ _ _ _ H3 X1 X2)]. }
    fold (builds hash). change ((fix go (l0 : list plan) (vs0 : list ptr) (h0 : heap) {struct l0} : res (list ptr * heap) :=
         match l0, vs0 with
         | p :: l1, v0 :: vs1 => bind (if Nat.eqb v0 0 then Ret (0%nat, h0) else build hash p v0 h0) (fun '(r, h5) => bind (go l1 vs1 h5) (fun '(rs, h6) => Ret (r :: rs, h6)))
         | _, _ => Ret ([], h0)
         end) l vs h4) with (builds hash l vs h4).
    destruct (builds_ok hash l IH vs h4 lh Sa4 H4) as [rs [h5 [L [lh5 [E5 [St5 [H5 [Nw5 [R5 [W5 [A5 Lr]]]]]]]]]]].
    { rewrite Ok. assumption. }
    { assumption. }
    { destruct all; [apply Nat.eq_le_incl; exact A2|apply Nat.lt_le_incl; exact (proj1 A2)]. }
    { intros N k x I Fd. eapply step_entry; [exact Sa|exact H|exact St4'|]. exact (Sf N k x I Fd). }
    { intros N. rewrite Ok. specialize (Ap N). inversion Ap; auto. }
    rewrite E5. cbn [bind]. pose proof (step_trans _ _ _ _ _ _ _ Sa H St4' St5) as St5'.
    assert (F5 : Forall (fun v => v <> 0%nat /\ blk h5 v = Some BVal) vs).
    { apply Forall_forall. intros q Q. rewrite Forall_forall in F4. destruct (F4 _ Q) as [X1 X2]. split; [assumption|]. rewrite (step_live _ _ _ _ _ _ Sa4 H4 St5); [assumption|congruence|exact (val_not_hash _ _ _ _ H4 X1 X2)]. }
    rewrite (results_queue _ _ _ _ R5 F5). pose proof (s_ok _ _ _ _ St5) as Ok5. assert (It5 : itered h5) by (apply mild_itered; rewrite Ok5, Ok; assumption).
    pose proof (step_not_hash _ _ _ _ _ Sa H St5') as Nh5. cbn [keys]. destruct Q4 as [[-> [-> Why]]|[Ne [Lv Q4]]].
    + (* no entry *)
      cbn [Nat.eqb bind]. rewrite app_nil_r in St5'. destruct (drop_ok hash h lh Sa H vs rs h5 L _ [] St5') as [h6 [E6 [St6 [_ Out6]]]]; [rewrite app_nil_r; reflexivity|assumption|assumption|assumption|].
      rewrite E6. cbn. exists 0%nat, h6, [], lh5. split; [reflexivity|]. split; [assumption|]. split; [intros N; rewrite Out6; [auto|]|].
      { rewrite app_nil_r in Nh5. assumption. }
      split; [|split; [auto|]].
      * intros k x Fd. destruct (Nw5 _ _ Fd) as [Y|[Y _]]; [auto|]. right. split; [assumption|]. congruence.
      * intros Ac Pl. exfalso. destruct Why as [->|[k [i X]]]; [inversion Ac|]. rewrite Pl in X. discriminate.
    + rewrite (eqb0 _ Ne). destruct Q4 as [[-> [-> Be]]|[c [Nl [Nc [-> [Be Bc]]]]]].
      * (* nothing in it *)
        destruct vs; [|discriminate]. destruct rs; [|discriminate]. cbn [combine collect bind]. inversion R5; subst. cbn in E5. injection E5 as <-. exists e, h4, [e], lh. split; [reflexivity|]. split; [exact St4'|]. split; [assumption|].
        split; [intros k x X; auto|]. split; [|auto]. right. split; [econstructor; eassumption|]. split; [reflexivity|]. specialize (NoCut Ne). subst cut. constructor. constructor.
      * assert (Ne5 : blk h5 e = Some (BEntry v size (length l) c)). { rewrite (step_live _ _ _ _ _ _ Sa4 H4 St5); [assumption|congruence|]. intros ->. rewrite (H4 Ne) in Be. discriminate. }
        assert (Nc5 : blk h5 c = Some (BKids (repeat 0%nat (length l)))). { rewrite (step_live _ _ _ _ _ _ Sa4 H4 St5); [assumption|congruence|]. intros ->. rewrite (H4 Nc) in Bc. discriminate. }
        assert (Pm : Permutation ((vs ++ [e; c]) ++ L) (e :: c :: [] ++ vs ++ L)). { rewrite <- app_assoc. cbn. rewrite <- Permutation_middle. apply perm_skip. rewrite <- Permutation_middle. reflexivity. }
        destruct (collect_ok hash h lh Sa H e c v size (length l) Ne Nc vs rs h5 L [] [] (length l) _ St5' Pm R5 Ne5 Nc5) as [b [q [h6 [E6 [Out6 X]]]]]; [lia|constructor|assumption|].
        cbn [length] in E6. rewrite E6. cbn [bind]. assert (H6 : holds h6 hash lh5) by (intros N; rewrite (Out6 _ Nh5); auto).
        destruct X as [[-> [-> [Fz [K [St6 [Oth [Be6 [Bc6 [O6 PK]]]]]]]]]|[-> [Fz [vs' [rs' [L' [done' [Ld' [m' [T' [-> [St6 [Pm6 [R6 [Be6 [Bc6 [Lm [O6 F6]]]]]]]]]]]]]]]]]].
        -- cbn [app] in *. match type of Bc6 with context [(?a - ?b)%nat] => replace (a - b)%nat with 0%nat in Bc6 by (unfold ptr in *; lia) end. cbn in Bc6. rewrite app_nil_r in Bc6.
           assert (PT : Permutation ((vs ++ [e; c]) ++ L) (e :: c :: K)) by (rewrite Pm, PK; reflexivity).
           exists e, h6, (e :: c :: K), lh5. split; [reflexivity|]. split; [eapply step_perm; eassumption|]. split; [assumption|]. split; [|split; [|auto]].
           ++ intros k x Fd. destruct (Nw5 _ _ Fd) as [Y|[Y1 Y2]]; [auto|]. right. split; [assumption|]. intros _. destruct (Y2 (conj Fz Lv)) as [Y3 [v' [s' [n' [c' Y4]]]]]. split.
              ** right. right. rewrite PK. apply in_app_iff. auto.
              ** exists v', s', n', c'. rewrite Oth; [assumption|]. intros Xe. rewrite Xe, Nc5 in Y4. discriminate.
           ++ right. split.
              ** apply (ow_node h6 e v size (length l) c rs K); auto; [destruct l; [congruence|discriminate]|exact (eq_trans Lr Lv)].
              ** cbn. pose proof (Permutation_length PK) as X. rewrite app_length in X. destruct (W5 Fz Lv) as [W Acl]. split; [|specialize (NoCut Ne); subst cut; constructor; assumption]. rewrite X. change (S (S (S (length vs + length L))) = weight (Parts size tmp l cut)). cbn [weight]. unfold ptr in *. rewrite W. destruct l; [congruence|reflexivity].
        -- assert (It6 : itered h6) by (apply mild_itered; rewrite (s_ok _ _ _ _ St6); assumption).
           assert (Pm7 : Permutation T' (vs' ++ L' ++ (e :: c :: Ld'))). { rewrite Pm6. change (Permutation ((e :: c :: Ld') ++ (vs' ++ L')) (vs' ++ L' ++ e :: c :: Ld')). etransitivity; [apply Permutation_app_comm|]. rewrite <- app_assoc. reflexivity. }
           destruct (drop_ok hash h lh Sa H vs' rs' h6 L' T' (e :: c :: Ld') St6 Pm7 R6 F6 It6) as [h7 [E7 [St7 [Ag7 Out7]]]]. rewrite E7. cbn [bind].
           assert (It7 : itered h7) by (apply mild_itered; rewrite (s_ok _ _ _ _ St7); assumption).
           destruct (abandon_ok hash h lh Sa H h7 e c v size (length l) (done' ++ repeat 0%nat m') Ld' _ St7 (Permutation_refl _) Ne Nc) as [h8 [E8 [St8 Out8]]].
           { destruct l; [congruence|discriminate]. }
           { rewrite Ag7 by (left; reflexivity). assumption. }
           { rewrite Ag7 by (right; left; reflexivity). assumption. }
           { rewrite app_length, repeat_length. cbn in Lm. lia. }
           { apply owns_zeros. apply (proj2 own_frames _ _ _ O6). intros x I. apply Ag7. right. right. assumption. }
           { assumption. }
           rewrite E8. cbn. exists 0%nat, h8, [], lh5. split; [reflexivity|]. split; [assumption|]. split; [|split; [|split; [auto|]]].
           ++ intros N. rewrite Out8, Out7; [auto| |]; [exact (step_not_hash _ _ _ _ _ Sa H St6)|exact (step_not_hash _ _ _ _ _ Sa H St7)].
           ++ intros k x Fd. destruct (Nw5 _ _ Fd) as [Y|[Y _]]; [auto|]. right. split; [assumption|]. congruence.
           ++ intros Ac Pl. exfalso. apply Fz. apply A5; [inversion Ac; assumption|]. rewrite Ok. assumption.
  - cbn [build]. destruct (with_tmp_ok hash tmp h lh Sa H) as [t [h1 [E1 [H1 Q1]]]]. rewrite E1. destruct t as [t|].
    2:{ destruct Q1 as [St1 [i Q]]. exists 0%nat, h1, [], lh. split; [reflexivity|]. split; [assumption|]. split; [assumption|]. split; [intros k x X; auto|]. split; [auto|]. intros _ P. rewrite P in Q. discriminate. }
    destruct Q1 as [St1 Bt]. pose proof (step_sane _ _ _ _ _ Sa H St1) as Sa1. pose proof (s_ok _ _ _ _ St1) as Ok1.
    destruct (alloc h1 KVal BVal) as [a h2] eqn:A2. pose proof (alloc_other _ _ _ _ _ Sa1 A2) as O2.
    assert (All : exists T, step hash h1 h2 T /\ ((a = 0%nat /\ T = [] /\ exists i, h_ok h1 KVal i = false) \/ (a <> 0%nat /\ T = [a] /\ blk h2 a = Some BVal))).
    { destruct (step_alloc hash _ _ _ _ _ Sa1 A2) as [[_ [X1 [X2 X3]]]|[X1 [X2 X3]]]; [exists [a]|exists []]; split; eauto 6. }
    destruct All as [T2 [St2 Q2]]. pose proof (step_trans _ _ _ _ _ _ _ Sa H St1 St2) as St2'.
    assert (Bt2 : t <> 0%nat -> blk h2 t <> None). { intros N. assert (I : In t (vl t ++ T2)) by (apply in_app_iff; left; apply in_vl; auto). apply (s_new _ _ _ _ St2' t I). }
    assert (H2 : holds h2 hash lh). { intros N. rewrite O2; [auto|]. intros ->. destruct Q2 as [[-> _]|[_ [-> _]]]; [contradiction|]. apply (step_not_hash _ _ _ _ _ Sa1 H1 St2). left. reflexivity. }
    destruct (free_vl h2 t Bt2) as [h3 [E3 G3]]. rewrite E3. cbn [bind].
    destruct (step_drop hash h lh Sa H h2 h3 _ _ T2 St2' G3 (Permutation_refl _)) as [St3 [Ag3 Out3]].
    pose proof (step_not_hash _ _ _ _ _ Sa H St2') as Nh2.
    assert (H3 : holds h3 hash lh) by (intros N; rewrite (Out3 _ Nh2); auto).
    destruct Q2 as [[-> [-> [i Q2]]]|[Na [-> Ba]]].
    { cbn [Nat.eqb]. exists 0%nat, h3, [], lh. split; [reflexivity|]. split; [assumption|]. split; [assumption|]. split; [intros k x X; auto|]. split; [auto|]. intros _ P. rewrite Ok1, P in Q2. discriminate. }
    rewrite (eqb0 _ Na). destruct (tick h3 KIter) as [okk h4] eqn:Tk. pose proof (step_sane _ _ _ _ _ Sa H St3) as Sa3. pose proof (s_ok _ _ _ _ St3) as Ok3.
    assert (Y : okk = true). { injection Tk as <- _. rewrite Ok3. apply (mild_itered _ M). } subst okk.
    pose proof (step_tick hash _ _ _ _ Tk) as St4. assert (Bs : blk h4 = blk h3) by (injection Tk as _ <-; reflexivity).
    assert (H4 : holds h4 hash lh) by (intros N; rewrite Bs; auto). pose proof (step_sane _ _ _ _ _ Sa3 H3 St4) as Sa4. pose proof (step_trans _ _ _ _ _ _ _ Sa H St3 St4) as St4'. cbn [app] in St4'.
    pose proof (s_ok _ _ _ _ St4) as Ok4.
    destruct (new_entry_makes hash h4 KPtrEntry v size 1 lh Sa4 H4) as [e [h5 [E [E5 [St5 [H5 Q]]]]]]. rewrite E5. cbn [bind].
    destruct Q as [[-> [-> [i Q]]]|[[_ [X _]]|[c [Ne [_ [Nc [-> [Be Bc]]]]]]]]; [|discriminate|].
    { exfalso. rewrite Ok4, Ok3, (M KPtrEntry i) in Q; [discriminate|cbn; tauto]. }
    rewrite (eqb0 _ Ne). pose proof (step_trans _ _ _ _ _ _ _ Sa H St4' St5) as St5'. cbn [app] in St5'. pose proof (step_sane _ _ _ _ _ Sa H St5') as Sa5. pose proof (s_ok _ _ _ _ St5') as Ok5.
    assert (Ba5 : blk h5 a = Some BVal). { rewrite (step_live _ _ _ _ _ _ Sa4 H4 St5); rewrite ?Bs, ?(Ag3 a (or_introl eq_refl)); [assumption|congruence|]. exact (val_not_hash _ _ _ _ H2 Na Ba). }
    cbn [repeat] in Bc.
    destruct (IH a h5 lh Sa5 H5) as [r [h6 [L [lh6 [E6 [St6 [H6 [Nw6 [O6 A6]]]]]]]]].
    { rewrite Ok5. assumption. }
    { assumption. }
    { assumption. }
    { intros N k x I Fd. eapply step_entry; [exact Sa|exact H|exact St5'|]. apply (Sf N k x); [right; assumption|assumption]. }
    { intros N. rewrite Ok5. specialize (Ap N). inversion Ap; assumption. }
    rewrite E6. cbn [bind]. pose proof (step_trans _ _ _ _ _ _ _ Sa H St5' St6) as St6'.
    assert (Keep : forall x b, x <> 0%nat -> blk h5 x = Some b -> (forall l, b <> BHash l) -> blk h6 x = Some b).
    { intros x b Nx Bx Nb. rewrite (step_live _ _ _ _ _ _ Sa5 H5 St6); [assumption|congruence|]. intros ->. rewrite (H5 Nx) in Bx. injection Bx as <-. exact (Nb _ eq_refl). }
    assert (Ba6 := Keep a _ Na Ba5 ltac:(discriminate)). assert (Be6 := Keep e _ Ne Be ltac:(discriminate)). assert (Bc6 := Keep c _ Nc Bc ltac:(discriminate)).
    pose proof (step_not_hash _ _ _ _ _ Sa H St6') as Nh6. assert (Ok6 : h_ok h6 = h_ok h) by exact (s_ok _ _ _ _ St6').
    destruct O6 as [[-> ->]|[Ow [Wt Acp]]].
    + cbn [Nat.eqb]. destruct (free_gone h6 a Na) as [h7 [E7 G7]]; [congruence|]. rewrite E7. cbn [bind]. cbn [app] in *.
      destruct (step_drop hash h lh Sa H h6 h7 _ [a] [e; c] St6' G7 (Permutation_refl _)) as [St7 [Ag7 Out7]].
      destruct (abandon_ok hash h lh Sa H h7 e c v size 1%nat [0%nat] [] [e; c] St7 (Permutation_refl _) Ne Nc) as [h8 [E8 [St8 Out8]]].
      { discriminate. }
      { rewrite Ag7 by (left; reflexivity). assumption. }
      { rewrite Ag7 by (right; left; reflexivity). assumption. }
      { reflexivity. }
      { constructor. constructor. }
      { apply mild_itered. rewrite (s_ok _ _ _ _ St7). assumption. }
      rewrite E8. cbn [bind]. exists 0%nat, h8, [], lh6. split; [reflexivity|]. split; [assumption|]. split; [|split; [|split; [auto|]]].
      * intros N. rewrite Out8, Out7; [auto| |]; [assumption|]. exact (step_not_hash _ _ _ _ _ Sa H St7).
      * intros k x Fd. destruct (Nw6 _ _ Fd) as [Y|[Y _]]; [auto|]. right. split; [right; assumption|]. congruence.
      * intros Ac Pl. exfalso. inversion Ac; subst. apply A6; [assumption| |reflexivity]. rewrite Ok5. assumption.
    + destruct (own_entry _ _ _ _ Ow) as [Nr [sr [nr [kr Br]]]]. rewrite (eqb0 _ Nr). unfold hang, entry_at at 1 2. rewrite Be6. cbn [bind]. rewrite Br. cbn [bind]. rewrite Bc6. cbn [put_nth bind].
      set (h7 := write h6 c (BKids [r])).
      assert (PT : Permutation ([a; e; c] ++ L) (e :: c :: a :: L)). { cbn. rewrite perm_swap. apply perm_skip. apply perm_swap. }
      pose proof (Permutation_NoDup PT (s_nodup _ _ _ _ St6')) as D. inversion D as [|? ? De D1]; subst. inversion D1 as [|? ? Dc D2]; subst.
      assert (St7 : step hash h h7 (e :: c :: a :: L)). { eapply step_perm; [apply step_write; [exact St6'|]|exact PT]. right. right. left. reflexivity. }
      assert (Oth : forall x, x <> c -> blk h7 x = blk h6 x) by (intros x X; cbn; apply upd_other; assumption).
      assert (Hc : hash <> c). { intros ->. apply Nh6. right. right. left. reflexivity. }
      assert (H7 : holds h7 hash lh6) by (intros N; rewrite Oth by assumption; auto). pose proof (step_sane _ _ _ _ _ Sa H St7) as Sa7.
      assert (Lv7 : forall x, live_entry h6 x -> live_entry h7 x). { intros x [xv [xs [xn [xk X]]]]. exists xv, xs, xn, xk. rewrite Oth; [assumption|]. intros Xe. rewrite Xe, Bc6 in X. discriminate. }
      assert (Ow7 : own h7 r a L). { apply (proj1 own_frames _ _ _ _ Ow). intros x I. apply Oth. intros Xe. rewrite Xe in I. apply Dc. right. assumption. }
      assert (Be7 : blk h7 e = Some (BEntry v size 1 c)). { rewrite Oth; [assumption|]. intros Xe. apply De. left. symmetry. assumption. }
      assert (Ba7 : blk h7 a = Some BVal). { rewrite Oth; [assumption|]. intros Xe. apply Dc. left. assumption. }
      assert (Bc7 : blk h7 c = Some (BKids [r])) by (cbn; apply upd_same).
      destruct (register_ok hash h7 key r lh6 Sa7 H7) as [b [h8 [lh8 [E8 [St8 [H8 [Out8 [Bf Nw8]]]]]]]].
      { apply Lv7. exists a, sr, nr, kr. assumption. }
      { intros N x Fd. destruct (Nw6 _ _ Fd) as [Y|[_ Y]].
        - eapply step_entry; [exact Sa|exact H|exact St7|]. apply (Sf N key x); [left; reflexivity|assumption].
        - apply Lv7. apply Y. assumption. }
      match goal with |- context [register ?x hash key r] => change (register x hash key r) with (register h7 hash key r) end. rewrite E8. cbn [bind]. pose proof (step_trans _ _ _ _ _ _ _ Sa H St7 St8) as St8'. rewrite app_nil_r in St8'.
      pose proof (step_not_hash _ _ _ _ _ Sa H St8') as Nh8.
      assert (In8 : forall x, In x (e :: c :: a :: L) -> blk h8 x = blk h7 x). { intros x I. apply Out8. intros ->. contradiction. }
      assert (Os8 : owns h8 [r] (a :: L)). { rewrite <- (app_nil_r L). apply os_cons; [assumption|rewrite In8; [assumption|right; right; left; reflexivity]| |constructor]. apply (proj1 own_frames _ _ _ _ Ow7). intros x I. apply In8. right. right. right. assumption. }
      assert (Be8 : blk h8 e = Some (BEntry v size 1 c)) by (rewrite In8 by (left; reflexivity); assumption).
      assert (Bc8 : blk h8 c = Some (BKids [r])) by (rewrite In8 by (right; left; reflexivity); assumption).
      destruct b.
      * exists e, h8, (e :: c :: a :: L), lh8. split; [reflexivity|]. split; [assumption|]. split; [assumption|]. split; [|split; [|auto]].
        -- assert (Lv8 : forall x, live_entry h6 x -> live_entry h8 x). { intros x X. eapply step_entry; [exact Sa7|exact H7|exact St8|]. auto. }
           intros k x Fd. destruct (Nw8 _ _ Fd) as [Y|[-> ->]].
           ++ destruct (Nw6 _ _ Y) as [Z1|[Z1 Z2]]; [auto|]. right. split; [right; assumption|]. intros _. destruct (Z2 Nr) as [Z3 Z4]. split; [right; right; right; assumption|auto].
           ++ right. split; [left; reflexivity|]. intros _. split; [right; right; right; exact (own_head _ _ _ _ Ow)|]. apply Lv8. exists a, sr, nr, kr. assumption.
        -- right. split.
           ++ apply (ow_node h8 e v size 1%nat c [r] (a :: L)); auto.
           ++ split; [cbn; cbn in Wt; lia|constructor; assumption].
      * destruct (abandon_ok hash h lh Sa H h8 e c v size 1%nat [r] (a :: L) _ St8' (Permutation_refl _) Ne Nc) as [h9 [E9 [St9 Out9]]]; auto.
        { apply mild_itered. rewrite (s_ok _ _ _ _ St8'). assumption. }
        rewrite E9. cbn [bind]. exists 0%nat, h9, [], lh8. split; [reflexivity|]. split; [assumption|]. split; [|split; [|split; [auto|]]].
        -- intros N. rewrite Out9; auto.
        -- intros k x Fd. destruct (Nw8 _ _ Fd) as [Y|[-> ->]].
           ++ destruct (Nw6 _ _ Y) as [Z1|[Z1 Z2]]; [auto|]. right. split; [right; assumption|]. congruence.
           ++ right. split; [left; reflexivity|]. congruence.
        -- intros Ac Pl. exfalso. destruct (Bf eq_refl) as [i X]. rewrite (s_ok _ _ _ _ St7), Pl in X. discriminate.
Qed.
