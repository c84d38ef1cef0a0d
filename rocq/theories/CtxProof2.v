(** Handler contexts: destructors and histories (C63). *)
From Coq Require Import ZArith String List Bool Lia Permutation.
From Verif Require Import Base EntryModel HandlerModel CtxModel CtxSpec CtxProof.
Import ListNotations.
Open Scope Z_scope.

(** [h'] is [h] without the blocks [L] *)
Record gone (h h' : heap) (L : list ptr) : Prop := {
  go_ok : h_ok h' = h_ok h;
  go_next : h_next h' = h_next h;
  go_in : forall q, In q L -> blk h' q = None;
  go_out : forall q, ~ In q L -> blk h' q = blk h q }.
Lemma gone_app : forall h h1 h2 L L', gone h h1 L -> gone h1 h2 L' -> gone h h2 (L ++ L').
Proof.
  intros h h1 h2 L L' [O1 N1 I1 E1] [O2 N2 I2 E2]. constructor; try congruence.
  - intros q Q. apply in_app_iff in Q. destruct (in_dec Nat.eq_dec q L') as [X|X]; [auto|]. rewrite E2 by assumption. destruct Q; [auto|contradiction].
  - intros q Q. rewrite in_app_iff in Q. rewrite E2, E1 by tauto. reflexivity.
Qed.
Lemma gone_perm : forall h h' L L', gone h h' L -> Permutation L L' -> gone h h' L'.
Proof.
  intros h h' L L' [O N I E] P. constructor; auto.
  - intros q Q. apply I. eapply Permutation_in; [symmetry; eassumption|assumption].
  - intros q Q. apply E. intros X. apply Q. eapply Permutation_in; eassumption.
Qed.
Lemma free_gone : forall h p, p <> 0%nat -> blk h p <> None -> exists h', free h p = Ret h' /\ gone h h' [p].
Proof.
  intros h p N B. destruct (free_live h p N B) as [h' [F1 [F2 [F3 F4]]]]. exists h'. split; [assumption|]. constructor; auto; rewrite F4.
  - intros q [<-|[]]. apply upd_same.
  - intros q Q. apply upd_other. intros ->. apply Q. left. reflexivity.
Qed.
Lemma gone_nil : forall h, gone h h [].
Proof. intros h. constructor; auto. intros q []. Qed.
Lemma free_name_gone : forall h q o L, name_at h q o L -> exists h', free_name h q = Ret h' /\ gone h h' L.
Proof.
  intros h q o L [|p s N B]; unfold free_name; [exists h; split; [reflexivity|apply gone_nil]|]. rewrite (eqb0 _ N). apply free_gone; [assumption|congruence].
Qed.
Lemma free_arr_gone : forall {A} (b : list A -> block) h n q l L, arr_at b h n q l L -> exists h', free_name h q = Ret h' /\ gone h h' L.
Proof.
  intros A b h n q l L [|p x r N B]; unfold free_name; [exists h; split; [reflexivity|apply gone_nil]|]. rewrite (eqb0 _ N). apply free_gone; [assumption|congruence].
Qed.
Lemma nodup_disj : forall {A} (a b : list A) x, NoDup (a ++ b) -> In x a -> In x b -> False.
Proof.
  intros A a b x D I J. induction a as [|y a IH]; [contradiction|]. cbn in D. inversion D; subst. destruct I as [->|I]; [|auto]. apply H1. apply in_app_iff. auto.
Qed.
Lemma nodup_left : forall {A} (a b : list A), NoDup (a ++ b) -> NoDup a.
Proof.
  intros A a b D. induction a as [|y a IH]; [constructor|]. cbn in D. inversion D; subst. constructor; [|auto]. intros I. apply H1. apply in_app_iff. auto.
Qed.
Lemma nodup_right : forall {A} (a b : list A), NoDup (a ++ b) -> NoDup b.
Proof. intros A a b D. induction a as [|y a IH]; [assumption|]. cbn in D. inversion D; subst. auto. Qed.
Lemma gone_agree : forall h h' L L', gone h h' L -> (forall x, In x L' -> ~ In x L) -> agree h h' L'.
Proof. intros h h' L L' G D q Q. apply (go_out _ _ _ G). auto. Qed.
Lemma nodup_cons : forall {A} (p : A) L, NoDup (p :: L) -> ~ In p L.
Proof. intros A p L D. inversion D; assumption. Qed.

Lemma delete_gone : forall h p c L, ctx_at h p c L -> NoDup L -> exists h', delete_ctx h p = Ret h' /\ gone h h' L.
Proof.
  intros h p c L H D. unfold delete_ctx. destruct H as [|p q o L N B Q|p o e N B|p i N B|p q o L n c l L' N B Q R|p q o L r s L1 n c l L' N B Q Q' R].
  - exists h. split; [reflexivity|apply gone_nil].
  - rewrite (eqb0 _ N), B. unfold count_by_delete. rewrite (eqb0 _ N), B.
    destruct (free_name_gone _ _ _ _ Q) as [h1 [F1 G1]]. rewrite F1. cbn [bind].
    destruct (free_gone h1 p N) as [h2 [F2 G2]]. { rewrite (go_out _ _ _ G1); [congruence|apply nodup_cons; assumption]. }
    exists h2. split; [assumption|]. eapply gone_perm; [eapply gone_app; eassumption|]. rewrite Permutation_app_comm. reflexivity.
  - rewrite (eqb0 _ N), B. unfold container_of_delete. rewrite (eqb0 _ N), B. apply free_gone; [assumption|congruence].
  - rewrite (eqb0 _ N), B. unfold union_delete. rewrite (eqb0 _ N), B. cbn. apply free_gone; [assumption|congruence].
  - rewrite (eqb0 _ N), B. unfold union_delete. rewrite (eqb0 _ N), B. pose proof (nodup_cons _ _ D) as Dp. inversion D as [|? ? _ D' ]; subst.
    destruct (free_name_gone _ _ _ _ Q) as [h1 [F1 G1]]. rewrite F1. cbn [bind].
    assert (R1 : arr_at BUCases h1 n c (map lit_case l) L') by (eapply arr_frame; [eassumption|]; eapply gone_agree; [eassumption|]; intros x X Y; apply (nodup_disj L L' x D' Y X)).
    destruct (free_arr_gone _ _ _ _ _ _ R1) as [h2 [F2 G2]]. rewrite F2. cbn [bind]. pose proof (gone_app _ _ _ _ _ G1 G2) as G3.
    destruct (free_gone h2 p N) as [h3 [F3 G4]]. { rewrite (go_out _ _ _ G3); [congruence|assumption]. }
    exists h3. split; [assumption|]. eapply gone_perm; [eapply gone_app; eassumption|]. rewrite Permutation_app_comm. reflexivity.
  - rewrite (eqb0 _ N), B. unfold ptr_cast_delete. rewrite (eqb0 _ N), B. pose proof (nodup_cons _ _ D) as Dp. inversion D as [|? ? _ D' ]; subst.
    destruct (free_name_gone _ _ _ _ Q') as [h1 [F1 G1]]. rewrite F1. cbn [bind].
    assert (Q1 : name_at h1 q o L). { eapply name_frame; [eassumption|]. eapply gone_agree; [eassumption|]. intros x X Y. apply (nodup_disj L (L1 ++ L') x D' X). apply in_app_iff. auto. }
    destruct (free_name_gone _ _ _ _ Q1) as [h2 [F2 G2]]. rewrite F2. cbn [bind]. pose proof (gone_app _ _ _ _ _ G1 G2) as G3.
    assert (R1 : arr_at BPCases h2 n c l L').
    { eapply arr_frame; [eassumption|]. eapply gone_agree; [eassumption|]. intros x X Y. apply in_app_iff in Y. destruct Y as [Y|Y].
      - apply nodup_right in D'. apply (nodup_disj L1 L' x D' Y X).
      - apply (nodup_disj L (L1 ++ L') x D' Y). apply in_app_iff. auto. }
    destruct (free_arr_gone _ _ _ _ _ _ R1) as [h3 [F3 G4]]. rewrite F3. cbn [bind]. pose proof (gone_app _ _ _ _ _ G3 G4) as G5.
    assert (Pm : Permutation ((L1 ++ L) ++ L') (L ++ L1 ++ L')) by (rewrite app_assoc; apply Permutation_app_tail, Permutation_app_comm).
    pose proof (gone_perm _ _ _ _ G5 Pm) as G6.
    destruct (free_gone h3 p N) as [h4 [F5 G7]]. { rewrite (go_out _ _ _ G6); [congruence|assumption]. }
    exists h4. split; [assumption|]. eapply gone_perm; [eapply gone_app; eassumption|]. rewrite Permutation_app_comm. reflexivity.
Qed.

(** * Places *)
Section Places.
Context {A : Type}.
Variable here : heap -> ptr -> option A -> list ptr -> Prop.
Variable size : A -> nat.
Hypothesis here_null : forall h o L, here h 0%nat o L -> o = None /\ L = [].
Hypothesis null_here : forall h, here h 0%nat None [].
Hypothesis here_none : forall h p L, here h p None L -> p = 0%nat.
Hypothesis here_frame : forall h h' p o L, here h p o L -> agree h h' L -> here h' p o L.
Hypothesis here_size : forall h p o L, here h p o L -> length L = match o with Some a => size a | None => 0%nat end.
Inductive placed (h : heap) : list ptr -> list (option A) -> list ptr -> Prop :=
| pl_nil : placed h [] [] []
| pl_cons p o L ps os Ls : here h p o L -> placed h ps os Ls -> placed h (p :: ps) (o :: os) (L ++ Ls).
Lemma placed_frame : forall h h' ps os Ls, placed h ps os Ls -> agree h h' Ls -> placed h' ps os Ls.
Proof.
  intros h h' ps os Ls H. induction H; intros G; constructor.
  - eapply here_frame; [eassumption|]. intros q Q. apply G, in_app_iff. auto.
  - apply IHplaced. intros q Q. apply G, in_app_iff. auto.
Qed.
Lemma placed_length : forall h ps os Ls, placed h ps os Ls -> length os = length ps.
Proof. intros h ps os Ls H. induction H; cbn; congruence. Qed.
Lemma placed_size : forall h ps os Ls, placed h ps os Ls -> length Ls = list_sum (map (fun o => match o with Some a => size a | None => 0%nat end) os).
Proof. intros h ps os Ls H. induction H; [reflexivity|]. rewrite app_length, (here_size _ _ _ _ H), IHplaced. reflexivity. Qed.
Lemma placed_end : forall h p o L ps os Ls, placed h ps os Ls -> here h p o L -> placed h (ps ++ [p]) (os ++ [o]) (Ls ++ L).
Proof.
  intros h p o L ps os Ls H K. induction H.
  - cbn. rewrite <- (app_nil_r L). constructor; [assumption|constructor].
  - cbn [app]. rewrite <- app_assoc. constructor; assumption.
Qed.
(** one place taken out *)
Lemma placed_at : forall h ps os Ls, placed h ps os Ls -> forall i, exists L Lr, here h (place ps i) (nth i os None) L /\ Permutation Ls (L ++ Lr) /\
  (forall h' p o L', agree h h' Lr -> here h' p o L' -> (i < length ps)%nat ->
     exists ps' os' Ls', placed h' ps' os' Ls' /\ Permutation Ls' (L' ++ Lr) /\ replaced os i o os' /\ (forall j, place ps' j = if Nat.eqb j i then p else place ps j) /\ length ps' = length ps).
Proof.
  intros h ps os Ls H. induction H as [|p o L ps os Ls K H IH]; intros i.
  - exists [], []. split; [unfold place; destruct i; apply null_here|]. split; [reflexivity|]. cbn. intros. lia.
  - destruct i as [|i].
    + exists L, Ls. split; [exact K|]. split; [reflexivity|]. intros h' p' o' L' G K' _. exists (p' :: ps), (o' :: os), (L' ++ Ls).
      split; [constructor; [assumption|eapply placed_frame; eassumption]|]. split; [reflexivity|]. split; [|split; [|reflexivity]].
      * split; [reflexivity|]. intros [|j] d J; reflexivity.
      * intros [|j]; reflexivity.
    + destruct (IH i) as [L1 [Lr [Q1 [Q2 Q3]]]]. exists L1, (L ++ Lr). split; [exact Q1|]. split.
      * rewrite Q2. rewrite !app_assoc. apply Permutation_app_tail, Permutation_app_comm.
      * intros h' p' o' L' G K' Lt. destruct (Q3 h' p' o' L') as [ps' [os' [Ls' [X1 [X2 [X3 [X4 X5]]]]]]]; [intros q Q; apply G, in_app_iff; auto|assumption|cbn in Lt; lia|].
        exists (p :: ps'), (o :: os'), (L ++ Ls'). split; [constructor; [eapply here_frame; [eassumption|]; intros q Q; apply G, in_app_iff; auto|assumption]|].
        split; [rewrite X2, !app_assoc; apply Permutation_app_tail, Permutation_app_comm|]. split; [|split].
        -- destruct X3 as [Y1 Y2]. split; [cbn; congruence|]. intros [|j] d J; [reflexivity|]. cbn in *. apply Y2. lia.
        -- intros [|j]; [reflexivity|]. cbn. apply X4.
        -- cbn. congruence.
Qed.
End Places.
Lemma set_null_spec : forall ps i ps', length ps' = length ps -> (forall j, place ps' j = if Nat.eqb j i then 0%nat else place ps j) -> ps' = set_null ps i.
Proof.
  intros ps. induction ps as [|p ps IH]; intros i [|p' ps'] Le H; try discriminate; [destruct i; reflexivity|]. destruct i as [|i]; cbn.
  - f_equal; [exact (H 0%nat)|]. assert (E : forall j, place ps' j = place ps j) by (intros j; exact (H (S j))). clear -Le E. injection Le as Le. revert ps Le E.
    induction ps' as [|a r IH]; intros [|b s] Le E; try discriminate; [reflexivity|]. f_equal; [exact (E 0%nat)|]. apply IH; [cbn in Le; congruence|]. intros j. exact (E (S j)).
  - f_equal; [exact (H 0%nat)|]. apply IH; [cbn in Le; congruence|]. intros j. exact (H (S j)).
Qed.
Lemma set_null_out : forall ps i, (length ps <= i)%nat -> set_null ps i = ps.
Proof. intros ps. induction ps as [|p ps IH]; intros i Le; [destruct i; reflexivity|]. destruct i as [|i]; cbn in *; [lia|]. rewrite IH by lia. reflexivity. Qed.
Lemma same_places : forall ps ps', length ps' = length ps -> (forall j, place ps' j = place ps j) -> ps' = ps.
Proof.
  intros ps ps' Le E. revert ps Le E. induction ps' as [|a r IH]; intros [|b s] Le E; try discriminate; [reflexivity|]. f_equal; [exact (E 0%nat)|]. apply IH; [cbn in Le; congruence|]. intros j. exact (E (S j)).
Qed.

Lemma name_null : forall h o L, name_at h 0%nat o L -> o = None /\ L = [].
Proof. intros h o L H. inversion H; [auto|contradiction]. Qed.
Lemma ctx_null : forall h o L, ctx_at h 0%nat o L -> o = None /\ L = [].
Proof. intros h o L H. inversion H; subst; try contradiction; auto. Qed.
Lemma name_size : forall h p o L, name_at h p o L -> length L = match o with Some _ => 1%nat | None => 0%nat end.
Proof. intros h p o L []; reflexivity. Qed.

(** * Histories *)
Record inv (st : state) (w : view) : Prop := {
  in_sane : sane (st_heap st);
  in_all : exists Ls Lc, placed name_at (st_heap st) (st_str st) (v_str w) Ls /\ placed ctx_at (st_heap st) (st_ctx st) (v_ctx w) Lc /\
    NoDup (Ls ++ Lc) /\ (forall q, blk (st_heap st) q <> None <-> In q (Ls ++ Lc)) }.
Lemma gone_sane : forall h h' L, sane h -> gone h h' L -> sane h'.
Proof.
  intros h h' L [S1 [S2 S3]] [O N I E]. split; [lia|]. split.
  - intros q Q. destruct (in_dec Nat.eq_dec q L); [auto|]. rewrite E by assumption. apply S2. lia.
  - destruct (in_dec Nat.eq_dec 0%nat L); [auto|]. rewrite E by assumption. assumption.
Qed.
Lemma inv_more : forall st w h' L, inv st w -> more (st_heap st) h' L -> exists Ls Lc, placed name_at h' (st_str st) (v_str w) Ls /\ placed ctx_at h' (st_ctx st) (v_ctx w) Lc /\
    NoDup (Ls ++ Lc ++ L) /\ (forall q, blk h' q <> None <-> In q (Ls ++ Lc ++ L)) /\ sane h'.
Proof.
  intros st w h' L [S [Ls [Lc [P1 [P2 [D A]]]]]] M. exists Ls, Lc.
  assert (G : forall K, incl K (Ls ++ Lc) -> agree (st_heap st) h' K).
  { intros K I. apply (more_agree _ _ L); [assumption|assumption|]. intros q Q. apply A, I, Q. }
  split; [eapply placed_frame; [exact name_frame|eassumption|]; apply G; intros q Q; apply in_app_iff; auto|].
  split; [eapply placed_frame; [exact ctx_frame|eassumption|]; apply G; intros q Q; apply in_app_iff; auto|].
  assert (X : forall x, In x (Ls ++ Lc) -> ~ In x L). { intros x X Y. apply A in X. apply X. apply S. apply (mr_new _ _ _ M) in Y. lia. }
  split; [|split].
  - rewrite app_assoc. pose proof (mr_nodup _ _ _ M) as D1. revert X D D1. generalize (Ls ++ Lc). clear. intros K X D D1. induction K as [|a K IH]; [assumption|]. cbn. inversion D; subst. constructor.
    + rewrite in_app_iff. intros [Y|Y]; [auto|]. apply (X a); [left; reflexivity|assumption].
    + apply IH; [|assumption]. intros x Q. apply X. right. assumption.
  - intros q. rewrite app_assoc, in_app_iff. destruct (in_dec Nat.eq_dec q L) as [I|I].
    + split; [auto|]. intros _. apply (mr_new _ _ _ M). assumption.
    + rewrite (mr_same _ _ _ M q I). rewrite A. tauto.
  - eapply more_sane; eassumption.
Qed.
Lemma made_inv : forall st w c r, inv st w -> makes (st_heap st) c r -> exists p h', r = Ret (p, h') /\ h_ok h' = h_ok (st_heap st) /\ exists o,
  inv (Build_state h' (st_str st) (st_ctx st ++ [p])) (Build_view (v_str w) (v_ctx w ++ [o])) /\ (o = Some c \/ (short (st_heap st) /\ o = None)).
Proof.
  intros st w c r I [p [h' [L [-> [M Q]]]]]. exists p, h'. split; [reflexivity|]. split; [exact (mr_ok _ _ _ M)|].
  destruct (inv_more _ _ _ _ I M) as [Ls [Lc [P1 [P2 [D [A S]]]]]].
  assert (K : exists o, ctx_at h' p o L /\ (o = Some c \/ (short (st_heap st) /\ o = None))).
  { destruct Q as [Q|[Q1 [-> ->]]]; [exists (Some c); auto|exists None]. split; [constructor|auto]. }
  destruct K as [o [K1 K2]]. exists o. split; [|assumption]. constructor; [assumption|]. cbn. exists Ls, (Lc ++ L). split; [assumption|].
  split; [apply placed_end; assumption|]. split; assumption.
Qed.
(** the name of an argument *)
Lemma arg_says_name : forall st w a, inv st w -> says (st_heap st) (name_arg st a) (arg_says w a).
Proof.
  intros st w a [S [Ls [Lc [P1 _]]]]. destruct a as [|s|i]; [reflexivity|reflexivity|]. cbn.
  destruct (placed_at name_at na_null name_frame _ _ _ _ P1 i) as [L [Lr [Q _]]]. eapply read_name_at. eassumption.
Qed.
Lemma replaced_out : forall {A} (l : list A) i x, (length l <= i)%nat -> replaced l i x l.
Proof. intros A l i x Le. split; [reflexivity|]. intros j d J. replace (Nat.eqb j i) with false; [reflexivity|]. symmetry. apply Nat.eqb_neq. lia. Qed.

Lemma step_inv : forall st w o, inv st w -> fits o -> exists st' w', step st o = Ret st' /\ h_ok (st_heap st') = h_ok (st_heap st) /\ inv st' w' /\ may (short (st_heap st)) w o w'.
Proof.
  intros st w o I Ft. pose proof (in_sane _ _ I) as S. destruct o as [s|i s|i|a|off e|id|a l|a b l|i]; cbn [step].
  - destruct (alloc_more (st_heap st) (BStr s) S) as [p [h' [L [-> [M [S' Q]]]]]]. destruct (inv_more _ _ _ _ I M) as [Ls [Lc [P1 [P2 [D [A S1]]]]]].
    assert (K : exists o, name_at h' p o L /\ (o = Some s \/ (short (st_heap st) /\ o = None))).
    { destruct Q as [[Q1 [Q2 [Q3 ->]]]|[Q1 [-> ->]]]; [exists (Some s); split; [constructor; assumption|auto]|exists None]. split; [constructor|auto]. }
    destruct K as [o [K1 K2]]. eexists. exists (Build_view (v_str w ++ [o]) (v_ctx w)). split; [reflexivity|]. split; [exact (mr_ok _ _ _ M)|]. split.
    + constructor; [assumption|]. cbn. exists (Ls ++ L), Lc. split; [apply placed_end; assumption|]. split; [assumption|].
      assert (Pm : Permutation (Ls ++ Lc ++ L) ((Ls ++ L) ++ Lc)) by (rewrite <- app_assoc; apply Permutation_app_head, Permutation_app_comm).
      split; [eapply Permutation_NoDup; eassumption|]. intros q. rewrite A. split; apply Permutation_in; [assumption|symmetry; assumption].
    + destruct K2 as [->|[K2 ->]]; constructor. assumption.
  - destruct I as [_ [Ls [Lc [P1 [P2 [D A]]]]]]. destruct (placed_at name_at na_null name_frame _ _ _ _ P1 i) as [L [Lr [Q1 [Q2 Q3]]]].
    destruct (Nat.eqb (place (st_str st) i) 0) eqn:Z0.
    + apply Nat.eqb_eq in Z0. rewrite Z0 in Q1. destruct (name_null _ _ _ Q1) as [Q4 _]. exists st, w. split; [reflexivity|]. split; [reflexivity|]. split.
      * constructor; [assumption|]. exists Ls, Lc. auto.
      * apply ma_no_set. assumption.
    + apply Nat.eqb_neq in Z0. set (p := place (st_str st) i) in *. destruct (nth i (v_str w) None) as [t|] eqn:Nt; [|inversion Q1; congruence].
      assert (L = [p]) by (inversion Q1; reflexivity). subst L.
      assert (Lt : (i < length (st_str st))%nat). { destruct (Nat.lt_ge_cases i (length (st_str st))) as [X|X]; [assumption|]. exfalso. apply Z0. unfold p, place. apply nth_overflow. assumption. }
      set (h' := write (st_heap st) p (BStr s)).
      assert (G : forall K, ~ In p K -> agree (st_heap st) h' K). { intros K NK q Q. cbn. apply upd_other. intros ->. contradiction. }
      assert (D1 : NoDup (p :: Lr ++ Lc)). { eapply Permutation_NoDup; [|exact D]. rewrite Q2. reflexivity. }
      pose proof (nodup_cons _ _ D1) as Np. rewrite in_app_iff in Np.
      destruct (Q3 h' p (Some s) [p]) as [ps' [os' [Ls' [X1 [X2 [X3 [X4 X5]]]]]]]; [apply G; tauto|constructor; [assumption|cbn; apply upd_same]|assumption|].
      assert (Eq : ps' = st_str st). { apply same_places; [assumption|]. intros j. rewrite X4. destruct (Nat.eqb j i) eqn:Ej; [apply Nat.eqb_eq in Ej; subst j; reflexivity|reflexivity]. }
      subst ps'. assert (Pm : Permutation (Ls' ++ Lc) (Ls ++ Lc)) by (rewrite X2, Q2; reflexivity).
      exists (Build_state h' (st_str st) (st_ctx st)), (Build_view os' (v_ctx w)). split; [reflexivity|]. split; [reflexivity|]. split.
      * constructor.
        -- cbn. destruct S as [S1 [S2 S3]]. unfold h', write. split; [assumption|]. cbn. split.
           ++ intros q Q. rewrite upd_other; [auto|]. intros ->. assert (Z1 : In p (Ls ++ Lc)) by (rewrite Q2; left; reflexivity). apply A in Z1. apply Z1. apply S2. assumption.
           ++ rewrite upd_other; [assumption|]. auto.
        -- cbn. exists Ls', Lc. split; [assumption|]. split; [eapply placed_frame; [exact ctx_frame|eassumption|]; apply G; tauto|].
           split; [eapply Permutation_NoDup; [symmetry; eassumption|assumption]|]. intros q. unfold h'. cbn. destruct (Nat.eq_dec q p) as [->|Nq].
           ++ rewrite upd_same. split; [|discriminate]. intros _. rewrite X2. left. reflexivity.
           ++ rewrite upd_other by assumption. rewrite A. split; apply Permutation_in; [symmetry; assumption|assumption].
      * eapply ma_set; eassumption.
  - destruct I as [_ [Ls [Lc [P1 [P2 [D A]]]]]]. destruct (placed_at name_at na_null name_frame _ _ _ _ P1 i) as [L [Lr [Q1 [Q2 Q3]]]].
    set (p := place (st_str st) i) in *. destruct (free_name_gone _ _ _ _ Q1) as [h' [F G]].
    assert (F' : free (st_heap st) p = Ret h'). { unfold free_name in F. destruct p; [exact F|exact F]. } rewrite F'. cbn [bind].
    assert (D1 : NoDup (L ++ Lr ++ Lc)). { eapply Permutation_NoDup; [|exact D]. rewrite Q2, <- app_assoc. reflexivity. }
    assert (GA : forall K, incl K (Lr ++ Lc) -> agree (st_heap st) h' K). { intros K IK. eapply gone_agree; [eassumption|]. intros x X Y. apply (nodup_disj L (Lr ++ Lc) x D1 Y). apply IK. assumption. }
    assert (Pm : Permutation (Ls ++ Lc) (L ++ Lr ++ Lc)) by (rewrite Q2, <- app_assoc; reflexivity).
    assert (A' : forall q, blk h' q <> None <-> In q (Lr ++ Lc)).
    { intros q. destruct (in_dec Nat.eq_dec q L) as [X|X].
      - rewrite (go_in _ _ _ G q X). split; [congruence|]. intros Y. exfalso. apply (nodup_disj L (Lr ++ Lc) q D1 X Y).
      - rewrite (go_out _ _ _ G q X), A. split; intros Y.
        + apply (Permutation_in _ Pm), in_app_iff in Y. tauto.
        + apply (Permutation_in _ (Permutation_sym Pm)). apply in_app_iff. auto. }
    destruct (Nat.lt_ge_cases i (length (st_str st))) as [Lt|Ge].
    + destruct (Q3 h' 0%nat None []) as [ps' [os' [Ls' [X1 [X2 [X3 [X4 X5]]]]]]]; [apply GA; intros q Q; apply in_app_iff; auto|constructor|assumption|].
      rewrite (set_null_spec _ _ _ X5 X4) in X1. cbn [app] in X2.
      eexists. exists (Build_view os' (v_ctx w)). split; [reflexivity|]. split; [exact (go_ok _ _ _ G)|]. split; [|constructor; assumption].
      constructor; [eapply gone_sane; eassumption|]. cbn. exists Ls', Lc. split; [assumption|].
      split; [eapply placed_frame; [exact ctx_frame|eassumption|]; apply GA; intros q Q; apply in_app_iff; auto|].
      split; [eapply Permutation_NoDup; [|exact (nodup_right _ _ D1)]; rewrite X2; reflexivity|]. intros q. rewrite A'. split; apply Permutation_in; rewrite X2; reflexivity.
    + assert (p = 0%nat) by (unfold p, place; apply nth_overflow; assumption). rewrite H in F', Q1. cbn in F'. injection F' as <-.
      eexists. exists (Build_view (v_str w) (v_ctx w)). rewrite set_null_out by assumption. split; [reflexivity|]. split; [reflexivity|]. split.
      * constructor; [assumption|]. cbn. exists Ls, Lc. auto.
      * constructor. apply replaced_out. rewrite (placed_length _ _ _ _ _ P1). assumption.
  - pose proof (count_by_makes _ _ _ S (arg_says_name _ _ a I)) as M. destruct (made_inv _ _ _ _ I M) as [p [h' [E [O [o [I' Q]]]]]]. rewrite E. cbn.
    eexists. eexists. split; [reflexivity|]. split; [assumption|]. split; [exact I'|]. destruct Q as [->|[Q ->]]; [apply ma_new; reflexivity|eapply ma_short; [reflexivity|assumption]].
  - pose proof (container_of_makes _ off e S) as M. destruct (made_inv _ _ _ _ I M) as [p [h' [E [O [o [I' Q]]]]]]. injection E as E. rewrite E. cbn.
    eexists. eexists. split; [reflexivity|]. split; [assumption|]. split; [exact I'|]. destruct Q as [->|[Q ->]]; [apply ma_new; reflexivity|eapply ma_short; [reflexivity|assumption]].
  - pose proof (permanent_makes _ id S) as M. destruct (made_inv _ _ _ _ I M) as [p [h' [E [O [o [I' Q]]]]]]. injection E as E. rewrite E. cbn.
    eexists. eexists. split; [reflexivity|]. split; [assumption|]. split; [exact I'|]. destruct Q as [->|[Q ->]]; [apply ma_new; reflexivity|eapply ma_short; [reflexivity|assumption]].
  - pose proof (union_makes _ _ _ l S (arg_says_name _ _ a I) Ft) as M. destruct (made_inv _ _ _ _ I M) as [p [h' [E [O [o [I' Q]]]]]]. rewrite E. cbn.
    eexists. eexists. split; [reflexivity|]. split; [assumption|]. split; [exact I'|]. destruct Q as [->|[Q ->]]; [apply ma_new; reflexivity|eapply ma_short; [reflexivity|assumption]].
  - pose proof (arg_says_name _ _ b I) as Sb. destruct (arg_says w b) as [t|] eqn:Eb.
    + pose proof (cast_makes _ _ _ _ _ l S (arg_says_name _ _ a I) Sb Ft) as M. destruct (made_inv _ _ _ _ I M) as [p [h' [E [O [o [I' Q]]]]]]. rewrite E. cbn.
      eexists. eexists. split; [reflexivity|]. split; [assumption|]. split; [exact I'|].
      destruct Q as [->|[Q ->]]; [apply ma_new; cbn; rewrite Eb; reflexivity|eapply ma_short; [cbn; rewrite Eb; reflexivity|assumption]].
    + rewrite (says_chars _ _ _ Sb). cbn. eexists. exists (Build_view (v_str w) (v_ctx w ++ [None])). split; [reflexivity|]. split; [reflexivity|]. split.
      * destruct I as [_ [Ls [Lc [P1 [P2 [D A]]]]]]. constructor; [assumption|]. cbn. exists Ls, (Lc ++ []). split; [assumption|]. split; [apply placed_end; [assumption|constructor]|]. rewrite app_nil_r. auto.
      * apply ma_refused. cbn. rewrite Eb. reflexivity.
  - destruct I as [_ [Ls [Lc [P1 [P2 [D A]]]]]]. destruct (placed_at ctx_at ca_null ctx_frame _ _ _ _ P2 i) as [L [Lr [Q1 [Q2 Q3]]]].
    set (p := place (st_ctx st) i) in *.
    assert (D1 : NoDup (L ++ Lr ++ Ls)). { eapply Permutation_NoDup; [|exact D]. rewrite Q2, (app_assoc L Lr Ls). apply Permutation_app_comm. }
    destruct (delete_gone _ _ _ _ Q1) as [h' [F G]]. { exact (nodup_left _ _ D1). } rewrite F. cbn [bind].
    assert (GA : forall K, incl K (Lr ++ Ls) -> agree (st_heap st) h' K). { intros K IK. eapply gone_agree; [eassumption|]. intros x X Y. apply (nodup_disj L (Lr ++ Ls) x D1 Y). apply IK. assumption. }
    assert (Pm : Permutation (Ls ++ Lc) (L ++ Lr ++ Ls)) by (rewrite Q2, (app_assoc L Lr Ls); apply Permutation_app_comm).
    assert (A' : forall q, blk h' q <> None <-> In q (Lr ++ Ls)).
    { intros q. destruct (in_dec Nat.eq_dec q L) as [X|X].
      - rewrite (go_in _ _ _ G q X). split; [congruence|]. intros Y. exfalso. apply (nodup_disj L (Lr ++ Ls) q D1 X Y).
      - rewrite (go_out _ _ _ G q X), A. split; intros Y.
        + apply (Permutation_in _ Pm), in_app_iff in Y. tauto.
        + apply (Permutation_in _ (Permutation_sym Pm)). apply in_app_iff. auto. }
    destruct (Nat.lt_ge_cases i (length (st_ctx st))) as [Lt|Ge].
    + destruct (Q3 h' 0%nat None []) as [ps' [os' [Ls' [X1 [X2 [X3 [X4 X5]]]]]]]; [apply GA; intros q Q; apply in_app_iff; auto|constructor|assumption|].
      rewrite (set_null_spec _ _ _ X5 X4) in X1. cbn [app] in X2.
      eexists. exists (Build_view (v_str w) os'). split; [reflexivity|]. split; [exact (go_ok _ _ _ G)|]. split; [|constructor; assumption].
      constructor; [eapply gone_sane; eassumption|]. cbn. exists Ls, Ls'. split; [eapply placed_frame; [exact name_frame|eassumption|]; apply GA; intros q Q; apply in_app_iff; auto|].
      split; [assumption|]. assert (Pm2 : Permutation (Lr ++ Ls) (Ls ++ Ls')) by (rewrite X2; apply Permutation_app_comm).
      split; [eapply Permutation_NoDup; [exact Pm2|exact (nodup_right _ _ D1)]|]. intros q. rewrite A'. split; apply Permutation_in; [assumption|symmetry; assumption].
    + assert (p = 0%nat) by (unfold p, place; apply nth_overflow; assumption). rewrite H in F, Q1. cbn in F. injection F as <-.
      eexists. exists (Build_view (v_str w) (v_ctx w)). rewrite set_null_out by assumption. split; [reflexivity|]. split; [reflexivity|]. split.
      * constructor; [assumption|]. cbn. exists Ls, Lc. auto.
      * constructor. apply replaced_out. rewrite (placed_length _ _ _ _ _ P2). assumption.
Qed.

Lemma run_inv : forall l st w, inv st w -> Forall fits l -> exists st' w', run st l = Ret st' /\ inv st' w' /\ history (short (st_heap st)) w l w'.
Proof.
  intros l. induction l as [|o l IH]; intros st w I F; [exists st, w; split; [reflexivity|]; split; [assumption|constructor]|]. inversion F; subst.
  destruct (step_inv _ _ _ I H1) as [st1 [w1 [E [O [I1 M]]]]]. destruct (IH _ _ I1 H2) as [st2 [w2 [R [I2 H]]]]. exists st2, w2. cbn. rewrite E. cbn. split; [assumption|]. split; [assumption|].
  econstructor; [eassumption|]. unfold short in *. rewrite O in H. assumption.
Qed.
Lemma placed_reads : forall h ps os Ls, placed ctx_at h ps os Ls -> Forall2 (reads h) ps os.
Proof. intros h ps os Ls H. induction H; constructor; [eapply ctx_reads; eassumption|assumption]. Qed.
Lemma placed_names : forall h ps os Ls, placed name_at h ps os Ls -> Forall2 (fun p o => read_name h (at_ptr p) = Ret o) ps os.
Proof. intros h ps os Ls H. induction H; constructor; [eapply read_name_at; eassumption|assumption]. Qed.
Lemma start_inv : forall ok, inv (start ok) (Build_view [] []).
Proof. intros ok. constructor; cbn; [repeat split; cbn; auto; lia|]. exists [], []. repeat split; try constructor; try contradiction; cbn; congruence. Qed.

(** contexts are what was asked for, and nothing is lost *)
Lemma contexts : forall ok l, Forall fits l -> exists st w, run (start ok) l = Ret st /\ history (exists n, ok n = false) (Build_view [] []) l w /\
  Forall2 (reads (st_heap st)) (st_ctx st) (v_ctx w) /\
  Forall2 (fun p o => read_name (st_heap st) (at_ptr p) = Ret o) (st_str st) (v_str w) /\
  exists L, NoDup L /\ (forall q, h_blk (st_heap st) q <> None <-> In q L) /\ length L = blocks_of w.
Proof.
  intros ok l F. destruct (run_inv l _ _ (start_inv ok) F) as [st [w [R [[S [Ls [Lc [P1 [P2 [D A]]]]]] H]]]]. exists st, w. split; [assumption|]. split; [exact H|].
  split; [eapply placed_reads; eassumption|]. split; [eapply placed_names; eassumption|]. exists (Ls ++ Lc). split; [assumption|]. split; [assumption|].
  rewrite app_length, (placed_size name_at (fun _ => 1%nat) name_size _ _ _ _ P1), (placed_size ctx_at parts ctx_count _ _ _ _ P2). reflexivity.
Qed.

(** when every place is empty nothing is allocated *)
Lemma placed_empty : forall {A} (here : heap -> ptr -> option A -> list ptr -> Prop) h ps os Ls, (forall o L, here h 0%nat o L -> o = None /\ L = []) ->
  placed here h ps os Ls -> Forall (fun p => p = 0%nat) ps -> Ls = [].
Proof. intros A here h ps os Ls N H. induction H; intros F; [reflexivity|]. inversion F; subst. destruct (N _ _ H) as [_ ->]. exact (IHplaced H4). Qed.
Lemma nothing_left : forall ok l st, Forall fits l -> run (start ok) l = Ret st ->
  Forall (fun p => p = 0%nat) (st_str st) -> Forall (fun p => p = 0%nat) (st_ctx st) -> forall q, h_blk (st_heap st) q = None.
Proof.
  intros ok l st F R S C q. destruct (run_inv l _ _ (start_inv ok) F) as [st' [w [R' [[_ [Ls [Lc [P1 [P2 [D A]]]]]] H]]]]. rewrite R in R'. injection R' as <-.
  rewrite (placed_empty _ _ _ _ _ (name_null _) P1 S), (placed_empty _ _ _ _ _ (ctx_null _) P2 C) in A.
  destruct (h_blk (st_heap st) q) eqn:E; [|reflexivity]. exfalso. apply (proj1 (A q)). rewrite E. discriminate.
Qed.
