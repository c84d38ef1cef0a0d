(** Lemmas about handler contexts (C63). *)
From Coq Require Import ZArith String List Bool Lia.
From Verif Require Import Base EntryModel HandlerModel CtxModel CtxSpec.
Import ListNotations.
Open Scope Z_scope.

Notation blk := h_blk.
Lemma upd_same : forall f p b, upd f p b p = b.
Proof. intros. unfold upd. rewrite Nat.eqb_refl. reflexivity. Qed.
Lemma upd_other : forall f p b q, q <> p -> upd f p b q = f q.
Proof. intros. unfold upd. replace (Nat.eqb q p) with false; [reflexivity|]. symmetry. apply Nat.eqb_neq. assumption. Qed.

(** a heap: nothing behind the next number, nothing at NULL *)
Definition sane (h : heap) : Prop := (0 < h_next h)%nat /\ (forall q, (h_next h <= q)%nat -> blk h q = None) /\ blk h 0%nat = None.
(** [h'] has the blocks [L] more than [h] *)
Record more (h h' : heap) (L : list ptr) : Prop := {
  mr_ok : h_ok h' = h_ok h;
  mr_next : (h_next h <= h_next h')%nat;
  mr_nodup : NoDup L;
  mr_new : forall q, In q L -> (h_next h <= q < h_next h')%nat /\ blk h' q <> None;
  mr_same : forall q, ~ In q L -> blk h' q = blk h q }.

(** * What is at a pointer *)
Inductive name_at (h : heap) : ptr -> option string -> list ptr -> Prop :=
| na_null : name_at h 0%nat None []
| na_some p s : p <> 0%nat -> blk h p = Some (BStr s) -> name_at h p (Some s) [p].
Inductive arr_at {A} (blkc : list A -> block) (h : heap) : Z -> ptr -> list A -> list ptr -> Prop :=
| aa_null : arr_at blkc h 0 0%nat [] []
| aa_some p x l : p <> 0%nat -> blk h p = Some (blkc (x :: l)) -> arr_at blkc h (Z.of_nat (length (x :: l))) p (x :: l) [p].
Inductive ctx_at (h : heap) : ptr -> option actx -> list ptr -> Prop :=
| ca_null : ctx_at h 0%nat None []
| ca_count p q o L : p <> 0%nat -> blk h p = Some (BCount q) -> name_at h q o L -> ctx_at h p (Some (CCount o)) (p :: L)
| ca_cont p o e : p <> 0%nat -> blk h p = Some (BCont o e) -> ctx_at h p (Some (CCont o e)) [p]
| ca_perm p i : p <> 0%nat -> blk h p = Some (BUnion true 0%nat 0 0%nat i) -> ctx_at h p (Some (CUnion (Constant i))) [p]
| ca_union p q o L n c l L' : p <> 0%nat -> blk h p = Some (BUnion false q n c 0) -> name_at h q o L -> arr_at BUCases h n c (map lit_case l) L' ->
    ctx_at h p (Some (CUnion (SelectByField o l))) (p :: L ++ L')
| ca_cast p q o L r s L1 n c l L' : p <> 0%nat -> blk h p = Some (BCast q r n c) -> name_at h q o L -> name_at h r (Some s) L1 -> arr_at BPCases h n c l L' ->
    ctx_at h p (Some (CCast (Build_pctx o (Some s) l))) (p :: L ++ L1 ++ L').

Definition agree (h h' : heap) (L : list ptr) : Prop := forall q, In q L -> blk h' q = blk h q.
Lemma name_frame : forall h h' p o L, name_at h p o L -> agree h h' L -> name_at h' p o L.
Proof. intros h h' p o L [|q s N B] A; constructor; [assumption|]. rewrite (A q (or_introl eq_refl)). assumption. Qed.
Lemma arr_frame : forall {A} (b : list A -> block) h h' n p l L, arr_at b h n p l L -> agree h h' L -> arr_at b h' n p l L.
Proof. intros A b h h' n p l L [|q x r N B] G; constructor; [assumption|]. rewrite (G q (or_introl eq_refl)). assumption. Qed.
Lemma ctx_frame : forall h h' p c L, ctx_at h p c L -> agree h h' L -> ctx_at h' p c L.
Proof.
  intros h h' p c L H A. assert (A' : forall L0, incl L0 L -> agree h h' L0) by (intros L0 I q Q; apply A, I, Q).
  destruct H; econstructor; try eassumption; try (rewrite A; [eassumption|left; reflexivity]);
    try (eapply name_frame; [eassumption|]); try (eapply arr_frame; [eassumption|]); apply A';
    intros x X; repeat (rewrite in_app_iff || cbn [In]); auto.
Qed.
Lemma name_live : forall h p o L, name_at h p o L -> forall q, In q L -> blk h q <> None.
Proof. intros h p o L [|q s N B] x X; cbn in X; [contradiction|]; destruct X as [<-|[]]; congruence. Qed.
Lemma arr_live : forall {A} (b : list A -> block) h n p l L, arr_at b h n p l L -> forall q, In q L -> blk h q <> None.
Proof. intros A b h n p l L [|q x r N B] y X; cbn in X; [contradiction|]; destruct X as [<-|[]]; congruence. Qed.
Lemma ctx_live : forall h p c L, ctx_at h p c L -> forall q, In q L -> blk h q <> None.
Proof.
  intros h p c L H q Q. destruct H; repeat (rewrite in_app_iff in Q || cbn [In] in Q);
    repeat match goal with D : _ \/ _ |- _ => destruct D as [D|D] end; try contradiction; subst; try congruence;
    match goal with
    | I : In ?q ?L, N : name_at _ _ _ ?L |- _ => exact (name_live _ _ _ _ N q I)
    | I : In ?q ?L, N : arr_at _ _ _ _ _ ?L |- _ => exact (arr_live _ _ _ _ _ _ N q I)
    end.
Qed.
Lemma name_count : forall h p o L, name_at h p o L -> length L = one o.
Proof. intros h p o L [|]; reflexivity. Qed.
Lemma arr_count : forall {A} (b : list A -> block) h n p l L, arr_at b h n p l L -> length L = some_cases l.
Proof. intros A b h n p l L [|]; reflexivity. Qed.
Lemma ctx_count : forall h p c L, ctx_at h p c L -> length L = match c with Some c => parts c | None => 0%nat end.
Proof.
  intros h p c L H. destruct H; cbn [parts length pc_count pc_selector pc_cases one]; try reflexivity.
  - rewrite (name_count _ _ _ _ H1). reflexivity.
  - rewrite app_length, (name_count _ _ _ _ H1), (arr_count _ _ _ _ _ _ H2). destruct l; reflexivity.
  - rewrite !app_length, (name_count _ _ _ _ H1), (name_count _ _ _ _ H2), (arr_count _ _ _ _ _ _ H3). cbn [one]. lia.
Qed.

(** reading *)
Lemma read_name_at : forall h p o L, name_at h p o L -> read_name h (at_ptr p) = Ret o.
Proof. intros h p o L [|q s N B]; [reflexivity|]. unfold at_ptr. apply Nat.eqb_neq in N. rewrite N. cbn. rewrite B. reflexivity. Qed.
Lemma read_lit : forall h l, read_ucases h (map lit_case l) = Ret l.
Proof. intros h l. induction l as [|[a [s|] b] l IH]; [reflexivity| |]; cbn; rewrite IH; reflexivity. Qed.
Lemma ctx_reads : forall h p c L, ctx_at h p c L -> reads h p c.
Proof.
  intros h p c L H. destruct H as [|p q o L N B Q|p o e N B|p i N B|p q o L n c l L' N B Q R|p q o L r s L1 n c l L' N B Q Q' R]; cbn [reads].
  - reflexivity.
  - unfold read_count_by. rewrite B. eapply read_name_at. eassumption.
  - unfold read_container_of. rewrite B. reflexivity.
  - unfold read_union. rewrite B. reflexivity.
  - unfold read_union. rewrite B, (read_name_at _ _ _ _ Q). cbn. remember (map lit_case l) as ml eqn:E. destruct R as [|c x r N' B'].
    + destruct l; [reflexivity|discriminate].
    + replace (Z.of_nat (length (x :: r)) <=? 0) with false by (symmetry; apply Z.leb_gt; cbn; lia). rewrite B', Z.ltb_irrefl, Nat2Z.id, firstn_all, E, read_lit. reflexivity.
  - unfold read_ptr_cast. rewrite B, (read_name_at _ _ _ _ Q). cbn [bind]. rewrite (read_name_at _ _ _ _ Q'). cbn [bind]. destruct R as [|c x r' N' B'].
    + reflexivity.
    + replace (Z.of_nat (length (x :: r')) <=? 0) with false by (symmetry; apply Z.leb_gt; cbn; lia). rewrite B', Z.ltb_irrefl, Nat2Z.id, firstn_all. reflexivity.
Qed.

(** * The constructors *)
Ltac uq := repeat match goal with
  | |- context [upd _ ?p _ ?q] => first [replace p with q by lia; rewrite upd_same | rewrite (upd_other _ p _ q) by lia]
  end.
Definition short (h : heap) : Prop := exists n, h_ok h n = false.
(** what a constructor gives: the context, or NULL and nothing else *)
Definition makes (h : heap) (c : actx) (r : res (ptr * heap)) : Prop :=
  exists p h' L, r = Ret (p, h') /\ more h h' L /\ ((ctx_at h' p (Some c) L) \/ (short h /\ p = 0%nat /\ L = [])).
Lemma alloc_more : forall h b, sane h -> exists p h' L, alloc h b = (p, h') /\ more h h' L /\ sane h' /\
  ((p = h_next h /\ p <> 0%nat /\ blk h' p = Some b /\ L = [p]) \/ (short h /\ p = 0%nat /\ L = [])).
Proof.
  intros h b [S1 [S2 S3]]. unfold alloc. destruct (h_ok h (h_next h)) eqn:K.
  - exists (h_next h). eexists. exists [h_next h]. split; [reflexivity|]. split; [constructor; cbn|split].
    + reflexivity.
    + lia.
    + repeat constructor. intros [].
    + intros q [<-|[]]. rewrite upd_same. split; [lia|discriminate].
    + intros q N. apply upd_other. intros ->. apply N. left. reflexivity.
    + split; [cbn; lia|]. split; [|cbn; rewrite upd_other by lia; assumption]. cbn. intros q Q. rewrite upd_other by lia. apply S2. lia.
    + left. cbn. rewrite upd_same. repeat split; lia.
  - exists 0%nat. eexists. exists []. split; [reflexivity|]. split; [constructor; cbn|split].
    + reflexivity.
    + lia.
    + constructor.
    + intros q [].
    + reflexivity.
    + split; [cbn; lia|]. split; [|assumption]. cbn. intros q Q. apply S2. lia.
    + right. repeat split. exists (h_next h). assumption.
Qed.
Lemma more_trans : forall h h1 h2 L L', sane h -> more h h1 L -> more h1 h2 L' -> more h h2 (L ++ L').
Proof.
  intros h h1 h2 L L' [S1 [S2 S3]] [O1 N1 D1 W1 E1] [O2 N2 D2 W2 E2]. constructor.
  - congruence.
  - lia.
  - assert (X : forall x, In x L -> ~ In x L') by (intros x X Y; apply W1 in X; apply W2 in Y; lia). revert X D1 D2. clear. intros X D1 D2. induction L as [|a L IH]; [assumption|].
    cbn. inversion D1; subst. constructor.
    + rewrite in_app_iff. intros [Y|Y]; [auto|]. apply (X a); [left; reflexivity|assumption].
    + apply IH; [|assumption]. intros x Q. apply X. right. assumption.
  - intros q Q. apply in_app_iff in Q. destruct Q as [Q|Q].
    + destruct (W1 q Q). split; [lia|]. rewrite E2; [assumption|]. intros Y. apply W2 in Y. lia.
    + destruct (W2 q Q). split; [lia|assumption].
  - intros q Q. rewrite in_app_iff in Q. rewrite E2, E1 by tauto. reflexivity.
Qed.
Lemma more_sane : forall h h' L, sane h -> more h h' L -> sane h'.
Proof.
  intros h h' L [S1 [S2 S3]] [O N D W E]. split; [lia|]. split.
  - intros q Q. rewrite E; [apply S2; lia|]. intros X. apply W in X. lia.
  - rewrite E; [assumption|]. intros X. apply W in X. lia.
Qed.
(** assigning to a new block *)
Lemma more_write : forall h h' L p b, more h h' L -> In p L -> more h (write h' p b) L.
Proof.
  intros h h' L p b [O N D W E] I. constructor; cbn; auto.
  - intros q Q. split; [apply W; assumption|]. unfold upd. destruct (Nat.eqb q p); [discriminate|apply W; assumption].
  - intros q Q. rewrite upd_other; [auto|]. intros ->. contradiction.
Qed.
Lemma free_live : forall h p, p <> 0%nat -> blk h p <> None -> exists h', free h p = Ret h' /\ h_next h' = h_next h /\ h_ok h' = h_ok h /\ blk h' = upd (blk h) p None.
Proof.
  intros h p N B. destruct p; [contradiction|]. unfold free. destruct (blk h (S p)); [|contradiction]. eexists. split; [reflexivity|]. auto.
Qed.
(** giving a new block back *)
Lemma more_free : forall h h' L1 p L2, sane h -> more h h' (L1 ++ p :: L2) -> exists h2, free h' p = Ret h2 /\ more h h2 (L1 ++ L2).
Proof.
  intros h h' L1 p L2 [S1 [S2 S3]] [O N D W E]. assert (I : In p (L1 ++ p :: L2)) by (apply in_app_iff; right; left; reflexivity).
  destruct (W p I) as [W1 W2]. destruct (free_live h' p) as [h2 [F1 [F2 [F3 F4]]]]; [lia|assumption|]. exists h2. split; [assumption|].
  pose proof (NoDup_remove _ _ _ D) as [D1 D2]. constructor.
  - congruence.
  - lia.
  - assumption.
  - intros q Q. assert (q <> p) by (intros ->; contradiction). rewrite F4, upd_other, F2 by assumption. apply W. rewrite in_app_iff in *. cbn. tauto.
  - intros q Q. rewrite F4. destruct (Nat.eq_dec q p) as [->|X].
    + rewrite upd_same. symmetry. apply S2. lia.
    + rewrite upd_other by assumption. apply E. rewrite in_app_iff in *. cbn. intuition congruence.
Qed.
Lemma short_more : forall h h' L, more h h' L -> short h' -> short h.
Proof. intros h h' L M [n S]. exists n. rewrite <- (mr_ok _ _ _ M). assumption. Qed.
Lemma ctx_nonnull : forall h p c L, ctx_at h p (Some c) L -> p <> 0%nat.
Proof. intros h p c L H. inversion H; assumption. Qed.
Lemma eqb0 : forall p, p <> 0%nat -> Nat.eqb p 0 = false.
Proof. intros. apply Nat.eqb_neq. assumption. Qed.

(** a name given by the caller: what it says, what a copy of it is *)
Definition says (h : heap) (n : nptr) (o : option string) : Prop := read_name h n = Ret o.
Lemma says_chars : forall h n o, says h n o -> match o with None => n = NNull | Some s => chars h n = Ret s /\ n <> NNull end.
Proof.
  intros h n o H. unfold says, read_name in H. destruct n as [|s|p]; [injection H as <-; reflexivity| |].
  - cbn in H. injection H as <-. split; [reflexivity|discriminate].
  - destruct (chars h (NHeap p)) as [s| | |] eqn:C; try discriminate. injection H as <-. split; [reflexivity|discriminate].
Qed.
Lemma says_more : forall h h' L n o, sane h -> more h h' L -> says h n o -> says h' n o.
Proof.
  intros h h' L n o S M H. unfold says, read_name in *. destruct n as [|s|p]; [assumption|assumption|]. cbn in *.
  destruct (blk h p) as [b|] eqn:B; [|discriminate]. rewrite (mr_same _ _ _ M p), B; [assumption|]. intros X. apply (mr_new _ _ _ M) in X. destruct S as [_ [S _]]. rewrite S in B by lia. discriminate.
Qed.
Lemma strdup_more : forall h n s, sane h -> says h n (Some s) -> exists p h' L, strdup h n = Ret (p, h') /\ more h h' L /\ sane h' /\
  ((p <> 0%nat /\ name_at h' p (Some s) L /\ L = [p]) \/ (short h /\ p = 0%nat /\ L = [])).
Proof.
  intros h n s S H. destruct (says_chars _ _ _ H) as [C _]. unfold strdup. rewrite C. cbn [bind].
  destruct (alloc_more h (BStr s) S) as [p [h' [L [-> [M [S' Q]]]]]]. exists p, h', L. split; [reflexivity|]. split; [assumption|]. split; [assumption|].
  destruct Q as [[Q1 [Q2 [Q3 Q4]]]|Q]; [left|right; assumption]. subst L. split; [assumption|]. split; [constructor; assumption|reflexivity].
Qed.

Ltac more2 := match goal with M : more ?h ?h1 ?L, M' : more ?h1 ?h2 ?L' |- _ =>
   let X := fresh "MM" in assert (X : more h h2 (L ++ L')) by (eapply more_trans; eassumption); clear M M' end.
Lemma count_by_makes : forall h n o, sane h -> says h n o -> makes h (CCount o) (new_count_by h n).
Proof.
  intros h n o S Sy. unfold new_count_by. destruct (alloc_more h (BCount 0%nat) S) as [p [h1 [L [-> [M [S1 Q]]]]]].
  destruct Q as [[Q1 [Q2 [Q3 ->]]]|[Q1 [-> ->]]].
  2: { cbn. exists 0%nat, h1, []. split; [reflexivity|]. split; [assumption|]. right. auto. }
  rewrite (eqb0 _ Q2). destruct o as [s|].
  2: { rewrite (says_chars _ _ _ Sy). exists p, h1, [p]. split; [reflexivity|]. split; [assumption|]. left. econstructor; [assumption|eassumption|constructor]. }
  destruct (says_chars _ _ _ Sy) as [_ NN].
  pose proof (says_more h h1 _ n _ S M Sy) as Sy1.
  destruct (strdup_more h1 n s S1 Sy1) as [q [h2 [L2 [E [M2 [S2 Q]]]]]].
  assert (G : exists p0 h' L0, (do '(q, h) <- strdup h1 n; let h := write h p (BCount q) in if Nat.eqb q 0 then do h <- free h p; Ret (0%nat, h) else Ret (p, h))%res = Ret (p0, h') /\
     more h h' L0 /\ ((ctx_at h' p0 (Some (CCount (Some s))) L0) \/ (short h /\ p0 = 0%nat /\ L0 = []))).
  { rewrite E. cbn [bind]. pose proof (more_trans _ _ _ _ _ S M M2) as MM. cbn in MM.
    assert (MW : more h (write h2 p (BCount q)) (p :: L2)) by (apply more_write; [assumption|left; reflexivity]).
    destruct Q as [[X1 [X2 X3]]|[X1 [-> ->]]].
    - rewrite (eqb0 _ X1). exists p, (write h2 p (BCount q)), (p :: L2). split; [reflexivity|]. split; [assumption|]. left.
      econstructor; [assumption|cbn; apply upd_same|]. apply (name_frame h2); [assumption|]. intros x X. cbn. apply upd_other. intros ->.
      pose proof (mr_nodup _ _ _ MM) as D. inversion D; contradiction.
    - cbn [Nat.eqb]. destruct (more_free h _ [] p [] S MW) as [h3 [F M3]]. rewrite F. cbn. exists 0%nat, h3, []. split; [reflexivity|]. split; [assumption|]. right.
      split; [|auto]. exact (short_more _ _ _ M X1). }
  destruct n; [contradiction|exact G|exact G].
Qed.
Lemma container_of_makes : forall h o e, sane h -> makes h (CCont o e) (Ret (new_container_of h o e)).
Proof.
  intros h o e S. unfold new_container_of. destruct (alloc_more h (BCont o e) S) as [p [h1 [L [-> [M [S1 Q]]]]]]. exists p, h1, L. split; [reflexivity|]. split; [assumption|].
  destruct Q as [[Q1 [Q2 [Q3 ->]]]|Q]; [left; constructor; assumption|right; assumption].
Qed.
Lemma permanent_makes : forall h i, sane h -> makes h (CUnion (Constant i)) (Ret (new_union_permanent h i)).
Proof.
  intros h o S. unfold new_union_permanent. destruct (alloc_more h (BUnion true 0%nat 0 0%nat o) S) as [p [h1 [L [-> [M [S1 Q]]]]]]. exists p, h1, L. split; [reflexivity|]. split; [assumption|].
  destruct Q as [[Q1 [Q2 [Q3 ->]]]|Q]; [left; constructor; assumption|right; assumption].
Qed.
Lemma array_more : forall {A} (b : list A -> block) h (x : A) l size esz, sane h -> 0 < esz <= size -> size <= 64 -> Z.of_nat (length (x :: l)) < 2 ^ 31 ->
  let n := Z.of_nat (length (x :: l)) in
  exists p h' L, array_copy h b (x :: l) (swrap 32 n) size esz (esz * n) = Ret (p, h') /\ more h h' L /\ sane h' /\
  ((p <> 0%nat /\ arr_at b h' n p (x :: l) L /\ L = [p]) \/ (short h /\ p = 0%nat /\ L = [])).
Proof.
  intros A b h x l size esz S Sz Sz' Len n. assert (P : 0 < n) by (unfold n; cbn; lia). fold n in Len. unfold array_copy.
  assert (U : uwrap 64 (swrap 32 n) = n).
  { unfold swrap, uwrap. rewrite (Z.mod_small (n + 2 ^ (32 - 1))) by lia. rewrite Z.add_simpl_r. apply Z.mod_small. lia. }
  rewrite U. replace (2 ^ 64 <=? n * size) with false by (symmetry; apply Z.leb_gt; nia).
  destruct (alloc_more h (b []) S) as [p [h1 [L [-> [M [S1 Q]]]]]]. destruct Q as [[Q1 [Q2 [Q3 ->]]]|[Q1 [-> ->]]].
  - rewrite (eqb0 _ Q2). replace (n * size <? esz * n) with false by (symmetry; apply Z.ltb_ge; nia).
    replace (Z.of_nat (length (x :: l)) * esz <? esz * n) with false by (symmetry; apply Z.ltb_ge; fold n; nia). cbn [orb].
    replace (esz * n / esz) with n by (rewrite Z.mul_comm, Z.div_mul; lia). unfold n. rewrite Nat2Z.id, firstn_all.
    exists p, (write h1 p (b (x :: l))), [p]. split; [reflexivity|]. assert (MW : more h (write h1 p (b (x :: l))) [p]) by (apply more_write; [assumption|left; reflexivity]).
    split; [assumption|]. split; [exact (more_sane _ _ _ S MW)|]. left. split; [assumption|]. split; [|reflexivity]. constructor; [assumption|cbn; apply upd_same].
  - cbn. exists 0%nat, h1, []. split; [reflexivity|]. split; [assumption|]. split; [assumption|]. right. auto.
Qed.
(** an optional name *)
Lemma opt_name : forall h n o, sane h -> says h n o -> exists q h' L,
  (match n with NNull => Ret (0%nat, h) | _ => strdup h n end = Ret (q, h')) /\ more h h' L /\ sane h' /\
  ((name_at h' q o L /\ match n with NNull => false | _ => Nat.eqb q 0 end = false) \/ (short h /\ L = [] /\ match n with NNull => false | _ => Nat.eqb q 0 end = true)).
Proof.
  intros h n o S Sy. destruct o as [s|].
  - destruct (strdup_more h n s S Sy) as [q [h' [L [E [M [S' Q]]]]]]. exists q, h', L. destruct (says_chars _ _ _ Sy) as [_ NN].
    split; [destruct n; [contradiction|assumption|assumption]|]. split; [assumption|]. split; [assumption|]. destruct Q as [[Q1 [Q2 Q3]]|[Q1 [-> ->]]].
    + left. split; [assumption|]. destruct n; [reflexivity| |]; apply eqb0; assumption.
    + right. repeat split; auto. destruct n; [contradiction|reflexivity|reflexivity].
  - rewrite (says_chars _ _ _ Sy). exists 0%nat, h, []. split; [reflexivity|]. split; [|split; [assumption|left; split; [constructor|reflexivity]]].
    constructor; auto. constructor. intros q [].
Qed.
(** releasing what a name is *)
Lemma more_free_name : forall h h1 h' q o L1 L L2, sane h -> name_at h1 q o L -> more h h' (L1 ++ L ++ L2) -> exists h2, free_name h' q = Ret h2 /\ more h h2 (L1 ++ L2).
Proof.
  intros h h1 h' q o L1 L L2 S [|p s N B] M; unfold free_name.
  - exists h'. split; [reflexivity|assumption].
  - rewrite (eqb0 _ N). apply more_free; assumption.
Qed.
Lemma more_free_arr : forall {A} (b : list A -> block) h h1 h' n q l L1 L L2, sane h -> arr_at b h1 n q l L -> more h h' (L1 ++ L ++ L2) -> exists h2, free_name h' q = Ret h2 /\ more h h2 (L1 ++ L2).
Proof.
  intros A b h h1 h' n q l L1 L L2 S [|p x r N B] M; unfold free_name.
  - exists h'. split; [reflexivity|assumption].
  - rewrite (eqb0 _ N). apply more_free; assumption.
Qed.
Lemma head_apart : forall h h' p L, more h h' (p :: L) -> forall b, agree h' (write h' p b) L.
Proof. intros h h' p L M b x X. cbn. apply upd_other. intros ->. pose proof (mr_nodup _ _ _ M) as D. inversion D; contradiction. Qed.
Lemma more_agree : forall h h' L L0, sane h -> more h h' L -> (forall q, In q L0 -> blk h q <> None) -> agree h h' L0.
Proof.
  intros h h' L L0 [_ [S _]] M A q Q. apply (mr_same _ _ _ M). intros X. apply (mr_new _ _ _ M) in X. apply (A q Q). apply S. lia.
Qed.

Lemma union_makes : forall h n o l, sane h -> says h n o -> Z.of_nat (length l) < 2 ^ 31 ->
  makes h (CUnion (SelectByField o l)) (new_union_select h n (map lit_case l) (24 * Z.of_nat (length l))).
Proof.
  intros h n o l S Sy Len. unfold new_union_select. destruct (alloc_more h (BUnion false 0%nat 0 0%nat 0) S) as [p [h1 [L [-> [M [S1 Q]]]]]].
  destruct Q as [[Q1 [Q2 [Q3 ->]]]|[Q1 [-> ->]]].
  2: { cbn. exists 0%nat, h1, []. split; [reflexivity|]. split; [assumption|]. right. auto. }
  rewrite (eqb0 _ Q2). pose proof (says_more h h1 _ n _ S M Sy) as Sy1.
  destruct (opt_name h1 n o S1 Sy1) as [q [h2 [L2 [E [M2 [S2 Q]]]]]]. rewrite E. cbn [bind].
  pose proof (more_trans _ _ _ _ _ S M M2) as MM. cbn [app] in MM.
  destruct Q as [[X1 X2]|[X1 [-> X2]]]; rewrite X2.
  2: { destruct (more_free h _ [] p [] S MM) as [h3 [F M3]]. rewrite F. cbn. exists 0%nat, h3, []. split; [reflexivity|]. split; [assumption|]. right.
       split; [exact (short_more _ _ _ M X1)|auto]. }
  destruct l as [|x l].
  { cbn [length Z.of_nat Z.mul map]. cbn [Z.leb Z.compare]. exists p, (write h2 p (BUnion false q 0 0%nat 0)), (p :: L2 ++ []). split; [reflexivity|]. rewrite app_nil_r at 1.
    split; [apply more_write; [assumption|left; reflexivity]|]. left. econstructor; [assumption|cbn; apply upd_same| |constructor].
    eapply name_frame; [eassumption|]. eapply head_apart. eassumption. }
  set (k := Z.of_nat (length (x :: l))) in *. assert (K : 0 < k) by (unfold k; cbn [length]; lia).
  replace (24 * k <=? 0) with false by (symmetry; apply Z.leb_gt; lia).
  replace (24 * k mod 24 =? 0) with true by (symmetry; rewrite Z.mul_comm, Z.mod_mul by lia; reflexivity). cbn [negb].
  replace (24 * k / 24) with k by (rewrite Z.mul_comm, Z.div_mul by lia; reflexivity).
  assert (E0 : k = Z.of_nat (length (lit_case x :: map lit_case l))) by (unfold k; cbn [length]; rewrite map_length; reflexivity).
  destruct (array_more BUCases h2 (lit_case x) (map lit_case l) 40 24 S2) as [c [h3 [L3 [E3 [M3 [S3 Q]]]]]]; [lia|lia|rewrite <- E0; assumption|].
  rewrite <- E0 in E3, Q. cbn [map]. rewrite E3. cbn [bind]. pose proof (more_trans _ _ _ _ _ S MM M3) as M4. cbn [app] in M4.
  destruct Q as [[X3 [X4 X5]]|[X3 [-> ->]]].
  - rewrite (eqb0 _ X3). eexists p, _, (p :: L2 ++ L3). split; [reflexivity|]. split; [apply more_write; [assumption|left; reflexivity]|]. left.
    replace (swrap 32 k) with k by (unfold swrap; rewrite Z.mod_small by lia; lia).
    econstructor; [assumption|cbn; apply upd_same| |].
    + apply (name_frame h3); [|intros y Y; apply (head_apart _ _ _ _ M4); apply in_app_iff; auto]. eapply name_frame; [eassumption|].
      apply (more_agree h2 h3 L3); [assumption|assumption|]. eapply name_live. eassumption.
    + cbn [map]. apply (arr_frame _ h3); [assumption|]. intros y Y. apply (head_apart _ _ _ _ M4); apply in_app_iff; auto.
  - cbn [Nat.eqb]. rewrite app_nil_r in M4. destruct (more_free_name h h2 h3 q o [p] L2 [] S X1) as [h4 [F4 M5]]; [rewrite app_nil_r; assumption|]. rewrite F4. cbn [bind].
    destruct (more_free h _ [] p [] S M5) as [h5 [F M6]]. rewrite F. cbn. exists 0%nat, h5, []. split; [reflexivity|]. split; [assumption|]. right.
    split; [eapply short_more; [exact MM|assumption]|auto].
Qed.

Lemma cast_makes : forall h n o n' s l, sane h -> says h n o -> says h n' (Some s) -> Z.of_nat (length l) < 2 ^ 31 ->
  makes h (CCast (Build_pctx o (Some s) l)) (new_ptr_cast h n n' l (16 * Z.of_nat (length l))).
Proof.
  intros h n o n' s l S Sy Sy' Len.
  assert (G : makes h (CCast (Build_pctx o (Some s) l)) (let '(p, h) := alloc h (BCast 0%nat 0%nat 0 0%nat) in
    if Nat.eqb p 0 then Ret (0%nat, h)
    else
      (do '(q, h) <- match n with NNull => Ret (0%nat, h) | _ => strdup h n end;
      if match n with NNull => false | _ => Nat.eqb q 0 end then do h <- free h p; Ret (0%nat, h)
      else
        do '(r, h) <- strdup h n';
        if Nat.eqb r 0 then do h <- free_name h q; do h <- free h p; Ret (0%nat, h)
        else if 16 * Z.of_nat (length l) <=? 0 then Ret (p, write h p (BCast q r 0 0%nat))
        else if negb (16 * Z.of_nat (length l) mod 16 =? 0) then Abort
        else
          let count := swrap 32 (16 * Z.of_nat (length l) / 16) in
          do '(c, h) <- array_copy h BPCases l count 16 16 (16 * Z.of_nat (length l));
          if Nat.eqb c 0 then do h <- free_name h r; do h <- free_name h q; do h <- free h p; Ret (0%nat, h)
          else Ret (p, write h p (BCast q r count c)))%res)).
  2: { destruct (says_chars _ _ _ Sy') as [_ NN]. unfold new_ptr_cast. destruct n'; [contradiction|exact G|exact G]. }
  destruct (alloc_more h (BCast 0%nat 0%nat 0 0%nat) S) as [p [h1 [L [-> [M [S1 Q]]]]]].
  destruct Q as [[Q1 [Q2 [Q3 ->]]]|[Q1 [-> ->]]].
  2: { cbn. exists 0%nat, h1, []. split; [reflexivity|]. split; [assumption|]. right. auto. }
  rewrite (eqb0 _ Q2). pose proof (says_more h h1 _ n _ S M Sy) as Sy1.
  destruct (opt_name h1 n o S1 Sy1) as [q [h2 [L2 [E [M2 [S2 Q]]]]]]. rewrite E. cbn [bind].
  pose proof (more_trans _ _ _ _ _ S M M2) as MM. cbn [app] in MM.
  destruct Q as [[X1 X2]|[X1 [-> X2]]]; rewrite X2.
  2: { destruct (more_free h _ [] p [] S MM) as [h3 [F M3]]. rewrite F. cbn. exists 0%nat, h3, []. split; [reflexivity|]. split; [assumption|]. right.
       split; [exact (short_more _ _ _ M X1)|auto]. }
  assert (Sy2 : says h2 n' (Some s)) by (eapply says_more; [exact S|exact MM|exact Sy']).
  destruct (strdup_more h2 n' s S2 Sy2) as [r [h3 [L3 [E3 [M3 [S3 Q]]]]]]. rewrite E3. cbn [bind].
  pose proof (more_trans _ _ _ _ _ S MM M3) as M4. cbn [app] in M4.
  destruct Q as [[Y1 [Y2 Y3]]|[Y1 [-> ->]]].
  2: { cbn [Nat.eqb]. rewrite app_nil_r in M4. destruct (more_free_name h h2 h3 q o [p] L2 [] S X1) as [h4 [F4 M5]]; [rewrite app_nil_r; assumption|]. rewrite F4. cbn [bind].
       destruct (more_free h _ [] p [] S M5) as [h5 [F M6]]. rewrite F. cbn. exists 0%nat, h5, []. split; [reflexivity|]. split; [assumption|]. right.
       split; [eapply short_more; [exact MM|assumption]|auto]. }
  rewrite (eqb0 _ Y1).
  assert (X1' : name_at h3 q o L2) by (eapply name_frame; [eassumption|]; apply (more_agree h2 h3 L3); [assumption|assumption|]; eapply name_live; eassumption).
  destruct l as [|x l].
  { cbn [length Z.of_nat Z.mul map]. cbn [Z.leb Z.compare]. exists p, (write h3 p (BCast q r 0 0%nat)), (p :: L2 ++ L3 ++ []). split; [reflexivity|]. rewrite app_nil_r at 1.
    split; [apply more_write; [assumption|left; reflexivity]|]. left. econstructor; [assumption|cbn; apply upd_same| | |constructor].
    - eapply name_frame; [eassumption|]. intros y Y. apply (head_apart _ _ _ _ M4); apply in_app_iff; auto.
    - eapply name_frame; [eassumption|]. intros y Y. apply (head_apart _ _ _ _ M4); apply in_app_iff; auto. }
  set (k := Z.of_nat (length (x :: l))) in *. assert (K : 0 < k) by (unfold k; cbn [length]; lia).
  replace (16 * k <=? 0) with false by (symmetry; apply Z.leb_gt; lia).
  replace (16 * k mod 16 =? 0) with true by (symmetry; rewrite Z.mul_comm, Z.mod_mul by lia; reflexivity). cbn [negb].
  replace (16 * k / 16) with k by (rewrite Z.mul_comm, Z.div_mul by lia; reflexivity).
  destruct (array_more BPCases h3 x l 16 16 S3) as [c [h4 [L4 [E4 [M5 [S4 Q]]]]]]; [lia|lia|assumption|].
  fold k in E4, Q. cbv zeta. rewrite E4. cbn [bind]. pose proof (more_trans _ _ _ _ _ S M4 M5) as M6. cbn [app] in M6. rewrite <- app_assoc in M6.
  destruct Q as [[Z1 [Z2 Z3]]|[Z1 [-> ->]]].
  - rewrite (eqb0 _ Z1). eexists p, _, (p :: L2 ++ L3 ++ L4). split; [reflexivity|]. split; [apply more_write; [assumption|left; reflexivity]|]. left.
    replace (swrap 32 k) with k by (unfold swrap; rewrite Z.mod_small by lia; lia).
    econstructor; [assumption|cbn; apply upd_same| | |].
    + apply (name_frame h4); [|intros y Y; apply (head_apart _ _ _ _ M6); rewrite !in_app_iff; auto]. eapply name_frame; [eassumption|].
      apply (more_agree h3 h4 L4); [assumption|assumption|]. eapply name_live. eassumption.
    + apply (name_frame h4); [|intros y Y; apply (head_apart _ _ _ _ M6); rewrite !in_app_iff; auto]. eapply name_frame; [eassumption|].
      apply (more_agree h3 h4 L4); [assumption|assumption|]. eapply name_live. eassumption.
    + apply (arr_frame _ h4); [assumption|]. intros y Y. apply (head_apart _ _ _ _ M6); rewrite !in_app_iff; auto.
  - cbn [Nat.eqb]. rewrite app_nil_r in M6. destruct (more_free_name h h3 h4 r (Some s) (p :: L2) L3 [] S Y2) as [h5 [F5 M7]]; [rewrite app_nil_r; cbn; assumption|]. rewrite F5. cbn [bind].
    rewrite app_nil_r in M7. destruct (more_free_name h h2 h5 q o [p] L2 [] S X1) as [h6 [F6 M8]]; [rewrite app_nil_r; assumption|]. rewrite F6. cbn [bind].
    destruct (more_free h _ [] p [] S M8) as [h7 [F M9]]. rewrite F. cbn. exists 0%nat, h7, []. split; [reflexivity|]. split; [assumption|]. right.
    split; [eapply short_more; [exact M4|assumption]|auto].
Qed.
