(** Proofs about the sweep line. *)
From Coq Require Import ZArith String List Bool Lia ZifyBool Permutation Sorted.
From Verif Require Import Base BaseProof EntryModel EntrySpec ValueModel ValueSpec DeepModel DeepSpec.
Import ListNotations.
Open Scope Z_scope.


Lemma insert_perm : forall x l, Permutation (x :: l) (insert x l).
Proof.
  intros x l. induction l as [|h r IH]; cbn; [apply Permutation_refl|].
  destruct (h_addr x <=? h_addr h); [apply Permutation_refl|].
  eapply Permutation_trans; [apply perm_swap|]. apply perm_skip. exact IH.
Qed.
Lemma sort_perm : forall l, Permutation l (sort l).
Proof.
  induction l as [|h r IH]; cbn; [apply Permutation_refl|].
  eapply Permutation_trans; [apply perm_skip, IH|]. apply insert_perm.
Qed.
Definition le_addr (x y : hent) := h_addr x <= h_addr y.
Lemma insert_sorted : forall x l, StronglySorted le_addr l -> StronglySorted le_addr (insert x l).
Proof.
  intros x l H. induction H as [|h r S IH F]; cbn; [repeat constructor|].
  destruct (h_addr x <=? h_addr h) eqn:C.
  - constructor; [constructor; assumption|]. constructor; [unfold le_addr; lia|].
    eapply Forall_impl; [|exact F]. unfold le_addr. intros a L. cbv beta in L. lia.
  - constructor; [exact IH|]. eapply Permutation_Forall; [apply insert_perm|].
    constructor; [unfold le_addr; lia|exact F].
Qed.
Lemma sort_sorted : forall l, StronglySorted le_addr (sort l).
Proof. induction l as [|h r IH]; cbn; [constructor|apply insert_sorted, IH]. Qed.

Lemma off_cons : forall o i j z, off_of ((i, z) :: o) j = if Nat.eqb i j then z else off_of o j.
Proof. intros. unfold off_of. cbn. destruct (Nat.eqb i j); reflexivity. Qed.
Lemma off_none : forall o j, (forall z, ~ In (j, z) o) -> off_of o j = 0.
Proof.
  induction o as [|[i z] o IH]; intros j N; [reflexivity|]. rewrite off_cons.
  destruct (Nat.eqb_spec i j) as [->|D]; [exfalso; apply (N z); left; reflexivity|].
  apply IH. intros z' I. apply (N z'). right. exact I.
Qed.
Lemma sweep_ids : forall l a s i z, In (i, z) (sweep l a s) -> exists h, In h l /\ h_id h = i /\ 0 < h_size h.
Proof.
  induction l as [|h r IH]; intros a s i z I; [destruct I|]. cbn in I.
  destruct (h_size h <=? 0) eqn:S.
  { destruct (IH _ _ _ _ I) as [x [X1 X2]]. exists x. split; [right|]; assumption. }
  destruct (a =? 0).
  { destruct (IH _ _ _ _ I) as [x [X1 X2]]. exists x. split; [right|]; assumption. }
  destruct (uwrap 64 (a + s) <=? h_addr h).
  { destruct (IH _ _ _ _ I) as [x [X1 X2]]. exists x. split; [right|]; assumption. }
  destruct I as [I|I].
  - injection I as I1 I2. exists h. repeat split; [left; reflexivity|exact I1|lia].
  - destruct (IH _ _ _ _ I) as [x [X1 X2]]. exists x. split; [right|]; assumption.
Qed.

Lemma sweep_nonempty : forall l a s, sweep l a s = sweep (nonempty l) a s.
Proof.
  induction l as [|h r IH]; intros a s; [reflexivity|].
  unfold nonempty. cbn [filter]. destruct (0 <? h_size h) eqn:P.
  - cbn [sweep]. rewrite IH. assert (S : (h_size h <=? 0) = false) by lia. rewrite S. fold (nonempty r).
    rewrite <- !IH. reflexivity.
  - fold (nonempty r). rewrite <- IH. cbn [sweep]. assert (S : (h_size h <=? 0) = true) by lia. rewrite S. reflexivity.
Qed.

Definition pos_range (h : hent) := 0 < h_addr h /\ 0 < h_size h /\ h_addr h + h_size h < 2 ^ 64.

Lemma sweep_main : forall r b,
  StronglySorted le_addr (b :: r) -> NoDup (map h_addr (b :: r)) -> NoDup (map h_id (b :: r)) ->
  (forall h, In h (b :: r) -> pos_range h) -> laminar (b :: r) ->
  outermost (b :: r) b /\
  forall h, In h (b :: r) -> exists x, outermost (b :: r) x /\ inside h x /\
    off_of (sweep r (h_addr b) (h_size b)) (h_id h) = h_addr h - h_addr x.
Proof.
  induction r as [|c r IH]; intros b SS NA NI P L.
  { assert (O : outermost [b] b).
    { split; [left; reflexivity|]. intros x [->|X] _; [reflexivity|destruct X]. }
    split; [exact O|]. intros h [<-|X]; [|destruct X].
    exists b. split; [exact O|]. split; [unfold inside; lia|]. cbn. lia. }
  pose proof (P b (or_introl eq_refl)) as Pb. pose proof (P c (or_intror (or_introl eq_refl))) as Pc.
  unfold pos_range in Pb, Pc.
  inversion SS as [|b0 r0 SS' F]. subst b0 r0.
  pose proof (Forall_inv F) as Lbc. unfold le_addr in Lbc.
  cbn [map] in NA, NI. inversion NA as [|? ? NAb NA']. inversion NI as [|? ? NIb NI']. subst.
  assert (Nbc : h_addr b <> h_addr c). { intro Q. apply NAb. left. symmetry. exact Q. }
  inversion NI' as [|? ? NIc NI'']. subst.
  inversion NA' as [|? ? NAc NA'']. subst.
  assert (Ob : outermost (b :: c :: r) b).
  { split; [left; reflexivity|]. intros x X [I1 I2].
    destruct X as [X|X]; [symmetry; exact X|]. exfalso.
    assert (h_addr b <= h_addr x). { rewrite Forall_forall in F. apply F. exact X. }
    apply NAb. change (In (h_addr b) (map h_addr (c :: r))). apply in_map_iff. exists x. split; [lia|exact X]. }
  split; [exact Ob|].
  cbn [sweep]. assert (S : (h_size c <=? 0) = false) by lia. rewrite S.
  assert (Z0 : (h_addr b =? 0) = false) by lia. rewrite Z0.
  rewrite (uwrap_small 64 (h_addr b + h_size b)) by lia.
  assert (L1 : laminar (c :: r)). { intros x y X Y. apply L; right; assumption. }
  destruct (h_addr b + h_size b <=? h_addr c) eqn:C.
  - destruct (IH c SS' NA' NI' (fun h I => P h (or_intror I)) L1) as [Oc R].
    assert (Keep : forall x, outermost (c :: r) x -> outermost (b :: c :: r) x).
    { intros x [X1 X2]. split; [right; exact X1|]. intros y [<-|Y] I; [|apply X2; assumption].
      exfalso. destruct I as [I1 I2]. pose proof (P x (or_intror X1)) as Px. unfold pos_range in Px.
      assert (h_addr c <= h_addr x).
      { destruct X1 as [<-|X1]; [lia|]. inversion SS' as [|? ? ? F']. rewrite Forall_forall in F'. apply F'. exact X1. }
      lia. }
    intros h [<-|H].
    + exists b. split; [exact Ob|]. split; [unfold inside; lia|].
      rewrite off_none; [lia|]. intros z I. apply sweep_ids in I. destruct I as [x [X1 [X2 _]]].
      apply NIb. right. apply in_map_iff. exists x. split; assumption.
    + destruct (R h H) as [x [X1 [X2 X3]]]. exists x. split; [apply Keep; exact X1|]. split; assumption.
  - assert (Icb : inside c b).
    { destruct (L b c (or_introl eq_refl) (or_intror (or_introl eq_refl))) as [I|[I|I]].
      - destruct I. lia.
      - exact I.
      - destruct I; lia. }
    assert (SSb : StronglySorted le_addr (b :: r)).
    { constructor; [inversion SS'; assumption|]. apply Forall_inv_tail in F. exact F. }
    assert (NAb' : NoDup (map h_addr (b :: r))).
    { cbn. constructor; [intro I; apply NAb; right; exact I|exact NA'']. }
    assert (NIb' : NoDup (map h_id (b :: r))).
    { cbn. constructor; [intro I; apply NIb; right; exact I|exact NI'']. }
    assert (Sub : forall h, In h (b :: r) -> In h (b :: c :: r)).
    { intros h [->|H]; [left; reflexivity|right; right; exact H]. }
    assert (L2 : laminar (b :: r)). { intros x y X Y. apply L; apply Sub; assumption. }
    destruct (IH b SSb NAb' NIb' (fun h I => P h (Sub h I)) L2) as [Ob' R].
    assert (Keep : forall x, outermost (b :: r) x -> outermost (b :: c :: r) x).
    { intros x [X1 X2]. split; [apply Sub; exact X1|]. intros y Y I.
      destruct Y as [<-|[<-|Y]]; [apply X2; [left; reflexivity|exact I]| |apply X2; [right; exact Y|exact I]].
      exfalso. assert (E : b = x).
      { apply X2; [left; reflexivity|]. destruct I, Icb. split; lia. }
      subst x. destruct I. lia. }
    intros h H. rewrite off_cons.
    destruct H as [<-|[<-|H]].
    + destruct (Nat.eqb_spec (h_id c) (h_id b)) as [Q|_].
      { exfalso. apply NIb. left. exact Q. }
      destruct (R b (or_introl eq_refl)) as [x [X1 [X2 X3]]]. exists x. split; [apply Keep; exact X1|]. split; assumption.
    + rewrite Nat.eqb_refl. exists b. split; [exact Ob|]. split; [exact Icb|].
      apply uwrap_small. destruct Icb. lia.
    + destruct (Nat.eqb_spec (h_id c) (h_id h)) as [Q|_].
      { exfalso. apply NIc. rewrite Q. apply in_map. exact H. }
      destruct (R h (or_intror H)) as [x [X1 [X2 X3]]]. exists x. split; [apply Keep; exact X1|]. split; assumption.
Qed.

Lemma nodup_map_filter : forall {A B} (f : A -> B) p l, NoDup (map f l) -> NoDup (map f (filter p l)).
Proof.
  intros A B f p l. induction l as [|a l IH]; intro N; cbn; [constructor|].
  cbn in N. inversion N as [|? ? N1 N2]. subst. destruct (p a); [|apply IH; exact N2].
  cbn. constructor; [|apply IH; exact N2]. intro I. apply N1. apply in_map_iff in I.
  destruct I as [x [X1 X2]]. apply filter_In in X2. apply in_map_iff. exists x. tauto.
Qed.
Lemma nonempty_in : forall l h, In h (nonempty l) <-> In h l /\ 0 < h_size h.
Proof. intros. unfold nonempty. rewrite filter_In. rewrite Z.ltb_lt. tauto. Qed.
Lemma filter_sorted : forall (p : hent -> bool) l, StronglySorted le_addr l -> StronglySorted le_addr (filter p l).
Proof.
  intros p l H. induction H as [|h r S IH F]; cbn; [constructor|].
  destruct (p h); [|exact IH]. constructor; [exact IH|].
  rewrite Forall_forall in *. intros x X. apply filter_In in X. apply F. tauto.
Qed.

Lemma identify_ok : forall l, ranges l -> laminar (nonempty l) ->
  forall h, In h l -> 0 < h_size h ->
  exists b, outermost (nonempty l) b /\ inside h b /\ off_of (identify l) (h_id h) = h_addr h - h_addr b.
Proof.
  intros l [NA [NI P]] L h H Hs. unfold identify. rewrite sweep_nonempty.
  set (q := nonempty (sort l)).
  assert (PM : Permutation (nonempty l) q).
  { unfold q, nonempty. clear. pose proof (sort_perm l) as S. induction S; cbn.
    - constructor.
    - destruct (0 <? h_size x); [constructor|]; assumption.
    - destruct (0 <? h_size x), (0 <? h_size y); try apply Permutation_refl. apply perm_swap.
    - eapply Permutation_trans; eassumption. }
  assert (Hq : In h q). { eapply Permutation_in; [exact PM|]. apply nonempty_in. split; assumption. }
  assert (SQ : StronglySorted le_addr q). { apply filter_sorted. apply sort_sorted. }
  assert (IQ : forall x, In x q <-> In x (nonempty l)).
  { intro x. split; intro I; eapply Permutation_in; try exact I; [apply Permutation_sym|]; exact PM. }
  assert (PQ : forall x, In x q -> pos_range x).
  { intros x X. apply IQ in X. apply nonempty_in in X. destruct X as [X1 X2]. destruct (P x X1) as [A1 [A2 A3]].
    repeat split; assumption. }
  assert (NAq : NoDup (map h_addr q)).
  { eapply Permutation_NoDup; [apply Permutation_map; exact PM|]. apply nodup_map_filter. exact NA. }
  assert (NIq : NoDup (map h_id q)).
  { eapply Permutation_NoDup; [apply Permutation_map; exact PM|]. apply nodup_map_filter. exact NI. }
  assert (LQ : laminar q). { intros x y X Y. apply L; apply IQ; assumption. }
  assert (OQ : forall x, outermost q x -> outermost (nonempty l) x).
  { intros x [X1 X2]. split; [apply IQ; exact X1|]. intros y Y. apply X2. apply IQ. exact Y. }
  clearbody q. destruct q as [|b r]; [destruct Hq|].
  pose proof (PQ b (or_introl eq_refl)) as Pb. unfold pos_range in Pb.
  cbn [sweep]. assert (S : (h_size b <=? 0) = false) by lia. rewrite S. cbn [Z.eqb].
  destruct (sweep_main r b SQ NAq NIq PQ LQ) as [_ R].
  destruct (R h Hq) as [x [X1 [X2 X3]]]. exists x. split; [apply OQ; exact X1|]. split; assumption.
Qed.

Lemma identify_empty : forall l, NoDup (map h_id l) -> forall h, In h l -> h_size h <= 0 -> off_of (identify l) (h_id h) = 0.
Proof.
  intros l N h H S. apply off_none. intros z I. unfold identify in I. apply sweep_ids in I.
  destruct I as [x [X1 [X2 X3]]].
  assert (X4 : In x l). { eapply Permutation_in; [apply Permutation_sym, sort_perm|exact X1]. }
  assert (E : x = h).
  { clear X1 X3 S z. induction l as [|a l IH]; [destruct H|]. cbn in N. inversion N as [|? ? N1 N2]. subst.
    destruct H as [<-|H], X4 as [<-|X4]; [reflexivity| | |apply IH; assumption]; exfalso; apply N1; apply in_map_iff;
      [exists x|exists h]; split; auto. }
  subst x. lia.
Qed.

Lemma nodup_addr_eq : forall l x y, NoDup (map h_addr l) -> In x l -> In y l -> h_addr x = h_addr y -> x = y.
Proof.
  induction l as [|a l IH]; intros x y N X Y Q; [destruct X|]. cbn in N. inversion N as [|? ? N1 N2]. subst.
  destruct X as [<-|X], Y as [<-|Y]; [reflexivity| | |apply IH; assumption]; exfalso; apply N1; apply in_map_iff;
    [exists y|exists x]; split; auto.
Qed.

Lemma identify_zero : forall l, ranges l -> laminar (nonempty l) ->
  forall h, In h l -> 0 < h_size h -> (off_of (identify l) (h_id h) = 0 <-> outermost (nonempty l) h).
Proof.
  intros l R L h H S. destruct (identify_ok l R L h H S) as [b [B1 [B2 B3]]]. destruct R as [NA _].
  split; intro Q.
  - assert (E : h = b).
    { apply (nodup_addr_eq l); [exact NA|exact H| |lia]. destruct B1 as [B1 _]. apply nonempty_in in B1. tauto. }
    subst h. exact B1.
  - destruct Q as [Q1 Q2]. destruct B1 as [B1 _]. rewrite (Q2 b B1 B2) in B3. lia.
Qed.
