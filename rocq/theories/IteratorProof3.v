(** Proofs about the recursive iterator, continued: the recursive driver (C06) and the
    stability of finished tasks (C08). *)
From Coq Require Import ZArith List Bool Lia ZifyBool.
Import ListNotations.
From Verif Require Import IteratorModel IteratorSpec IteratorProof IteratorProof2.
Open Scope Z_scope.

Lemma tree_ind' (P : tree -> Prop) :
  (forall p ts, Forall P ts -> P (T p ts)) -> forall t, P t.
Proof.
  intros H. fix IH 1. intros [p ts]. apply H. induction ts as [|t r IHr]; constructor; auto.
Qed.

(** What a client sees of a node. *)
Definition pay (n : node) := (parent n, state n, p_in n, p_out n).

(** * Appending a list of tasks *)
Lemma append_all_ok : forall l it D n q, WF it -> WFD it D -> cells it (cur it) = Some n ->
  is_end (state n) = false -> D (cur it) = q -> (q = [] -> last_dep n = None) ->
  exists it' D' n', append_all it l = Ok it' /\ WF it' /\ WFD it' D' /\ cur it' = cur it /\
    fresh it' = (fresh it + length l)%nat /\
    cells it' (cur it) = Some n' /\ pay n' = pay n /\
    D' (cur it) = q ++ seq (fresh it) (length l) /\
    (forall j, (j < fresh it)%nat -> j <> cur it -> D' j = D j /\ (~ In j q -> cells it' j = cells it j)) /\
    (forall j m, cells it j = Some m -> In j q -> exists m', cells it' j = Some m' /\ pay m' = pay m /\ last_dep m' = last_dep m) /\
    (forall k x, nth_error l k = Some x -> exists m', cells it' (fresh it + k)%nat = Some m' /\
        pay m' = (Some (cur it), 0, x, 0) /\ last_dep m' = None /\ D' (fresh it + k)%nat = []) /\
    (forall j, (fresh it + length l <= j)%nat -> cells it' j = None).
Proof.
  induction l as [|x l IH]; intros it D n q Wf W E Es ED HL; cbn [append_all].
  - exists it, D, n. split; [reflexivity|]. split; [auto|]. split; [auto|]. split; [auto|]. cbn [length seq].
    split; [lia|]. split; [auto|]. split; [auto|]. split; [rewrite app_nil_r; auto|]. split; [auto|].
    split; [eauto|]. split; [intros [|k] y H; discriminate|].
    intros j Hj. destruct (cells it j) eqn:Q; auto. apply (W_live it D W) in Q. lia.
  - assert (HL' : D (cur it) = [] -> last_dep n = None) by (rewrite ED; auto).
    destruct (append_ok it D n x Wf W E Es HL') as (it1 & H1 & H2 & H3 & H4 & H5 & H6).
    rewrite H1. cbn [bind].
    assert (Lc := W_live it D W _ _ E).
    assert (E1 : exists n1, cells it1 (cur it1) = Some n1 /\ pay n1 = pay n).
    { rewrite H3, H4. unfold appended_cell. replace (Nat.eqb (cur it) (fresh it)) with false by lia.
      rewrite Nat.eqb_refl. eexists. split; reflexivity. }
    destruct E1 as (n1 & E1 & P1).
    assert (Es1 : is_end (state n1) = false) by (unfold pay in P1; congruence).
    assert (ED1 : appended_D it D (cur it1) = q ++ [fresh it]).
    { rewrite H3. unfold appended_D. rewrite Nat.eqb_refl, ED. reflexivity. }
    assert (Nq : q ++ [fresh it] = [] -> last_dep n1 = None) by (destruct q; discriminate).
    destruct (IH it1 (appended_D it D) n1 (q ++ [fresh it]) H6 H5 E1 Es1 ED1 Nq)
      as (it' & D' & n' & A1 & A2 & A3 & A4 & A5 & A6 & A7 & A8 & A9 & A10 & A11 & A12).
    exists it', D', n'. rewrite H2, H3 in *. split; [exact A1|]. split; [exact A2|]. split; [exact A3|].
    split; [exact A4|]. cbn [length seq]. split; [lia|]. split; [exact A6|]. split; [congruence|].
    split; [rewrite A8, <- app_assoc; reflexivity|]. split; [|split; [|split]].
    + intros j Hj Hjc. destruct (A9 j ltac:(lia) Hjc) as [B1 B2]. split.
      * rewrite B1. unfold appended_D. replace (Nat.eqb j (cur it)) with false by lia.
        replace (Nat.eqb j (fresh it)) with false by lia. reflexivity.
      * intros Hq. rewrite B2 by (rewrite in_app_iff; cbn; intros [|[|[]]]; [tauto|lia]).
        rewrite H4. unfold appended_cell. replace (Nat.eqb j (fresh it)) with false by lia.
        replace (Nat.eqb j (cur it)) with false by lia. rewrite ED. destruct q as [|a q]; [reflexivity|].
        destruct (Nat.eqb j (last (a :: q) 0%nat)) eqn:Ej; [|reflexivity].
        exfalso. apply Hq. apply Nat.eqb_eq in Ej. rewrite Ej. apply last_in. congruence.
    + intros j m Hm Hq.
      assert (exists m1, cells it1 j = Some m1 /\ pay m1 = pay m /\ last_dep m1 = last_dep m) as (m1 & M1 & M2 & M3).
      { rewrite <- ED in Hq. destruct (D_in it D W _ _ j E Hq) as (_ & _ & _ & Hj).
        rewrite H4. unfold appended_cell. replace (Nat.eqb j (fresh it)) with false by lia.
        replace (Nat.eqb j (cur it)) with false by lia. rewrite Hm.
        destruct (D (cur it)); [eauto|]. destruct (Nat.eqb j _); eexists; split; reflexivity || auto. }
      destruct (A10 j m1 M1 ltac:(rewrite in_app_iff; auto)) as (m' & M4 & M5 & M6).
      exists m'. split; auto. split; congruence.
    + intros [|k] y Hk; cbn in Hk.
      * inversion Hk; subst y. rewrite Nat.add_0_r.
        assert (Q : exists m1, cells it1 (fresh it) = Some m1 /\ pay m1 = (Some (cur it), 0, x, 0) /\ last_dep m1 = None).
        { rewrite H4. unfold appended_cell. rewrite Nat.eqb_refl. eexists. split; reflexivity || auto. }
        destruct Q as (m1 & M1 & M2 & M3).
        destruct (A10 (fresh it) m1 M1 ltac:(rewrite in_app_iff; cbn; auto)) as (m' & M4 & M5 & M6).
        exists m'. split; auto. split; [congruence|]. split; [congruence|].
        destruct (A9 (fresh it) ltac:(lia) ltac:(lia)) as [B1 _]. rewrite B1. unfold appended_D.
        replace (Nat.eqb (fresh it) (cur it)) with false by lia. rewrite Nat.eqb_refl. reflexivity.
      * destruct (A11 k y Hk) as (m' & M1 & M2 & M3 & M4). exists m'.
        replace (fresh it + S k)%nat with (S (fresh it) + k)%nat by lia. auto.
    + intros j Hj. apply A12. lia.
Qed.

(** * Collecting the results *)
Definition has_result (it : iter) (D : nat -> list nat) (x : nat) (r : Z * Z * bool) : Prop :=
  exists e, cells it x = Some e /\ is_end (state e) = true /\ D x = [] /\ r = (p_out e, p_in e, state e =? -3).

Lemma collect_ok : forall ds rs fuel it D n, WF it -> WFD it D -> cells it (cur it) = Some n ->
  D (cur it) = ds -> Forall2 (has_result it D) ds rs -> (length ds < fuel)%nat ->
  exists it' D' n', collect fuel it = Ok (it', rs) /\ WF it' /\ WFD it' D' /\ cur it' = cur it /\ fresh it' = fresh it /\
    cells it' (cur it) = Some n' /\ pay n' = pay n /\ D' (cur it) = [] /\
    (forall j, j <> cur it -> D' j = D j) /\
    (forall j, j <> cur it -> ~ In j ds -> cells it' j = cells it j) /\
    (forall j, In j ds -> cells it' j = None).
Proof.
  induction ds as [|x ds IH]; intros rs fuel it D n Wf W E ED F L; (destruct fuel as [|fuel]; [cbn in L; lia|]); cbn [collect].
  - inversion F; subst. unfold dequeue at 1. unfold load at 1. rewrite E. cbn [bind]. rewrite (D_deps it D W _ _ E), ED. cbn.
    exists it, D, n. repeat (split; [solve [auto]|]). intros j [].
  - inversion F as [|? r ? rs' (e & Ee & Ese & Dx & Er) F']; subst.
    destruct (dequeue_ok it D n x ds e Wf W E ED Ee Ese Dx) as (it1 & H1 & H2 & H3 & H4 & H5 & H6).
    rewrite H1. cbn [bind].
    destruct (D_in it D W _ _ x E ltac:(rewrite ED; cbn; auto)) as (_ & _ & _ & Hx).
    pose proof (W_nodup it D W _ _ E) as ND. rewrite ED in ND. inversion ND as [|? ? Nx NDr]; subst.
    pose proof (W_seg it D W _ _ E) as Sg. rewrite ED in Sg. cbn in Sg.
    destruct Sg as (Hdn & e' & Ee2 & _ & Pve & Sr). assert (e' = e) by congruence. subst e'. clear Ee2.
    assert (Hne : le_next e = hd_error ds) by (eapply seg_hd; eauto).
    assert (E1 : cells it1 (cur it1) = Some (w_deps (le_next e) n)).
    { rewrite H3, H4. unfold dequeued_cell. replace (Nat.eqb (cur it) x) with false by lia. rewrite Nat.eqb_refl. reflexivity. }
    assert (ED1 : dequeued_D it D ds (cur it1) = ds). { rewrite H3. unfold dequeued_D. rewrite Nat.eqb_refl. reflexivity. }
    assert (F1 : Forall2 (has_result it1 (dequeued_D it D ds)) ds rs').
    { clear - F' H4 Nx ED W E. assert (G : forall j, In j ds -> j <> x /\ j <> cur it).
      { intros j Hj. split; [intros ->; tauto|]. destruct (D_in it D W _ _ j E ltac:(rewrite ED; cbn; auto)) as (_ & _ & _ & Hx). lia. }
      assert (HD2 : forall j, j <> cur it -> dequeued_D it D ds j = D j).
      { intros j Hj. unfold dequeued_D. replace (Nat.eqb j (cur it)) with false by lia. reflexivity. }
      revert HD2. generalize (dequeued_D it D ds). intros D1 HD2.
      clear Nx ED. induction F' as [|j r l rs (ej & Q1 & Q2 & Q3 & Q4) F IHF]; constructor.
      - destruct (G j ltac:(cbn; auto)) as [Gx Gc].
        assert (exists e1, cells it1 j = Some e1 /\ pay e1 = pay ej) as (e1 & R1 & R2).
        { rewrite H4. unfold dequeued_cell. replace (Nat.eqb j x) with false by lia. replace (Nat.eqb j (cur it)) with false by lia.
          rewrite Q1. destruct (le_next e) as [y|]; [destruct (Nat.eqb j y)|]; eauto. }
        unfold pay in R2. inversion R2 as [[R3 R4 R5 R6]]. exists e1. rewrite R4, R5, R6. rewrite HD2 by auto. auto.
      - apply IHF. intros; apply G. cbn; auto. }
    destruct (IH rs' fuel it1 (dequeued_D it D ds) _ H6 H5 E1 ED1 F1 ltac:(cbn in L; lia))
      as (it' & D' & n' & A1 & A2 & A3 & A4 & A5 & A6 & A7 & A8 & A9 & A10 & A11).
    rewrite A1. cbn [bind]. rewrite H2, H3 in *. exists it', D', n'.
    split; [reflexivity|]. split; [exact A2|]. split; [exact A3|]. split; [exact A4|]. split; [exact A5|].
    split; [exact A6|]. split; [rewrite A7; reflexivity|]. split; [exact A8|]. split; [|split].
    + intros j Hj. rewrite A9 by auto. unfold dequeued_D. replace (Nat.eqb j (cur it)) with false by lia. reflexivity.
    + intros j Hj Nj. cbn in Nj. rewrite A10 by tauto. rewrite H4. unfold dequeued_cell.
      replace (Nat.eqb j x) with false by lia. replace (Nat.eqb j (cur it)) with false by lia.
      destruct (le_next e) as [y|] eqn:Ey; auto. destruct (Nat.eqb j y) eqn:Q; auto. exfalso.
      destruct ds as [|y' r']; [discriminate|]. cbn in Hne. inversion Hne; subst. apply Nat.eqb_eq in Q. subst. cbn in Nj. tauto.
    + intros j [<-|Hj]; [|auto]. rewrite A10 by (auto; lia). rewrite H4. unfold dequeued_cell. rewrite Nat.eqb_refl. reflexivity.
Qed.

(** * Steps of [next] that the driver takes *)
Lemma first_unfinished_at : forall it D ds x xs o n nx, WFD it D -> cells it o = Some n -> D o = ds ++ x :: xs ->
  (forall y, In y ds -> exists e, cells it y = Some e /\ is_end (state e) = true) ->
  cells it x = Some nx -> is_end (state nx) = false ->
  first_unfinished (S (fresh it)) it (deps n) = Ok (Some (Some x)).
Proof.
  intros it D ds x xs o n nx W E ED Hds Ex Esx.
  pose proof (D_len it D W _ _ E) as Ln.
  destruct (first_unfinished_ok it (D o) _ _ _ (S (fresh it)) (W_seg it D W _ _ E) ltac:(lia)) as (r & Er & H).
  rewrite Er. destruct r as [y|].
  - destruct H as (_ & ny & a & b & Ey & Esy & Hl & Ha). do 3 f_equal.
    rewrite ED in Hl. revert a Hl Ha. induction ds as [|d ds IH]; intros [|z a] Hl Ha; cbn in Hl; inversion Hl; subst; auto.
    + exfalso. rewrite (Ha z nx ltac:(cbn; auto) Ex) in Esx. discriminate.
    + exfalso. destruct (Hds y ltac:(cbn; auto)) as (e & Q1 & Q2). congruence.
    + clear ED. assert (D o = D o) by auto. revert H H1. 
      assert (K : forall ds a, (forall y, In y ds -> exists e, cells it y = Some e /\ is_end (state e) = true) ->
         (forall y n, In y a -> cells it y = Some n -> is_end (state n) = true) -> ds ++ x :: xs = a ++ y :: b -> y = x).
      { clear - Ex Esx Ey Esy. induction ds as [|d ds IH]; intros [|z a] H1 H2 Hl; cbn in Hl; inversion Hl; subst; auto.
        - exfalso. rewrite (H2 z nx ltac:(cbn; auto) Ex) in Esx. discriminate.
        - exfalso. destruct (H1 y ltac:(cbn; auto)) as (e & Q1 & Q2). congruence.
        - eapply IH; [| |eassumption]; intros; [apply H1|eapply H2]; cbn; eauto. }
      intros _ Q. apply (K ds a); auto. { intros; apply Hds; cbn; auto. } intros; eapply Ha; cbn; eauto.
  - exfalso. rewrite (H x nx) in Esx; [discriminate| |auto]. rewrite ED, in_app_iff. cbn. auto.
Qed.

Lemma first_unfinished_none : forall it D o n, WFD it D -> cells it o = Some n ->
  (forall y, In y (D o) -> exists e, cells it y = Some e /\ is_end (state e) = true) ->
  first_unfinished (S (fresh it)) it (deps n) = Ok (Some None).
Proof.
  intros it D o n W E H. pose proof (D_len it D W _ _ E) as Ln.
  destruct (first_unfinished_ok it (D o) _ _ _ (S (fresh it)) (W_seg it D W _ _ E) ltac:(lia)) as ([y|] & Er & Hr); auto.
  destruct Hr as (Hy & ny & _ & _ & Ey & Esy & _). destruct (H y Hy) as (e & Q1 & Q2). congruence.
Qed.

(** The current node is [c] or a finished queued task of [c]. *)
Definition at_or_below (it : iter) (c : nat) : Prop :=
  cur it = c \/ exists e, cells it (cur it) = Some e /\ is_end (state e) = true /\ parent e = Some c.

Lemma next_up : forall it c f, (exists n, cells it c = Some n) -> at_or_below it c ->
  exists g, (f <= g)%nat /\ next_loop (S (S (S f))) it = next_loop (S (S g)) (set_cur it c).
Proof.
  intros it c f (n & E) [<-|(e & Ee & Es & Ep)].
  - exists (S f). split; [lia|]. destruct it; reflexivity.
  - exists f. split; [lia|]. cbn [next_loop]. unfold load at 1. rewrite Ee. cbn [bind]. rewrite Es, Ep. reflexivity.
Qed.

Lemma next_to_child : forall it D c n ds x xs nx, WFD it D -> cells it c = Some n -> is_end (state n) = false ->
  at_or_below it c -> D c = ds ++ x :: xs ->
  (forall y, In y ds -> exists e, cells it y = Some e /\ is_end (state e) = true) ->
  cells it x = Some nx -> is_end (state nx) = false -> D x = [] ->
  next it = Ok (set_cur it x, NTask (p_in nx)).
Proof.
  intros it D c n ds x xs nx W E Es AB ED Hds Ex Esx Dx. unfold next.
  pose proof (W_live it D W _ _ E). replace (2 * fresh it + 2)%nat with (S (S (S (2 * fresh it - 1)))) by lia.
  destruct (next_up it c (2 * fresh it - 1) ltac:(eauto) AB) as (g & Hg & ->).
  pose proof (first_unfinished_at it D ds x xs c n nx W E ED Hds Ex Esx) as FU.
  cbn [next_loop]. unfold load at 1. cbn [cells set_cur cur]. rewrite E. cbn [bind]. rewrite Es.
  pose proof (D_deps it D W _ _ E) as Hd. rewrite ED in Hd.
  destruct (deps n) as [d|] eqn:Edn; [|destruct ds; discriminate].
  replace (first_unfinished (S (fresh (set_cur it c))) (set_cur it c) (Some d)) with (@Ok (option (option nat)) (Some (Some x))).
  2:{ rewrite <- FU. cbn [fresh set_cur]. generalize (S (fresh it)) (Some d). clear. induction n as [|f IH]; intros o; [reflexivity|].
      cbn [first_unfinished]. destruct o as [i|]; [|reflexivity]. unfold load. cbn [cells set_cur].
      destruct (cells it i) as [m|]; [|reflexivity]. cbn [bind]. destruct (is_end (state m)); [apply IH|reflexivity]. }
  cbn [bind]. unfold load at 1. cbn [cells set_cur cur]. rewrite Ex. cbn [bind]. rewrite Esx.
  rewrite (D_deps it D W _ _ Ex), Dx. reflexivity.
Qed.

Lemma next_to_self : forall it D c n, WFD it D -> cells it c = Some n -> is_end (state n) = false ->
  at_or_below it c -> (forall y, In y (D c) -> exists e, cells it y = Some e /\ is_end (state e) = true) ->
  next it = Ok (set_cur it c, NTask (p_in n)).
Proof.
  intros it D c n W E Es AB Hds. unfold next.
  pose proof (W_live it D W _ _ E). replace (2 * fresh it + 2)%nat with (S (S (S (2 * fresh it - 1)))) by lia.
  destruct (next_up it c (2 * fresh it - 1) ltac:(eauto) AB) as (g & Hg & ->).
  pose proof (first_unfinished_none it D c n W E Hds) as FU.
  cbn [next_loop]. unfold load at 1. cbn [cells set_cur cur]. rewrite E. cbn [bind]. rewrite Es.
  destruct (deps n) as [d|] eqn:Edn; [|reflexivity].
  replace (first_unfinished (S (fresh (set_cur it c))) (set_cur it c) (Some d)) with (@Ok (option (option nat)) (Some None)); [reflexivity|].
  rewrite <- FU. cbn [fresh set_cur]. generalize (S (fresh it)) (Some d). clear. induction n as [|f IH]; intros o; [reflexivity|].
  cbn [first_unfinished]. destruct o as [i|]; [|reflexivity]. unfold load. cbn [cells set_cur].
  destruct (cells it i) as [m|]; [|reflexivity]. cbn [bind]. destruct (is_end (state m)); [apply IH|reflexivity].
Qed.

(** * The driver *)
Section Driver.
Variable kids : Z -> list Z.
Variable f : Z -> list (Z * Z * bool) -> option Z.

(** [hrun p it es it']: starting at task [p] (just returned by [next]), the client handles tasks with
    events [es]; [it'] is the state after the last one. *)
Inductive hrun : Z -> iter -> list event -> iter -> Prop :=
| HR_one p it e it' : p <> 0 -> handle kids f it p = Ok (it', e) -> hrun p it [e] it'
| HR_cons p it e it1 it2 p2 es it' : p <> 0 -> handle kids f it p = Ok (it1, e) ->
    next it1 = Ok (it2, NTask p2) -> hrun p2 it2 es it' -> hrun p it (e :: es) it'.

Lemma hrun_app : forall p it es it1, hrun p it es it1 -> forall it2 p2 es2 it3,
  next it1 = Ok (it2, NTask p2) -> hrun p2 it2 es2 it3 -> hrun p it (es ++ es2) it3.
Proof.
  induction 1; intros; cbn [app]; eapply HR_cons; eauto.
Qed.

Lemma hrun_drive : forall p it es it', hrun p it es it' -> forall it0 s, next it0 = Ok (it, NTask p) ->
  drive kids f (length es + s) it0 =
    do x <- drive kids f s it'; match x with Some (i, es') => Ok (Some (i, es ++ es')) | None => Ok None end.
Proof.
  induction 1 as [p it e it' Hp Hh|p it e it1 it2 p2 es it' Hp Hh Hn Hr IH]; intros it0 s N; cbn [length Nat.add drive];
    rewrite N; cbn [bind]; replace (p =? 0) with false by lia; rewrite Hh; cbn [bind].
  - destruct (drive kids f s it') as [[[i es']|]| |]; reflexivity.
  - rewrite (IH _ s Hn). destruct (drive kids f s it') as [[[i es']|]| |]; reflexivity.
Qed.

Definition ready (it : iter) (D : nat -> list nat) (x : nat) (t : tree) : Prop :=
  exists nx, cells it x = Some nx /\ state nx = 0 /\ D x = [] /\ last_dep nx = None /\ p_in nx = root t.

(** The run of one subtree touches nothing but its own node and freed fresh cells. *)
Definition subtree_ok (t : tree) : Prop :=
  forall it D n, WF it -> WFD it D -> cells it (cur it) = Some n -> ready it D (cur it) t -> expands kids t ->
  exists it' D', hrun (root t) it (trace t) it' /\ WF it' /\ WFD it' D' /\ cur it' = cur it /\
    has_result it' D' (cur it) (eval f t) /\ (exists n', cells it' (cur it) = Some n' /\ parent n' = parent n) /\
    (fresh it <= fresh it')%nat /\
    (forall j, j <> cur it -> (j < fresh it)%nat -> cells it' j = cells it j /\ D' j = D j) /\
    (forall j, (fresh it <= j)%nat -> cells it' j = None).

(** Handling goes on from [it] after a handled task: the run of the remaining sub-tasks followed by [es1]. *)
Definition continues (it : iter) (es : list event) (it' : iter) : Prop :=
  exists it2 p2, next it = Ok (it2, NTask p2) /\ hrun p2 it2 es it'.

Lemma continues_trans : forall it es it1 es2 it2, continues it es it1 -> continues it1 es2 it2 -> continues it (es ++ es2) it2.
Proof.
  intros it es it1 es2 it2 (i & p & N & H) (i' & p' & N' & H'). exists i, p. split; auto. eapply hrun_app; eauto.
Qed.

(** The loop over the queued sub-tasks of [c]. *)
Lemma children_ok : forall ts, Forall subtree_ok ts -> Forall (expands kids) ts ->
  forall it D c n ds xs rs, WF it -> WFD it D -> cells it c = Some n -> is_end (state n) = false ->
  at_or_below it c -> D c = ds ++ xs ->
  Forall2 (has_result it D) ds rs -> Forall2 (ready it D) xs ts ->
  exists it' D',
    ((ts = [] /\ it' = it) \/ continues it (flat_map trace ts) it') /\
    WF it' /\ WFD it' D' /\ cells it' c = Some n /\ at_or_below it' c /\ D' c = ds ++ xs /\
    Forall2 (has_result it' D') (ds ++ xs) (rs ++ map (eval f) ts) /\
    (fresh it <= fresh it')%nat /\
    (forall j, ~ In j xs -> (j < fresh it)%nat -> cells it' j = cells it j /\ D' j = D j) /\
    (forall j, (fresh it <= j)%nat -> cells it' j = None).
Proof.
  induction ts as [|t ts IH]; intros FS FE it D c n ds xs rs Wf W E Es AB ED F1 F2.
  - inversion F2; subst. exists it, D. rewrite !app_nil_r in *. cbn [map]. rewrite ?app_nil_r.
    repeat (split; [solve [auto]|]). intros j Hj. destruct (cells it j) eqn:Q; auto. apply (W_live it D W) in Q. lia.
  - inversion F2 as [|x ? xs' ? (nx & Ex & Esx & Dx & Lx & Px) F2']; subst. inversion FS as [|? ? St FS']; subst.
    inversion FE as [|? ? Ext FE']; subst.
    assert (Esx' : is_end (state nx) = false) by (rewrite Esx; reflexivity).
    assert (Hds : forall y, In y ds -> exists e, cells it y = Some e /\ is_end (state e) = true).
    { clear - F1. induction F1 as [|y r l rs (e & Q1 & Q2 & _) F IH]; cbn; [tauto|]. intros z [<-|Hz]; eauto. }
    pose proof (next_to_child it D c n ds x xs' nx W E Es AB ED Hds Ex Esx' Dx) as N.
    assert (Inx : In x (D c)) by (rewrite ED, in_app_iff; cbn; auto).
    destruct (D_in it D W _ _ x E Inx) as (nx' & Ex' & Ppx & Hlx). assert (nx' = nx) by congruence. subst nx'.
    destruct (next_inv it Wf) as (it1 & r1 & N1 & Wf1 & _). rewrite N in N1. inversion N1; subst it1 r1. clear N1.
    assert (W1 : WFD (set_cur it x) D) by (eapply WFD_set_cur; eauto).
    destruct (St (set_cur it x) D nx Wf1 W1 Ex) as (it' & D' & R & Wf' & W' & Cu' & Res & (n' & En' & Pn') & Fr & Keep & New); auto.
    { exists nx. cbn. auto. }
    cbn [cur set_cur fresh cells] in *. rewrite Px in N.
    assert (Lc := W_live it D W _ _ E).
    pose proof (W_nodup it D W _ _ E) as ND. rewrite ED in ND.
    assert (NDs : ~ In x ds /\ ~ In x xs').
    { apply NoDup_remove_2 in ND. rewrite in_app_iff in ND. tauto. }
    destruct (Keep c ltac:(lia) Lc) as [Kc KDc].
    assert (Hin : forall j, In j (ds ++ xs') -> j <> x /\ (j < fresh it)%nat).
    { intros j Hj. split; [intros ->; rewrite in_app_iff in Hj; tauto|].
      destruct (D_in it D W _ _ j E) as (_ & _ & _ & Hl); [|lia]. rewrite ED. rewrite in_app_iff in *. cbn. tauto. }
    assert (F1' : Forall2 (has_result it' D') (ds ++ [x]) (rs ++ [eval f t])).
    { apply Forall2_app; [|constructor; [|constructor]].
      - assert (G : forall j, In j ds -> cells it' j = cells it j /\ D' j = D j).
        { intros j Hj. destruct (Hin j ltac:(rewrite in_app_iff; auto)). auto. }
        clear - F1 G. induction F1 as [|y r l rs (e & Q1 & Q2 & Q3 & Q4) F IH]; constructor.
        + destruct (G y ltac:(cbn; auto)) as [G1 G2]. exists e. rewrite G1, G2. auto.
        + apply IH. intros; apply G; cbn; auto.
      - exact Res. }
    assert (F2'' : Forall2 (ready it' D') xs' ts).
    { assert (G : forall j, In j xs' -> cells it' j = cells it j /\ D' j = D j).
      { intros j Hj. destruct (Hin j ltac:(rewrite in_app_iff; auto)). auto. }
      clear - F2' G. induction F2' as [|y r l rs (e & Q1 & Q2 & Q3 & Q4) F IH]; constructor.
      + destruct (G y ltac:(cbn; auto)) as [G1 G2]. exists e. rewrite G1, G2. auto.
      + apply IH. intros; apply G; cbn; auto. }
    assert (AB' : at_or_below it' c).
    { right. rewrite Cu'. destruct Res as (e & Q1 & Q2 & _). assert (e = n') by congruence. subst e.
      exists n'. split; auto. split; auto. congruence. }
    destruct (IH FS' FE' it' D' c n (ds ++ [x]) xs' (rs ++ [eval f t]) Wf' W' ltac:(congruence) Es AB'
               ltac:(rewrite KDc, ED, <- app_assoc; reflexivity) F1' F2'')
      as (it2 & D2 & B1 & B2 & B3 & B4 & B5 & B6 & B7 & B8 & B9 & B10).
    exists it2, D2. split.
    { right. cbn [flat_map]. assert (C1 : continues it (trace t) it') by (exists (set_cur it x), (root t); auto).
      destruct B1 as [(-> & ->)|B1]; [cbn; rewrite app_nil_r; exact C1|]. eapply continues_trans; eauto. }
    split; [exact B2|]. split; [exact B3|]. split; [exact B4|]. split; [exact B5|].
    split; [rewrite B6, <- app_assoc; reflexivity|].
    split. { rewrite <- !app_assoc in B7. exact B7. }
    split; [lia|]. split.
    + intros j Nj Hj. cbn in Nj. destruct (B9 j ltac:(tauto) ltac:(lia)) as [-> ->]. apply Keep; [intros ->; tauto|auto].
    + intros j Hj. destruct (Nat.le_gt_cases (fresh it') j); [auto|].
      destruct (B9 j) as [-> _]; [|auto|auto]. intros Q. destruct (Hin j ltac:(rewrite in_app_iff; auto)). lia.
Qed.

Lemma subtree_all : forall t, subtree_ok t.
Proof.
  induction t as [p ts FS] using tree_ind'. intros it D n Wf W E (n0 & E0 & Es0 & D0 & L0 & P0) Ex.
  assert (n0 = n) by congruence. subst n0. inversion Ex as [? ? Hp Hk FE]; subst. cbn [root] in *.
  set (c := cur it) in *.
  assert (Es : is_end (state n) = false) by (rewrite Es0; reflexivity).
  destruct (append_all_ok (kids p) it D n [] Wf W E Es D0 (fun _ => L0))
    as (it1 & D1 & n1 & A1 & A2 & A3 & A4 & A5 & A6 & A7 & A8 & A9 & _ & A11 & A12).
  fold c in A4, A6, A8, A9, A11.
  assert (Es1 : is_end (state n1) = false) by (unfold pay in A7; congruence).
  destruct (set_state_ok it1 D1 1 n1 A2 A3 ltac:(rewrite A4; auto) Es1 ltac:(lia)) as (S1 & S2 & S3).
  set (it2 := set_cell it1 (cur it1) (Some (w_state 1 n1))) in *.
  assert (H1 : handle kids f it p = Ok (it2, Enter p)).
  { unfold handle, get_state, load. fold c. rewrite E. cbn [bind]. rewrite Es0. cbn [Z.eqb ST_start]. rewrite A1. cbn [bind].
    rewrite S1. reflexivity. }
  assert (C2 : forall j, cells it2 j = if Nat.eqb j c then Some (w_state 1 n1) else cells it1 j).
  { intros j. unfold it2. cbn [set_cell cells]. rewrite A4. reflexivity. }
  assert (Lc := W_live it D W _ _ E). fold c in Lc.
  cbn [app] in A8. rewrite Hk, map_length in A8.
  assert (RD : Forall2 (ready it2 D1) (seq (fresh it) (length ts)) ts).
  { assert (G : forall k t, nth_error ts k = Some t -> ready it2 D1 (fresh it + k)%nat t).
    { intros k t Ht. destruct (A11 k (root t)) as (m & M1 & M2 & M3 & M4); [rewrite Hk; apply map_nth_error; auto|].
      exists m. rewrite C2. replace (Nat.eqb (fresh it + k) c) with false by lia. unfold pay in M2. inversion M2. auto. }
    clear - G. revert G. generalize (fresh it). induction ts as [|t ts IH]; intros b G; cbn; constructor.
    - specialize (G 0%nat t eq_refl). rewrite Nat.add_0_r in G. exact G.
    - apply IH. intros k u Hu. replace (S b + k)%nat with (b + S k)%nat by lia. apply G. exact Hu. }
  destruct (children_ok ts FS FE it2 D1 c (w_state 1 n1) [] (seq (fresh it) (length ts)) [] S3 S2)
    as (it3 & D3 & B1 & B2 & B3 & B4 & B5 & B6 & B7 & B8 & B9 & B10); auto.
  { rewrite C2, Nat.eqb_refl. reflexivity. }
  { left. exact A4. }
  cbn [app] in B6, B7.
  assert (F2 : fresh it2 = (fresh it + length ts)%nat) by (unfold it2; cbn; rewrite A5, Hk, map_length; reflexivity).
  rewrite F2 in *.
  assert (Hfin : forall y, In y (D3 c) -> exists e, cells it3 y = Some e /\ is_end (state e) = true).
  { rewrite B6. clear - B7. intros y Hy. remember (map (eval f) ts) as rs. clear Heqrs.
    induction B7 as [|z r l rs (e & Q1 & Q2 & _) F IH]; [destruct Hy|]. destruct Hy as [<-|Hy]; eauto. }
  pose proof (next_to_self it3 D3 c _ B3 B4 ltac:(reflexivity) B5 Hfin) as N3.
  assert (P1 : p_in n1 = p) by (unfold pay in A7; congruence). cbn [p_in w_state] in N3. rewrite P1 in N3.
  destruct (next_inv it3 B2) as (i & r & N3' & Wf3 & _). rewrite N3 in N3'. inversion N3'; subst i r. clear N3'.
  assert (W3 : WFD (set_cur it3 c) D3) by (eapply WFD_set_cur; eauto).
  assert (B7' : Forall2 (has_result (set_cur it3 c) D3) (seq (fresh it) (length ts)) (map (eval f) ts)).
  { clear - B7. induction B7; constructor; auto. }
  destruct (collect_ok (seq (fresh it) (length ts)) (map (eval f) ts) (S (fresh it3)) (set_cur it3 c) D3 (w_state 1 n1) Wf3 W3)
    as (it4 & D4 & n4 & K1 & K2 & K3 & K4 & K5 & K6 & K7 & K8 & K9 & K10 & K11); auto.
  { rewrite seq_length. lia. }
  cbn [cur set_cur fresh cells] in *.
  unfold pay in K7. cbn [parent state p_in p_out w_state] in K7. inversion K7 as [[K71 K72 K73 K74]].
  unfold pay in A7. inversion A7 as [[A71 A72 A73 A74]].
  assert (Es4 : is_end (state n4) = false) by (rewrite K72; reflexivity).
  (* the final step *)
  assert (FIN : exists it5 nn, handle kids f (set_cur it3 c) p = Ok (it5, Leave p) /\ WF it5 /\ WFD it5 D4 /\ cur it5 = c /\
     fresh it5 = fresh it4 /\ (forall j, cells it5 j = if Nat.eqb j c then Some nn else cells it4 j) /\
     parent nn = parent n /\ is_end (state nn) = true /\ (p_out nn, p_in nn, state nn =? -3) = eval f (T p ts)).
  { unfold handle, get_state, load. cbn [cells set_cur cur]. rewrite B4. cbn [bind state w_state]. change (1 =? ST_start) with false. cbv iota.
    cbn [fresh set_cur]. rewrite K1. cbn [bind eval]. destruct (f p (map (eval f) ts)) as [o|].
    - destruct (done_ok it4 D4 o n4 K2 K3 ltac:(rewrite K4; auto) Es4) as (it5 & Q1 & Q2 & Q3 & Q4 & Q5 & Q6).
      rewrite Q1. cbn [bind]. rewrite K4 in *. exists it5, (w_state (-2) (w_out o n4)).
      split; [reflexivity|]. split; [auto|]. split; [auto|]. split; [auto|]. split; [auto|]. split; [auto|].
      cbn. split; [congruence|]. split; [reflexivity|]. congruence.
    - destruct (set_state_ok it4 D4 (-3) n4 K2 K3 ltac:(rewrite K4; auto) Es4 ltac:(lia)) as (Q1 & Q2 & Q3).
      unfold fail. change ST_failed with (-3). rewrite Q1. cbn [bind]. rewrite K4 in *.
      eexists _, (w_state (-3) n4). split; [reflexivity|]. split; [exact Q3|]. split; [exact Q2|]. split; [exact K4|].
      split; [reflexivity|]. split; [reflexivity|].
      cbn. split; [congruence|]. split; [reflexivity|].
      rewrite K74, A74, K73, A73. rewrite (W_out it D W _ _ E ltac:(lia)). rewrite P0. reflexivity. }
  destruct FIN as (it5 & nn & H5 & Wf5 & W5 & Cu5 & Fr5 & C5 & Pn5 & Es5 & R5).
  exists it5, D4. split.
  { cbn [trace]. assert (R1 : continues it3 [Leave p] it5).
    { exists (set_cur it3 c), p. split; auto. apply HR_one; auto. }
    assert (R2 : continues it2 (flat_map trace ts ++ [Leave p]) it5).
    { destruct B1 as [(-> & <-)|B1]; [exact R1|]. eapply continues_trans; eauto. }
    destruct R2 as (i & q & R3 & R4). eapply HR_cons; eauto. }
  split; [exact Wf5|]. split; [exact W5|]. split; [exact Cu5|].
  split. { exists nn. rewrite C5, Nat.eqb_refl. split; [auto|]. split; [auto|]. split; auto. }
  split. { exists nn. rewrite C5. rewrite Nat.eqb_refl. split. reflexivity. congruence. }
  split; [lia|]. split.
  - intros j Nj Hj. assert (Nq : ~ In j (seq (fresh it) (length ts))) by (rewrite in_seq; lia).
    split.
    + rewrite C5. replace (Nat.eqb j c) with false by lia. rewrite K10 by auto. destruct (B9 j Nq ltac:(lia)) as [-> _].
      rewrite C2. replace (Nat.eqb j c) with false by lia. apply A9; auto.
    + rewrite K9 by auto. destruct (B9 j Nq ltac:(lia)) as [_ ->]. apply A9; auto.
  - intros j Hj. rewrite C5. replace (Nat.eqb j c) with false by lia.
    destruct (in_dec Nat.eq_dec j (seq (fresh it) (length ts))) as [Hi|Hi]; [auto|].
    rewrite K10; auto; [|lia]. rewrite in_seq in Hi. apply B10. lia.
Qed.
End Driver.

Lemma trace_length : forall t, length (trace t) = (2 * tsize t)%nat.
Proof.
  induction t as [p ts F] using tree_ind'. change (tsize (T p ts)) with (S (list_sum (map tsize ts))). cbn [trace length]. rewrite app_length. cbn [length].
  assert (length (flat_map trace ts) = (2 * list_sum (map tsize ts))%nat); [|lia].
  induction F as [|t r Ht F IH]; cbn [flat_map map length]; [reflexivity|]. rewrite app_length, Ht, IH.
  change (list_sum (tsize t :: map tsize r)) with (tsize t + list_sum (map tsize r))%nat. lia.
Qed.

(** C06 *)
Lemma drive_spec : forall kids f t, expands kids t -> forall s, (2 * tsize t < s)%nat ->
  exists it', drive kids f s (new_iterator (root t)) = Ok (Some (it', trace t)) /\
    get_out it' = Ok (eval f t) /\
    exists it'', iterator_free it' = Ok it'' /\ forall j, cells it'' j = None.
Proof.
  intros kids f t Ex s Hs. pose proof (new_WF (root t)) as Wf. pose proof Wf as [(D & W) A].
  set (it := new_iterator (root t)) in *.
  assert (E : cells it (cur it) = Some (new_node None (root t))) by reflexivity.
  assert (D0 : D 0%nat = []) by (eapply (W_first it D W 0%nat); [exact E|reflexivity]).
  destruct (subtree_all kids f t it D _ Wf W E) as (it' & D' & R & Wf' & W' & Cu & (e & Ee & Ese & De & Re) & _ & Fr & Keep & New); auto.
  { exists (new_node None (root t)). cbn. auto. }
  cbn [cur it new_iterator fresh] in *.
  assert (N0 : next it = Ok (it, NTask (root t))) by reflexivity.
  replace s with (length (trace t) + S (s - length (trace t) - 1))%nat by (rewrite trace_length; lia).
  rewrite (hrun_drive kids f _ _ _ _ R it _ N0). cbn [drive].
  assert (N1 : next it' = Ok (it', NEnd)).
  { unfold next. replace (2 * fresh it' + 2)%nat with (S (2 * fresh it' + 1)) by lia. cbn [next_loop].
    rewrite Cu. unfold load. rewrite Ee. cbn [bind]. rewrite Ese.
    replace (parent e) with (@None nat); [reflexivity|]. symmetry. apply (W_par0 it' D' W' _ _ Ee). reflexivity. }
  rewrite N1. cbn [bind]. rewrite app_nil_r. exists it'. split; [reflexivity|]. split.
  - unfold get_out. rewrite Cu. rewrite (entry_get_out_safe it' D' 0 e W' Ee), Ese. congruence.
  - unfold iterator_free, entry_free, load. rewrite Ee. cbn [bind]. rewrite (D_deps it' D' W' _ _ Ee), De. cbn.
    eexists. split; [reflexivity|]. intros j. cbn. destruct (Nat.eqb j 0) eqn:Q; [reflexivity|].
    apply New. lia.
Qed.

(** * C08 *)
Lemma fail_spec : forall it it' b n, reachable it -> cells it (cur it) = Some n -> fail it = Ok (it', b) ->
  b = true /\ get_out it' = Ok (0, p_in n, true) /\ cur it' = cur it.
Proof.
  intros it it' b n R E H. apply reachable_WF in R. pose proof R as Wf. destruct R as [(D & W) A].
  destruct (is_end (state n)) eqn:Es.
  { unfold fail, set_state, load in H. rewrite E in H. cbn in H. rewrite Es in H. discriminate. }
  destruct (set_state_ok it D (-3) n Wf W E Es ltac:(lia)) as (Q1 & Q2 & Q3).
  unfold fail in H. change ST_failed with (-3) in H. rewrite Q1 in H. inversion H; subst it' b. split; auto. split; auto.
  unfold get_out. cbn [cur set_cell].
  rewrite (entry_get_out_safe _ D (cur it) (w_state (-3) n) Q2) by (cbn [set_cell cells]; rewrite Nat.eqb_refl; auto).
  cbn. rewrite (W_out it D W _ _ E); [reflexivity|]. apply is_end_false in Es. tauto.
Qed.

Lemma done_spec : forall it it' b o n, reachable it -> cells it (cur it) = Some n -> done it o = Ok (it', b) ->
  b = true /\ get_out it' = Ok (o, p_in n, false) /\ cur it' = cur it.
Proof.
  intros it it' b o n R E H. apply reachable_WF in R. pose proof R as Wf. destruct R as [(D & W) A].
  destruct (is_end (state n)) eqn:Es.
  { unfold done, load in H. rewrite E in H. cbn in H. rewrite Es in H. discriminate. }
  destruct (done_ok it D o n Wf W E Es) as (it2 & Q1 & Q2 & Q3 & Q4 & Q5 & Q6).
  rewrite Q1 in H. inversion H; subst it2 b. split; auto. split; auto.
  unfold get_out. rewrite Q5.
  rewrite (entry_get_out_safe _ D (cur it) (w_state (-2) (w_out o n)) Q2) by (rewrite Q6, Nat.eqb_refl; auto).
  reflexivity.
Qed.

Definition same_result (n' n : node) : Prop := state n' = state n /\ p_out n' = p_out n /\ p_in n' = p_in n.

Lemma do_call_finished : forall it c it' o i n, WF it -> do_call it c = Ok (it', o) ->
  cells it i = Some n -> is_end (state n) = true ->
  (exists n', cells it' i = Some n' /\ same_result n' n) \/
  (cells it' i = None /\ o = ODeq (Some (p_out n, p_in n, state n =? -3))).
Proof.
  intros it c it' o i n Wf H E Es. pose proof Wf as [(D & W) A]. destruct (W_cur it D W) as (m & Em).
  assert (Same : same_result n n) by (repeat split).
  assert (SC : forall s it2 b, set_state it s = Ok (it2, b) -> exists n', cells it2 i = Some n' /\ same_result n' n).
  { intros s it2 b Hs. unfold set_state in Hs. destruct (s =? ST_error); [inversion Hs; subst; eauto|].
    unfold load in Hs. rewrite Em in Hs. cbn [bind] in Hs. destruct (is_end (state m)) eqn:Esm; [discriminate|].
    cbn [negb assert bind] in Hs. rewrite (store_ok _ _ _ _ Em) in Hs. inversion Hs; subst. cbn [set_cell cells].
    destruct (Nat.eqb i (cur it)) eqn:Q; [|eauto]. assert (i = cur it) by lia. subst i. congruence. }
  destruct c as [|s| |out|inp a| |c|k| | | |l]; cbn [do_call] in H.
  - destruct (next_ok it D W A) as (j & r & nj & Hn & _). rewrite Hn in H. inversion H; subst. left. cbn. eauto.
  - destruct (set_state it s) as [[it2 b]| |] eqn:Hs; inversion H; subst. left. eapply SC; eauto.
  - destruct (fail it) as [[it2 b]| |] eqn:Hs; inversion H; subst. left. eapply SC; eauto.
  - destruct (done it out) as [[it2 b]| |] eqn:Hs; inversion H; subst. left.
    destruct (is_end (state m)) eqn:Esm.
    { unfold done, load in Hs. rewrite Em in Hs. cbn in Hs. rewrite Esm in Hs. discriminate. }
    destruct (done_ok it D out m Wf W Em Esm) as (it2 & Q1 & Q2 & Q3 & Q4 & Q5 & Q6).
    rewrite Q1 in Hs. inversion Hs; subst it2 b. rewrite Q6. destruct (Nat.eqb i (cur it)) eqn:Q; [|eauto].
    assert (i = cur it) by lia. subst i. congruence.
  - destruct (append_dep it inp a) as [[it2 rc]| |] eqn:Hs; inversion H; subst. left.
    destruct (is_end (state m)) eqn:Esm.
    { unfold append_dep, load in Hs. rewrite Em in Hs. cbn [bind] in Hs. rewrite Esm in Hs. discriminate. }
    destruct a.
    + assert (HD : D (cur it) = [] -> last_dep m = None).
      { intros ED. destruct (last_dep m) as [x|] eqn:El; auto. exfalso. unfold append_dep, load in Hs. rewrite Em in Hs. cbn [bind] in Hs.
        rewrite Esm in Hs. cbn [negb assert bind] in Hs.
        rewrite (D_deps it D W _ _ Em), ED in Hs. cbn [hd_error] in Hs. rewrite El in Hs. discriminate. }
      destruct (append_ok it D m inp Wf W Em Esm HD) as (it2 & H1 & H2 & H3 & H4 & H5 & H6).
      rewrite H1 in Hs. inversion Hs; subst it2 rc. rewrite H4. unfold appended_cell.
      pose proof (W_live it D W _ _ E). replace (Nat.eqb i (fresh it)) with false by lia.
      destruct (Nat.eqb i (cur it)) eqn:Q; [assert (i = cur it) by lia; subst i; congruence|].
      destruct (D (cur it)) as [|d0 l0]; [eauto|]. destruct (Nat.eqb i (last (d0 :: l0) 0%nat)); [|eauto]. rewrite E. eexists. split; [reflexivity|]. repeat split.
    + unfold append_dep, load in Hs. rewrite Em in Hs. cbn [bind] in Hs. rewrite Esm in Hs. cbn in Hs. inversion Hs; subst. eauto.
  - destruct (dequeue it) as [[it2 r]| |] eqn:Hs; inversion H; subst.
    destruct (D (cur it)) as [|x l'] eqn:ED.
    { unfold dequeue, load in Hs. rewrite Em in Hs. cbn [bind] in Hs. rewrite (D_deps it D W _ _ Em), ED in Hs. inversion Hs; subst. eauto. }
    destruct (D_in it D W _ _ x Em ltac:(rewrite ED; cbn; auto)) as (e & Ee & _ & Hx).
    pose proof (dequeue_raw it D m x l' e W Em ED Ee) as HR. rewrite Hs in HR.
    destruct (is_end (state e)) eqn:Ese; [|discriminate]. destruct (D x) eqn:Dx; [|discriminate]. clear HR.
    destruct (dequeue_ok it D m x l' e Wf W Em ED Ee Ese Dx) as (it2 & H1 & H2 & H3 & H4 & H5 & H6).
    rewrite H1 in Hs. inversion Hs; subst it2 r. rewrite H4. unfold dequeued_cell.
    destruct (Nat.eqb i x) eqn:Qx.
    { right. assert (i = x) by lia. subst i. assert (e = n) by congruence. subst e. auto. }
    left. destruct (Nat.eqb i (cur it)) eqn:Q.
    { assert (i = cur it) by lia. subst i. assert (m = n) by congruence. subst. eexists. split; [reflexivity|]. repeat split. }
    destruct (le_next e) as [y|]; [|eauto]. destruct (Nat.eqb i y); [|eauto]. rewrite E. eexists. split; [reflexivity|]. repeat split.
  - destruct (set_context it c) as [it2| |] eqn:Hs; inversion H; subst. left. unfold set_context in Hs.
    rewrite (store_ok _ _ _ _ Em) in Hs. inversion Hs; subst. cbn [set_cell cells].
    destruct (Nat.eqb i (cur it)) eqn:Q; [|eauto]. assert (i = cur it) by lia. subst i. assert (m = n) by congruence. subst.
    eexists. split; [reflexivity|]. repeat split.
  - destruct (get_dep_out it k); inversion H; subst; eauto.
  - destruct (get_out it); inversion H; subst; eauto.
  - destruct (dep_queue_size it); inversion H; subst; eauto.
  - destruct (level it); inversion H; subst; eauto.
  - destruct (get_in it l); inversion H; subst; eauto.
Qed.

Lemma cells_never_reused : forall it c it' o i, WF it -> do_call it c = Ok (it', o) -> (i < fresh it)%nat ->
  cells it i = None -> cells it' i = None /\ (i < fresh it')%nat.
Proof.
  intros it c it' o i Wf H Hi E. pose proof Wf as [(D & W) A]. destruct (W_cur it D W) as (m & Em).
  assert (Nc : i <> cur it) by congruence.
  assert (SC : forall s it2 b, set_state it s = Ok (it2, b) -> cells it2 i = None /\ (i < fresh it2)%nat).
  { intros s it2 b Hs. unfold set_state in Hs. destruct (s =? ST_error); [inversion Hs; subst; eauto|].
    unfold load in Hs. rewrite Em in Hs. cbn [bind] in Hs. destruct (is_end (state m)) eqn:Esm; [discriminate|].
    cbn [negb assert bind] in Hs. rewrite (store_ok _ _ _ _ Em) in Hs. inversion Hs; subst. cbn [set_cell cells fresh].
    replace (Nat.eqb i (cur it)) with false by lia. auto. }
  destruct c as [|s| |out|inp a| |c|k| | | |l]; cbn [do_call] in H.
  - destruct (next_ok it D W A) as (j & r & nj & Hn & _). rewrite Hn in H. inversion H; subst. cbn. eauto.
  - destruct (set_state it s) as [[it2 b]| |] eqn:Hs; inversion H; subst. eapply SC; eauto.
  - destruct (fail it) as [[it2 b]| |] eqn:Hs; inversion H; subst. eapply SC; eauto.
  - destruct (done it out) as [[it2 b]| |] eqn:Hs; inversion H; subst.
    destruct (is_end (state m)) eqn:Esm.
    { unfold done, load in Hs. rewrite Em in Hs. cbn in Hs. rewrite Esm in Hs. discriminate. }
    destruct (done_ok it D out m Wf W Em Esm) as (it2 & Q1 & Q2 & Q3 & Q4 & Q5 & Q6).
    rewrite Q1 in Hs. inversion Hs; subst it2 b. rewrite Q6, Q4. replace (Nat.eqb i (cur it)) with false by lia. auto.
  - destruct (append_dep it inp a) as [[it2 rc]| |] eqn:Hs; inversion H; subst.
    destruct (is_end (state m)) eqn:Esm.
    { unfold append_dep, load in Hs. rewrite Em in Hs. cbn [bind] in Hs. rewrite Esm in Hs. discriminate. }
    destruct a.
    + assert (HD : D (cur it) = [] -> last_dep m = None).
      { intros ED. destruct (last_dep m) as [x|] eqn:El; auto. exfalso. unfold append_dep, load in Hs. rewrite Em in Hs. cbn [bind] in Hs.
        rewrite Esm in Hs. cbn [negb assert bind] in Hs.
        rewrite (D_deps it D W _ _ Em), ED in Hs. cbn [hd_error] in Hs. rewrite El in Hs. discriminate. }
      destruct (append_ok it D m inp Wf W Em Esm HD) as (it2 & H1 & H2 & H3 & H4 & H5 & H6).
      rewrite H1 in Hs. inversion Hs; subst it2 rc. rewrite H4. unfold appended_cell.
      replace (Nat.eqb i (fresh it)) with false by lia. replace (Nat.eqb i (cur it)) with false by lia.
      split; [|lia]. destruct (D (cur it)) as [|d0 l0]; [eauto|]. destruct (Nat.eqb i (last (d0 :: l0) 0%nat)); [|eauto]. rewrite E. reflexivity.
    + unfold append_dep, load in Hs. rewrite Em in Hs. cbn [bind] in Hs. rewrite Esm in Hs. cbn in Hs. inversion Hs; subst. eauto.
  - destruct (dequeue it) as [[it2 r]| |] eqn:Hs; inversion H; subst.
    destruct (D (cur it)) as [|x l'] eqn:ED.
    { unfold dequeue, load in Hs. rewrite Em in Hs. cbn [bind] in Hs. rewrite (D_deps it D W _ _ Em), ED in Hs. inversion Hs; subst. eauto. }
    destruct (D_in it D W _ _ x Em ltac:(rewrite ED; cbn; auto)) as (e & Ee & _ & Hx).
    pose proof (dequeue_raw it D m x l' e W Em ED Ee) as HR. rewrite Hs in HR.
    destruct (is_end (state e)) eqn:Ese; [|discriminate]. destruct (D x) eqn:Dx; [|discriminate]. clear HR.
    destruct (dequeue_ok it D m x l' e Wf W Em ED Ee Ese Dx) as (it2 & H1 & H2 & H3 & H4 & H5 & H6).
    rewrite H1 in Hs. inversion Hs; subst it2 r. rewrite H4. unfold dequeued_cell. split; [|lia].
    destruct (Nat.eqb i x); [reflexivity|]. replace (Nat.eqb i (cur it)) with false by lia.
    destruct (le_next e) as [y|]; [|eauto]. destruct (Nat.eqb i y); [|eauto]. rewrite E. reflexivity.
  - destruct (set_context it c) as [it2| |] eqn:Hs; inversion H; subst. unfold set_context in Hs.
    rewrite (store_ok _ _ _ _ Em) in Hs. inversion Hs; subst. cbn [set_cell cells fresh].
    replace (Nat.eqb i (cur it)) with false by lia. auto.
  - destruct (get_dep_out it k); inversion H; subst; eauto.
  - destruct (get_out it); inversion H; subst; eauto.
  - destruct (dep_queue_size it); inversion H; subst; eauto.
  - destruct (level it); inversion H; subst; eauto.
  - destruct (get_in it l); inversion H; subst; eauto.
Qed.

Lemma finished_stable : forall it calls it' os i n, reachable it -> cells it i = Some n ->
  (state n = -2 \/ state n = -3) -> run_calls it calls = Ok (it', os) ->
  (exists n', cells it' i = Some n' /\ state n' = state n /\ p_out n' = p_out n /\ p_in n' = p_in n) \/
  (cells it' i = None /\ In (ODeq (Some (p_out n, p_in n, state n =? -3))) os).
Proof.
  intros it calls it' os i n R E Es. apply reachable_WF in R. apply is_end_spec in Es. revert it n os R E Es.
  induction calls as [|c calls IH]; intros it n os Wf E Es H; cbn [run_calls] in H.
  - inversion H; subst. left. exists n. auto.
  - destruct (do_call it c) as [[it1 o]| |] eqn:Hc; try discriminate. cbn [bind] in H.
    destruct (run_calls it1 calls) as [[it2 os2]| |] eqn:Hr; try discriminate. cbn [bind] in H. inversion H; subst.
    pose proof (proj2 (do_call_safe it c Wf) _ _ Hc) as Wf1.
    destruct (do_call_finished it c it1 o i n Wf Hc E Es) as [(n' & E' & S1 & S2 & S3)|(E' & ->)].
    + destruct (IH it1 n' os2 Wf1 E' ltac:(congruence) Hr) as [(n2 & Q1 & Q2 & Q3 & Q4)|(Q1 & Q2)].
      * left. exists n2. repeat split; congruence.
      * right. split; auto. right. congruence.
    + right. split; [|left; reflexivity]. assert (Hi : (i < fresh it1)%nat).
      { pose proof Wf as [(D & W) _]. pose proof (W_live it D W _ _ E).
        assert (fresh it1 = fresh it); [|lia]. destruct c; cbn [do_call] in Hc; match type of Hc with bind ?m _ = _ => destruct m as [x0| |] eqn:Heqo; cbn [bind] in Hc; try discriminate Hc end;
          try (destruct x0 as [it0 r0]); try discriminate Hc.
        inversion Hc; subst it0 r0.
        destruct (W_cur it D W) as (m & Em). destruct (D (cur it)) as [|x l'] eqn:ED.
        { unfold dequeue, load in Heqo. rewrite Em in Heqo. cbn [bind] in Heqo. rewrite (D_deps it D W _ _ Em), ED in Heqo. inversion Heqo. }
        destruct (D_in it D W _ _ x Em ltac:(rewrite ED; cbn; auto)) as (e & Ee & _ & Hx).
        rewrite (dequeue_raw it D m x l' e W Em ED Ee) in Heqo.
        destruct (is_end (state e)); [|discriminate]. destruct (D x); [|discriminate]. inversion Heqo. reflexivity. }
      clear - Wf1 E' Hr Hi. revert it1 os2 Wf1 E' Hr Hi. induction calls as [|c calls IH]; intros it1 os2 Wf1 E' Hr Hi; cbn [run_calls] in Hr.
      * inversion Hr; subst; auto.
      * destruct (do_call it1 c) as [[it3 o]| |] eqn:Hc; try discriminate. cbn [bind] in Hr.
        destruct (run_calls it3 calls) as [[it4 os4]| |] eqn:Hr2; try discriminate. cbn [bind] in Hr. inversion Hr; subst.
        destruct (cells_never_reused it1 c it3 o i Wf1 Hc Hi E').
        exact (IH it3 os4 (proj2 (do_call_safe it1 c Wf1) _ _ Hc) H Hr2 H0).
Qed.

(** * C09 *)
Lemma append_again : forall it inp n l, reachable it -> cells it (cur it) = Some n ->
  state n <> -2 -> state n <> -3 -> queue (cells it) (cur it) l -> (l <> [] \/ last_dep n = None) ->
  exists it', append_dep it inp true = Ok (it', 0).
Proof.
  intros it inp n l R E S1 S2 Q H. apply reachable_WF in R. pose proof R as Wf. destruct R as [(D & W) A].
  pose proof (queue_D it D W _ _ Q) as ->.
  destruct (append_ok it D n inp Wf W E) as (it' & H1 & _); [apply is_end_false; auto|tauto|eauto].
Qed.

(** * C07: effect of every call on every queue *)
Definition queue_after (it : iter) (c : call) (i : nat) (l : list nat) : list nat :=
  if Nat.eqb i (cur it) then
    match c with
    | CAppend _ true => l ++ [fresh it]
    | CDequeue => tl l
    | _ => l
    end
  else l.

Lemma do_call_D : forall it D c it' o, WF it -> WFD it D -> do_call it c = Ok (it', o) ->
  exists D', WFD it' D' /\ forall i, (i < fresh it)%nat -> D' i = queue_after it c i (D i).
Proof.
  intros it D c it' o Wf W H. pose proof Wf as [_ A]. destruct (W_cur it D W) as (m & Em).
  assert (Q0 : forall c i, (match c with CAppend _ true => False | CDequeue => False | _ => True end) -> D i = queue_after it c i (D i)).
  { intros [|s| |out|inp []| |c0|k| | | |l] i HH; try destruct HH; unfold queue_after; destruct (Nat.eqb i (cur it)); reflexivity. }
  assert (SC : forall s it2 b, set_state it s = Ok (it2, b) -> WFD it2 D).
  { intros s it2 b Hs. destruct (Z.eq_dec s (-1)) as [->|Ns]; [inversion Hs; subst; auto|].
    destruct (is_end (state m)) eqn:Esm.
    - unfold set_state, load in Hs. rewrite Em in Hs. cbn [bind] in Hs. rewrite Esm in Hs. destruct (s =? ST_error) eqn:QQ; [unfold ST_error in QQ; lia|discriminate].
    - destruct (set_state_ok it D s m Wf W Em Esm Ns) as (Q1 & Q2 & Q3). rewrite Q1 in Hs. inversion Hs; subst; auto. }
  destruct c as [|s| |out|inp a| |c|k| | | |l]; cbn [do_call] in H.
  - destruct (next_ok it D W A) as (j & r & nj & Hn & Ej & _). rewrite Hn in H. inversion H; subst. exists D. split; [eapply WFD_set_cur; eauto|intros; apply (Q0 CNext); exact I].
  - destruct (set_state it s) as [[it2 b]| |] eqn:Hs; inversion H; subst. exists D. split; [eapply SC; eauto|intros; apply (Q0 CNext); exact I].
  - destruct (fail it) as [[it2 b]| |] eqn:Hs; inversion H; subst. exists D. split; [eapply SC; eauto|intros; apply (Q0 CNext); exact I].
  - destruct (done it out) as [[it2 b]| |] eqn:Hs; inversion H; subst.
    destruct (is_end (state m)) eqn:Esm.
    { unfold done, load in Hs. rewrite Em in Hs. cbn in Hs. rewrite Esm in Hs. discriminate. }
    destruct (done_ok it D out m Wf W Em Esm) as (it2 & Q1 & Q2 & Q3 & Q4 & Q5 & Q6).
    rewrite Q1 in Hs. inversion Hs; subst it2 b. exists D. split; [auto|intros; apply (Q0 CNext); exact I].
  - destruct (append_dep it inp a) as [[it2 rc]| |] eqn:Hs; inversion H; subst.
    destruct (is_end (state m)) eqn:Esm.
    { unfold append_dep, load in Hs. rewrite Em in Hs. cbn [bind] in Hs. rewrite Esm in Hs. discriminate. }
    destruct a.
    + assert (HD : D (cur it) = [] -> last_dep m = None).
      { intros ED. destruct (last_dep m) as [x|] eqn:El; auto. exfalso. unfold append_dep, load in Hs. rewrite Em in Hs. cbn [bind] in Hs.
        rewrite Esm in Hs. cbn [negb assert bind] in Hs.
        rewrite (D_deps it D W _ _ Em), ED in Hs. cbn [hd_error] in Hs. rewrite El in Hs. discriminate. }
      destruct (append_ok it D m inp Wf W Em Esm HD) as (it2 & H1 & H2 & H3 & H4 & H5 & H6).
      rewrite H1 in Hs. inversion Hs; subst it2 rc. eexists. split; [exact H5|]. intros i Hi. unfold appended_D, queue_after.
      destruct (Nat.eqb i (cur it)) eqn:Q; [assert (i = cur it) by lia; subst; reflexivity|].
      replace (Nat.eqb i (fresh it)) with false by lia. reflexivity.
    + unfold append_dep, load in Hs. rewrite Em in Hs. cbn [bind] in Hs. rewrite Esm in Hs. cbn in Hs. inversion Hs; subst.
      exists D. split; [auto|intros; apply (Q0 CNext); exact I].
  - destruct (dequeue it) as [[it2 r]| |] eqn:Hs; inversion H; subst.
    destruct (D (cur it)) as [|x l'] eqn:ED.
    { unfold dequeue, load in Hs. rewrite Em in Hs. cbn [bind] in Hs. rewrite (D_deps it D W _ _ Em), ED in Hs. inversion Hs; subst.
      exists D. split; auto. intros i _. unfold queue_after. destruct (Nat.eqb i (cur it')) eqn:Q; auto. assert (i = cur it') by lia. subst. rewrite ED. reflexivity. }
    destruct (D_in it D W _ _ x Em ltac:(rewrite ED; cbn; auto)) as (e & Ee & _ & Hx).
    pose proof (dequeue_raw it D m x l' e W Em ED Ee) as HR. rewrite Hs in HR.
    destruct (is_end (state e)) eqn:Ese; [|discriminate]. destruct (D x) eqn:Dx; [|discriminate]. clear HR.
    destruct (dequeue_ok it D m x l' e Wf W Em ED Ee Ese Dx) as (it2 & H1 & H2 & H3 & H4 & H5 & H6).
    rewrite H1 in Hs. inversion Hs; subst it2 r. eexists. split; [exact H5|]. intros i Hi. unfold dequeued_D, queue_after.
    destruct (Nat.eqb i (cur it)) eqn:Q; auto. assert (i = cur it) by lia. subst. rewrite ED. reflexivity.
  - destruct (set_context it c) as [it2| |] eqn:Hs; inversion H; subst. unfold set_context in Hs.
    rewrite (store_ok _ _ _ _ Em) in Hs. inversion Hs; subst. exists D. split; [|intros; apply (Q0 CNext); exact I].
    eapply WFD_private; [exact W|exact Em|repeat split|]. intros Q. exact (W_out it D W _ _ Em Q).
  - destruct (get_dep_out it k); inversion H; subst. exists D. split; [auto|intros; apply (Q0 CNext); exact I].
  - destruct (get_out it); inversion H; subst. exists D. split; [auto|intros; apply (Q0 CNext); exact I].
  - destruct (dep_queue_size it); inversion H; subst. exists D. split; [auto|intros; apply (Q0 CNext); exact I].
  - destruct (level it); inversion H; subst. exists D. split; [auto|intros; apply (Q0 CNext); exact I].
  - destruct (get_in it l); inversion H; subst. exists D. split; [auto|intros; apply (Q0 CNext); exact I].
Qed.

Lemma queues_spec : forall it c it' o i l n, reachable it -> do_call it c = Ok (it', o) ->
  queue (cells it) i l -> cells it' i = Some n ->
  queue (cells it') i (if Nat.eqb i (cur it) then
    match c with CAppend _ true => l ++ [fresh it] | CDequeue => tl l | _ => l end else l).
Proof.
  intros it c it' o i l n R H Q E. apply reachable_WF in R. pose proof R as [(D & W) A].
  destruct (do_call_D it D c it' o R W H) as (D' & W' & HD).
  pose proof (queue_D it D W _ _ Q) as ->. destruct Q as (n0 & E0 & _).
  pose proof (D_queue it' D' W' _ _ E) as Q'. rewrite HD in Q' by (eapply W_live; eauto). exact Q'.
Qed.

(** * Ancestors *)
Lemma lineage_ok : forall k it D i n, WFD it D -> cells it i = Some n -> (i < k)%nat ->
  exists l, lineage (cells it) l /\ hd_error l = Some i /\ (forall x, In x l -> exists m, cells it x = Some m) /\
    (length l <= S i)%nat /\
    (forall fuel lvl, (i < fuel)%nat -> level_loop fuel it i lvl = Ok (Some (lvl + Z.of_nat (length l) - 1))) /\
    (forall fuel lvl req, (i < fuel)%nat -> get_in_loop fuel it i lvl req =
        Ok (Some (if req <? lvl then 0 else match nth_error l (Z.to_nat (req - lvl)) with
                  | Some x => match cells it x with Some m => p_in m | None => 0 end
                  | None => 0 end))).
Proof.
  induction k as [|k IH]; intros it D i n W E L; [lia|].
  destruct (parent n) as [p|] eqn:Ep.
  - destruct (W_par it D W _ _ _ E Ep) as (Lp & Hin & np & Enp).
    destruct (IH it D p np W Enp ltac:(lia)) as (l & L1 & L2 & L3 & L4 & L5 & L6).
    exists (i :: l). destruct l as [|p' l]; [discriminate L2|]. inversion L2; subst p'.
    split; [|split; [reflexivity|split; [|split; [|split]]]].
    + cbn [lineage]. split; auto. exists (D p). split; auto. apply (D_queue it D W p np Enp).
    + intros x [<-|Hx]; eauto.
    + cbn [length] in *. lia.
    + intros [|fuel] lvl Lf; [lia|]. cbn [level_loop]. unfold load. rewrite E. cbn [bind]. rewrite Ep. rewrite L5 by lia.
      do 2 f_equal. cbn [length]. lia.
    + intros [|fuel] lvl req Lf; [lia|]. cbn [get_in_loop]. unfold load. rewrite E. cbn [bind].
      destruct (lvl =? req) eqn:Q.
      * replace (req <? lvl) with false by lia. replace (Z.to_nat (req - lvl)) with 0%nat by lia. cbn [nth_error]. rewrite E. reflexivity.
      * rewrite Ep, L6 by lia. destruct (req <? lvl) eqn:Q2.
        -- replace (req <? lvl + 1) with true by lia. reflexivity.
        -- replace (req <? lvl + 1) with false by lia. replace (Z.to_nat (req - lvl)) with (S (Z.to_nat (req - (lvl + 1)))) by lia. reflexivity.
  - assert (i = 0)%nat by (apply (W_par0 it D W i n E); auto). subst i. exists [0%nat].
    split; [reflexivity|]. split; [reflexivity|]. split; [intros x [<-|[]]; eauto|]. split; [cbn; lia|]. split.
    + intros [|fuel] lvl Lf; [lia|]. cbn [level_loop]. unfold load. rewrite E. cbn [bind]. rewrite Ep. do 2 f_equal. cbn. lia.
    + intros [|fuel] lvl req Lf; [lia|]. cbn [get_in_loop]. unfold load. rewrite E. cbn [bind].
      destruct (lvl =? req) eqn:Q.
      * replace (req <? lvl) with false by lia. replace (Z.to_nat (req - lvl)) with 0%nat by lia. cbn [nth_error]. rewrite E. reflexivity.
      * rewrite Ep. destruct (req <? lvl) eqn:Q2; [reflexivity|]. replace (Z.to_nat (req - lvl)) with (S (pred (Z.to_nat (req - lvl)))) by lia.
        cbn [nth_error]. destruct (pred _); reflexivity.
Qed.

Lemma ancestors_spec : forall it, reachable it -> exists l, lineage (cells it) l /\ hd_error l = Some (cur it) /\
  level it = Ok (Some (Z.of_nat (length l) - 1)) /\
  forall k, get_in it k = Ok (Some (if k <? 0 then 0 else match nth_error l (Z.to_nat k) with
     | Some x => match cells it x with Some m => p_in m | None => 0 end | None => 0 end)) /\
     forall x, nth_error l (Z.to_nat k) = Some x -> cells it x <> None.
Proof.
  intros it R. destruct (reachable_WF it R) as [(D & W) _]. destruct (W_cur it D W) as (n & E).
  destruct (lineage_ok (S (cur it)) it D (cur it) n W E ltac:(lia)) as (l & L1 & L2 & L3 & _ & L5 & L6).
  pose proof (W_live it D W _ _ E). exists l. split; auto. split; auto. split.
  - unfold level. rewrite L5 by lia. do 2 f_equal.
  - intros k. split.
    + unfold get_in. rewrite L6 by lia. rewrite Z.sub_0_r. reflexivity.
    + intros x Hx. apply nth_error_In in Hx. destruct (L3 x Hx) as (m & ->). discriminate.
Qed.

(** * State and context of the current task *)
Lemma set_state_spec : forall it s, reachable it -> unfinished (cells it) (cur it) ->
  (s = -1 -> set_state it s = Ok (it, false)) /\
  (s <> -1 -> exists it', set_state it s = Ok (it', true) /\ get_state it' = Ok s /\ cur it' = cur it /\
     get_context it' = get_context it /\ (forall i, i <> cur it -> cells it' i = cells it i)).
Proof.
  intros it s R (n & E & N1 & N2). unfold set_state, ST_error. split; intros H.
  - subst s. reflexivity.
  - replace (s =? -1) with false by lia. unfold load at 1. rewrite E. cbn [bind].
    replace (is_end (state n)) with false by (symmetry; apply is_end_false; auto). cbn [negb assert bind].
    rewrite (store_ok it (cur it) n _ E). cbn [bind]. eexists. split; [reflexivity|].
    unfold get_state, get_context, load. cbn [set_cell cells cur]. rewrite Nat.eqb_refl, E. cbn [bind w_state state p_context].
    repeat (split; [reflexivity|]). intros i Hi. destruct (Nat.eqb i (cur it)) eqn:Q; [apply Nat.eqb_eq in Q; congruence|reflexivity].
Qed.

Lemma set_context_spec : forall it c, reachable it -> exists it', set_context it c = Ok it' /\
  get_context it' = Ok c /\ get_state it' = get_state it /\ get_out it' = get_out it /\ cur it' = cur it /\
  (forall i, i <> cur it -> cells it' i = cells it i).
Proof.
  intros it c R. destruct (reachable_WF it R) as [(D & W) _]. destruct (W_cur it D W) as (n & E).
  unfold set_context. rewrite (store_ok it (cur it) n _ E). eexists. split; [reflexivity|].
  unfold get_context, get_state, get_out, entry_get_out, load. cbn [set_cell cells cur]. rewrite Nat.eqb_refl, E. cbn [bind w_context state p_context p_in p_out].
  repeat (split; [reflexivity|]). intros i Hi. destruct (Nat.eqb i (cur it)) eqn:Q; [apply Nat.eqb_eq in Q; congruence|reflexivity].
Qed.
