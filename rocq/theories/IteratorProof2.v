(** Proofs about the recursive iterator, continued: dequeue, safety of every client, the
    recursive driver. *)
From Coq Require Import ZArith List Bool Lia ZifyBool.
Import ListNotations.
From Verif Require Import IteratorModel IteratorSpec IteratorProof.
Open Scope Z_scope.

(** * Dequeue *)

Definition dequeued_cell (it : iter) (n e : node) (x j : nat) : option node :=
  if Nat.eqb j x then None
  else if Nat.eqb j (cur it) then Some (w_deps (le_next e) n)
  else match le_next e with
       | Some y => if Nat.eqb j y
                   then match cells it j with Some m => Some (w_prev (Some (LHead (cur it))) m) | None => None end
                   else cells it j
       | None => cells it j
       end.
Definition dequeued_D (it : iter) (D : nat -> list nat) (r : list nat) (i : nat) : list nat :=
  if Nat.eqb i (cur it) then r else D i.

Lemma dequeue_WFD : forall it it' D n x r e, WFD it D -> cells it (cur it) = Some n ->
  D (cur it) = x :: r -> cells it x = Some e -> D x = [] ->
  fresh it' = fresh it -> cur it' = cur it ->
  (forall j, cells it' j = dequeued_cell it n e x j) ->
  WFD it' (dequeued_D it D r).
Proof.
  intros it it' D n x r e W E ED Ee Dx F Cu C.
  destruct (D_in it D W _ _ x E ltac:(rewrite ED; cbn; auto)) as (e' & Ee' & Epe & Hx).
  assert (e' = e) by congruence. subst e'.
  pose proof (W_seg it D W _ _ E) as Sg. rewrite ED in Sg. cbn in Sg.
  destruct Sg as (Hdn & e' & Ee2 & _ & Pve & Sr). assert (e' = e) by congruence. subst e'. clear Ee2.
  pose proof (W_nodup it D W _ _ E) as ND. rewrite ED in ND. inversion ND as [|? ? Nx NDr]; subst.
  assert (Hne : le_next e = hd_error r) by (eapply seg_hd; eauto).
  (* what survives *)
  assert (K : forall j m, j <> x -> cells it j = Some m -> exists m', cells it' j = Some m' /\ parent m' = parent m /\
     state m' = state m /\ p_out m' = p_out m /\ le_next m' = le_next m /\ last_dep m' = last_dep m /\
     (j <> cur it -> deps m' = deps m) /\
     (~ In j r -> le_prev m' = le_prev m) /\ (le_next e = Some j -> j <> cur it -> le_prev m' = Some (LHead (cur it))) /\
     (le_next e <> Some j -> le_prev m' = le_prev m)).
  { intros j m Nj Hj. rewrite C. unfold dequeued_cell. replace (Nat.eqb j x) with false by lia.
    destruct (Nat.eqb j (cur it)) eqn:Ej.
    - assert (j = cur it) by lia. subst j. assert (m = n) by congruence. subst m.
      eexists. split; [reflexivity|]. cbn. repeat split; auto; congruence.
    - destruct (le_next e) as [y|] eqn:Ey.
      + destruct (Nat.eqb j y) eqn:Ejy.
        * rewrite Hj. eexists. split; [reflexivity|].
          assert (j = y) by lia. subst j. cbn [w_prev parent state p_out le_next last_dep deps le_prev].
          repeat split; auto; try congruence.
          intros Q. exfalso. apply Q. destruct r; cbn in Hne; [discriminate|]. inversion Hne. cbn. auto.
        * exists m. repeat split; auto. intros Q. inversion Q. lia.
      + exists m. repeat split; auto. discriminate. }
  assert (B : forall j m', cells it' j = Some m' -> j <> x /\ exists m, cells it j = Some m).
  { intros j m'. rewrite C. unfold dequeued_cell.
    destruct (Nat.eqb j x) eqn:Ejx; [discriminate|].
    destruct (Nat.eqb j (cur it)) eqn:Ej.
    { intros _. split; [lia|]. assert (Hj : j = cur it) by lia. rewrite Hj. eauto. }
    destruct (le_next e) as [y|]; [|intros; split; [lia|eauto]].
    destruct (Nat.eqb j y); [|intros; split; [lia|eauto]].
    destruct (cells it j) as [q|]; [|discriminate]. intros; split; [lia|eauto]. }
  assert (NC : cells it' (cur it) = Some (w_deps (le_next e) n)).
  { rewrite C. unfold dequeued_cell. replace (Nat.eqb (cur it) x) with false by lia. rewrite Nat.eqb_refl. reflexivity. }
  assert (DD : dequeued_D it D r (cur it) = r) by (unfold dequeued_D; rewrite Nat.eqb_refl; reflexivity).
  assert (DO : forall i, i <> cur it -> dequeued_D it D r i = D i).
  { intros i Q. unfold dequeued_D. replace (Nat.eqb i (cur it)) with false by lia. reflexivity. }
  constructor.
  - intros j m' H. rewrite F. destruct (B j m' H) as (_ & m & Hm). eapply W_live; eauto.
  - destruct (W_root it D W) as (m & Hm). destruct (K 0%nat m) as (m' & H' & _); auto; [lia|eauto].
  - rewrite Cu. eauto.
  - intros i m' H. destruct (Nat.eq_dec i (cur it)) as [->|Ni].
    + rewrite NC in H. inversion H; subst m'. cbn [w_deps deps]. rewrite DD.
      destruct r as [|y r'].
      { cbn in Hne. cbn. auto. }
      cbn in Sr. destruct Sr as (Ey & ny & Eny & Pny & Pvy & Sr).
      cbn [seg]. split; auto.
      destruct (D_in it D W _ _ y E ltac:(rewrite ED; cbn; auto)) as (_ & _ & _ & Hy).
      assert (y <> x) by (intros ->; apply Nx; cbn; auto).
      destruct (K y ny) as (m' & K1 & K2 & K3 & K4 & K5 & K6 & K7 & K8 & K9 & K10); auto.
      exists m'. split; auto. rewrite K2. split; auto. split; [apply K9; [exact Ey|lia]|].
      rewrite K5. eapply seg_ext; [exact Sr|]. intros z nz Hz Enz.
      assert (z <> x) by (intros ->; apply Nx; cbn; auto).
      destruct (K z nz) as (mz & Z1 & Z2 & Z3 & Z4 & Z5 & Z6 & Z7 & Z8 & Z9 & Z10); auto.
      exists mz. repeat split; auto. apply Z10. rewrite Ey. intros Q. inversion Q; subst z.
      inversion NDr; subst. tauto.
    + destruct (B i m' H) as (Nix & m & Hm). rewrite DO by auto.
      destruct (K i m Nix Hm) as (m1 & K1 & K2 & K3 & K4 & K5 & K6 & K7 & _).
      assert (m1 = m') by congruence. subst m1. rewrite (K7 Ni).
      eapply seg_ext; [eapply W_seg; eauto|]. intros z nz Hz Enz.
      assert (Pz : parent nz = Some i). { destruct (D_in it D W i m z Hm Hz) as (q & Q1 & Q2 & _). congruence. }
      assert (z <> x) by (intros ->; congruence).
      assert (~ In z r).
      { intros Q. destruct (D_in it D W (cur it) n z E ltac:(rewrite ED; cbn; auto)) as (q & Q1 & Q2 & _). congruence. }
      destruct (K z nz) as (mz & Z1 & Z2 & Z3 & Z4 & Z5 & Z6 & Z7 & Z8 & Z9); auto.
      exists mz. repeat split; auto.
  - intros i m' H Hn. destruct (Nat.eq_dec i (cur it)) as [->|Ni].
    + rewrite NC in H. inversion H; subst m'. rewrite DD in *. cbn [w_deps last_dep].
      rewrite (W_last it D W _ _ E) by congruence. rewrite ED. destruct r; [congruence|reflexivity].
    + destruct (B i m' H) as (Nix & m & Hm). rewrite DO in * by auto.
      destruct (K i m Nix Hm) as (m1 & K1 & K2 & K3 & K4 & K5 & K6 & K7 & _).
      assert (m1 = m') by congruence. subst m1. rewrite K6. eapply W_last; eauto.
  - intros i m' H. destruct (Nat.eq_dec i (cur it)) as [->|Ni].
    + rewrite DD; auto.
    + destruct (B i m' H) as (Nix & m & Hm). rewrite DO by auto. eapply W_nodup; eauto.
  - intros i m' H. destruct (B i m' H) as (Nix & m & Hm). destruct (K i m Nix Hm) as (m1 & K1 & K2 & _).
    assert (m1 = m') by congruence. subst m1. rewrite K2. eapply W_par0; eauto.
  - intros i m' p H Hp. destruct (B i m' H) as (Nix & m & Hm). destruct (K i m Nix Hm) as (m1 & K1 & K2 & _).
    assert (m1 = m') by congruence. subst m1. rewrite K2 in Hp.
    destruct (W_par it D W _ _ _ Hm Hp) as (Q1 & Q2 & np & Q3). split; auto.
    assert (p <> x). { intros ->. rewrite Dx in Q2. destruct Q2. }
    destruct (K p np) as (np' & K3 & _); auto. split; [|eauto].
    destruct (Nat.eq_dec p (cur it)) as [->|Np].
    + rewrite DD. rewrite ED in Q2. destruct Q2 as [Q2|Q2]; [congruence|auto].
    + rewrite DO; auto.
  - intros i m' H. destruct (B i m' H) as (Nix & m & Hm). destruct (K i m Nix Hm) as (m1 & K1 & K2 & K3 & K4 & _).
    assert (m1 = m') by congruence. subst m1. rewrite K3, K4. eapply W_out; eauto.
  - intros i m' H Hl. destruct (Nat.eq_dec i (cur it)) as [->|Ni].
    + rewrite NC in H. inversion H; subst m'. cbn [w_deps last_dep] in Hl.
      rewrite (W_last it D W _ _ E) in Hl by congruence. discriminate.
    + destruct (B i m' H) as (Nix & m & Hm). rewrite DO by auto.
      destruct (K i m Nix Hm) as (m1 & K1 & K2 & K3 & K4 & K5 & K6 & K7 & _).
      assert (m1 = m') by congruence. subst m1. rewrite K6 in Hl. eapply W_first; eauto.
Qed.

(** The raw effect of dequeuing. *)
Lemma dequeue_raw : forall it D n x r e, WFD it D -> cells it (cur it) = Some n ->
  D (cur it) = x :: r -> cells it x = Some e ->
  dequeue it =
   if is_end (state e) then
     match D x with
     | [] => Ok (Iter (cells (set_cell (match le_next e with
                                        | Some y => set_cell (match cells it y with Some m => set_cell it y (Some (w_prev (Some (LHead (cur it))) m)) | None => it end)
                                                     (cur it) (Some (w_deps (le_next e) n))
                                        | None => set_cell it (cur it) (Some (w_deps (le_next e) n))
                                        end) x None)) (fresh it) (cur it),
                 Some (p_out e, p_in e, state e =? -3))
     | _ => Abort
     end
   else Abort.
Proof.
  intros it D n x r e W E ED Ee.
  pose proof (W_seg it D W _ _ E) as Sg. rewrite ED in Sg. cbn in Sg.
  destruct Sg as (Hdn & e' & Ee2 & Ppe & Pve & Sr). assert (e' = e) by congruence. subst e'. clear Ee2.
  destruct (D_in it D W _ _ x E ltac:(rewrite ED; cbn; auto)) as (_ & _ & _ & Hx).
  pose proof (W_nodup it D W _ _ E) as ND. rewrite ED in ND. inversion ND as [|? ? Nx NDr]; subst.
  assert (Hne : le_next e = hd_error r) by (eapply seg_hd; eauto).
  pose proof (D_deps it D W _ _ Ee) as Hde.
  unfold dequeue. unfold load at 1. rewrite E. cbn [bind]. rewrite Hdn.
  unfold load at 1. rewrite Ee. cbn [bind]. unfold assert at 1.
  destruct (is_end (state e)) eqn:Es; [|reflexivity]. cbn [bind].
  unfold list_remove. unfold load at 1. rewrite Ee. cbn [bind].
  assert (G : forall it1, (forall j, j <> cur it -> cells it1 j = cells it j \/ le_next e = Some j) ->
     cells it1 (cur it) = Some n -> cells it1 x = Some e -> fresh it1 = fresh it -> cur it1 = cur it ->
     (do it0 <- store it1 (cur it) (w_deps (le_next e));
      do r0 <- entry_get_out it0 x; do it2 <- entry_free it0 x; Ok (it2, Some r0)) =
     match D x with
     | [] => Ok (Iter (cells (set_cell (set_cell it1 (cur it) (Some (w_deps (le_next e) n))) x None)) (fresh it) (cur it),
                Some (p_out e, p_in e, state e =? -3))
     | _ => Abort
     end).
  { intros it1 H1 H2 H3 H4 H5. rewrite (store_ok _ _ _ _ H2). cbn [bind].
    set (it0 := set_cell it1 (cur it) _).
    assert (X0 : cells it0 x = Some e) by (unfold it0; cbn [set_cell cells]; replace (Nat.eqb x (cur it)) with false by lia; auto).
    unfold entry_get_out. unfold load at 1. rewrite X0. cbn [bind]. rewrite Es. cbn [assert bind].
    assert (Ho : (if state e =? ST_failed then p_out e =? 0 else true) = true).
    { destruct (state e =? ST_failed) eqn:Q; auto. unfold ST_failed in Q.
      rewrite (W_out it D W _ _ Ee); [reflexivity|lia]. }
    rewrite Ho. cbn [assert bind]. unfold entry_free. unfold load. rewrite X0. cbn [bind].
    destruct (D x) as [|dx lx] eqn:EDx; cbn in Hde; rewrite Hde; cbn [assert bind]; [|reflexivity].
    do 2 f_equal. f_equal. unfold set_cell. cbn. rewrite H4, H5. reflexivity. }
  destruct (le_next e) as [y|] eqn:Ey.
  - destruct r as [|y' r']; [discriminate|]. cbn in Hne. inversion Hne; subst y'.
    cbn in Sr. destruct Sr as (_ & ny & Eny & Pny & Pvy & Sr).
    assert (y <> x) by (intros ->; apply Nx; cbn; auto).
    destruct (D_in it D W _ _ y E ltac:(rewrite ED; cbn; auto)) as (_ & _ & _ & Hy).
    rewrite (store_ok _ _ _ _ Eny). rewrite Pve. cbn [bind]. rewrite Eny.
    apply G; auto.
    + intros j Hj. cbn [set_cell cells]. destruct (Nat.eqb j y) eqn:Q; [|auto]. right. f_equal. lia.
    + cbn [set_cell cells]. replace (Nat.eqb (cur it) y) with false by lia. auto.
    + cbn [set_cell cells]. replace (Nat.eqb x y) with false by lia. auto.
  - rewrite Pve. cbn [bind]. apply G; auto.
Qed.

Lemma dequeue_ok : forall it D n x r e, WF it -> WFD it D -> cells it (cur it) = Some n ->
  D (cur it) = x :: r -> cells it x = Some e -> is_end (state e) = true -> D x = [] ->
  exists it', dequeue it = Ok (it', Some (p_out e, p_in e, state e =? -3)) /\
    fresh it' = fresh it /\ cur it' = cur it /\
    (forall j, cells it' j = dequeued_cell it n e x j) /\
    WFD it' (dequeued_D it D r) /\ WF it'.
Proof.
  intros it D n x r e Wf W E ED Ee Es Dx. rewrite (dequeue_raw it D n x r e W E ED Ee), Es, Dx.
  eexists. split; [reflexivity|].
  destruct (D_in it D W _ _ x E ltac:(rewrite ED; cbn; auto)) as (_ & _ & _ & Hx).
  match goal with |- fresh ?i = _ /\ _ => set (it' := i) end.
  assert (C : forall j, cells it' j = dequeued_cell it n e x j).
  { intros j. unfold it', dequeued_cell. cbn [cells set_cell].
    destruct (Nat.eqb j x); [reflexivity|].
    destruct (le_next e) as [y|]; cbn [set_cell cells].
    - destruct (Nat.eqb j (cur it)); [reflexivity|].
      destruct (cells it y) as [m|] eqn:Ey; cbn [set_cell cells].
      + destruct (Nat.eqb j y) eqn:Q; [|reflexivity]. assert (j = y) by lia. subst j. rewrite Ey. reflexivity.
      + destruct (Nat.eqb j y) eqn:Q; [|reflexivity]. assert (j = y) by lia. subst j. rewrite Ey. reflexivity.
    - destruct (Nat.eqb j (cur it)); reflexivity. }
  split; [reflexivity|]. split; [reflexivity|]. split; [exact C|].
  assert (W' : WFD it' (dequeued_D it D r)) by (eapply dequeue_WFD; eauto).
  split; [exact W'|]. split; [eauto|]. destruct Wf as [_ A]. change (cur it') with (cur it).
  eapply anc_open_ext; [exact A| | |].
  - rewrite C. unfold dequeued_cell. replace (Nat.eqb (cur it) x) with false by lia. rewrite Nat.eqb_refl.
    eexists. split; [reflexivity|]. intros n0 H. cbn. congruence.
  - intros j n0 Hj H. rewrite C. unfold dequeued_cell. replace (Nat.eqb j x) with false by lia.
    replace (Nat.eqb j (cur it)) with false by lia.
    destruct (le_next e) as [y|]; [|eauto]. destruct (Nat.eqb j y); [|eauto]. rewrite H.
    eexists. split; [reflexivity|]. split; reflexivity.
  - intros j n0 p0 H1 H2. exact (proj1 (W_par it D W _ _ _ H1 H2)).
Qed.

Lemma dequeue_cases : forall it, WF it -> dequeue it = Abort \/
  exists it' r, dequeue it = Ok (it', r) /\ WF it'.
Proof.
  intros it Wf. pose proof Wf as [(D & W) A]. destruct (W_cur it D W) as (n & E).
  destruct (D (cur it)) as [|x r] eqn:ED.
  - right. exists it, None. split; auto. unfold dequeue, load. rewrite E. cbn [bind].
    rewrite (D_deps it D W _ _ E), ED. reflexivity.
  - destruct (D_in it D W _ _ x E ltac:(rewrite ED; cbn; auto)) as (e & Ee & _).
    destruct (is_end (state e)) eqn:Es; [destruct (D x) eqn:Dx|].
    + right. destruct (dequeue_ok it D n x r e Wf W E ED Ee Es Dx) as (it' & H & _ & _ & _ & _ & H2). eauto.
    + left. rewrite (dequeue_raw it D n x r e W E ED Ee), Es, Dx. reflexivity.
    + left. rewrite (dequeue_raw it D n x r e W E ED Ee), Es. reflexivity.
Qed.

(** * Every client: no undefined behaviour, well-formedness is invariant *)

Lemma new_WF : forall p, WF (new_iterator p).
Proof.
  intros p. assert (C : forall i n, cells (new_iterator p) i = Some n -> i = 0%nat /\ n = new_node None p).
  { intros i n. cbn. destruct (Nat.eqb i 0) eqn:E; [|discriminate]. intros H. inversion H. split; [lia|auto]. }
  split.
  - exists (fun _ => []). constructor; cbn [fresh cur new_iterator].
    + intros i n H. apply C in H. lia.
    + cbn. eauto.
    + cbn. eauto.
    + intros i n H. apply C in H. destruct H; subst. reflexivity.
    + congruence.
    + constructor.
    + intros i n H. apply C in H. destruct H; subst. cbn. tauto.
    + intros i n q H Hp. apply C in H. destruct H; subst. discriminate.
    + intros i n H. apply C in H. destruct H; subst. reflexivity.
    + auto.
  - eapply AO_root; cbn; reflexivity.
Qed.

Lemma next_inv : forall it, WF it -> exists it' r, next it = Ok (it', r) /\ WF it' /\ r <> NoFuel.
Proof.
  intros it [(D & W) A]. destruct (next_ok it D W A) as (i & r & ni & E & Ei & A' & H).
  exists (set_cur it i), r. split; auto. split.
  - split; [exists D; eapply WFD_set_cur; eauto|]. exact A'.
  - destruct H as [(-> & _)|(-> & _)]; discriminate.
Qed.

Lemma done_cases : forall it o, WF it -> done it o = Abort \/ exists it' b, done it o = Ok (it', b) /\ WF it'.
Proof.
  intros it o Wf. pose proof Wf as [(D & W) A]. destruct (W_cur it D W) as (n & E).
  destruct (is_end (state n)) eqn:Es.
  - left. unfold done, load. rewrite E. cbn [bind]. rewrite Es. reflexivity.
  - right. destruct (done_ok it D o n Wf W E Es) as (it' & H & _ & H2 & _). eauto.
Qed.

Lemma set_state_cases : forall it s, WF it -> set_state it s = Abort \/ exists it' b, set_state it s = Ok (it', b) /\ WF it'.
Proof.
  intros it s Wf. pose proof (set_state_total it s Wf) as T. destruct (set_state it s) as [[it' b]| |] eqn:E; auto; [|congruence].
  right. exists it', b. split; auto. eapply set_state_inv; eauto.
Qed.

Lemma append_cases : forall it inp a, WF it -> append_dep it inp a = Abort \/
  exists it' rc, append_dep it inp a = Ok (it', rc) /\ WF it'.
Proof.
  intros it inp a Wf. pose proof Wf as [(D & W) A]. destruct (W_cur it D W) as (n & E).
  destruct (is_end (state n)) eqn:Es.
  { left. unfold append_dep, load. rewrite E. cbn [bind]. rewrite Es. reflexivity. }
  destruct a.
  - destruct (D (cur it)) as [|d r] eqn:ED; [destruct (last_dep n) as [l|] eqn:El|].
    + left. unfold append_dep, load. rewrite E. cbn [bind]. rewrite Es. cbn [negb assert bind].
      rewrite (D_deps it D W _ _ E), ED. cbn [hd_error]. rewrite El. reflexivity.
    + right. destruct (append_ok it D n inp Wf W E Es (fun _ => El)) as (it' & H & _ & _ & _ & _ & H2). eauto.
    + right. destruct (append_ok it D n inp Wf W E Es) as (it' & H & _ & _ & _ & _ & H2); [congruence|]. eauto.
  - right. exists it, (-12). split; auto. unfold append_dep, load. rewrite E. cbn [bind]. rewrite Es. reflexivity.
Qed.

Lemma set_context_ok : forall it c, WF it -> exists it', set_context it c = Ok it' /\ WF it'.
Proof.
  intros it c [(D & W) A]. destruct (W_cur it D W) as (n & E).
  unfold set_context. rewrite (store_ok _ _ _ _ E). eexists. split; [reflexivity|]. split.
  - exists D. eapply WFD_private; [exact W|exact E|repeat split|]. intros Q. exact (W_out it D W _ _ E Q).
  - apply (anc_open_private it D (cur it)); eauto.
Qed.

Lemma nth_dep_ok : forall it D o l d pl f fuel i, WFD it D -> seg (cells it) o pl f (d :: l) -> (S (length l) <= fuel)%nat ->
  exists r, nth_dep fuel it d i = Ok (Some r) /\ (forall x, r = Some x -> In x (d :: l)) /\
   (0 <= i -> r = nth_error (d :: l) (Z.to_nat i)) /\ (i < 0 -> r = Some d).
Proof.
  induction l as [|y r IH]; intros d pl f fuel i W Sg L; (destruct fuel as [|fuel]; [cbn in L; lia|]); cbn [nth_dep].
  - cbn in Sg. destruct Sg as (_ & n & En & _ & _ & Nn).
    destruct (0 <? i) eqn:Ei.
    + unfold load. rewrite En. cbn [bind]. rewrite Nn. exists None. split; auto. split; [discriminate|]. split; [|lia].
      intros _. destruct (Z.to_nat i) as [|k] eqn:Ek; [lia|]. cbn. destruct k; reflexivity.
    + exists (Some d). split; auto. split; [intros x H; inversion H; cbn; auto|]. split; [|auto].
      intros. replace (Z.to_nat i) with 0%nat by lia. reflexivity.
  - cbn in Sg. destruct Sg as (_ & n & En & _ & _ & Ef & ny & Eny & Sg).
    destruct (0 <? i) eqn:Ei.
    + unfold load. rewrite En. cbn [bind]. rewrite Ef.
      assert (Sg' : seg (cells it) o (LNext d) (Some y) (y :: r)) by (cbn; eauto).
      destruct (IH y (LNext d) (Some y) fuel (i - 1) W Sg' ltac:(cbn in L; lia)) as (res & R1 & R2 & R3 & R4).
      exists res. split; auto. split; [intros x H; right; auto|]. split; [|lia].
      intros _. rewrite R3 by lia. replace (Z.to_nat i) with (S (Z.to_nat (i - 1))) by lia. reflexivity.
    + exists (Some d). split; auto. split; [intros x H; inversion H; cbn; auto|]. split; [|auto].
      intros. replace (Z.to_nat i) with 0%nat by lia. reflexivity.
Qed.

Lemma entry_get_out_safe : forall it D i n, WFD it D -> cells it i = Some n ->
  entry_get_out it i = if is_end (state n) then Ok (p_out n, p_in n, state n =? -3) else Abort.
Proof.
  intros it D i n W E. unfold entry_get_out, load. rewrite E. cbn [bind]. unfold assert at 1.
  destruct (is_end (state n)) eqn:Es; [|reflexivity]. cbn [bind].
  assert (Ho : (if state n =? ST_failed then p_out n =? 0 else true) = true).
  { destruct (state n =? ST_failed) eqn:Q; auto. unfold ST_failed in Q. rewrite (W_out it D W _ _ E); [reflexivity|lia]. }
  rewrite Ho. reflexivity.
Qed.

Lemma get_dep_out_ok : forall it D n i, WFD it D -> cells it (cur it) = Some n -> 0 <= i ->
  get_dep_out it i =
  match nth_error (D (cur it)) (Z.to_nat i) with
  | None => Ok (Some None)
  | Some x => match cells it x with
              | Some e => if is_end (state e) then Ok (Some (Some (p_out e, p_in e, state e =? -3))) else Abort
              | None => UB
              end
  end.
Proof.
  intros it D n i W E Hi. unfold get_dep_out. unfold load at 1. rewrite E. cbn [bind].
  rewrite (D_deps it D W _ _ E). pose proof (W_seg it D W _ _ E) as Sg. pose proof (D_len it D W _ _ E) as Ln.
  destruct (D (cur it)) as [|d r] eqn:ED; cbn [hd_error].
  - destruct (Z.to_nat i); reflexivity.
  - destruct (nth_dep_ok it D (cur it) r d _ _ (S (fresh it)) i W Sg ltac:(cbn in Ln; lia)) as (res & R1 & R2 & R3 & _).
    rewrite R1. cbn [bind]. rewrite R3 by lia. destruct (nth_error (d :: r) (Z.to_nat i)) as [x|] eqn:Nx; [|reflexivity].
    apply nth_error_In in Nx. destruct (D_in it D W _ _ x E ltac:(rewrite ED; auto)) as (e & Ee & _).
    rewrite (entry_get_out_safe it D x e W Ee), Ee. destruct (is_end (state e)); reflexivity.
Qed.

Lemma get_dep_out_noUB : forall it i, WF it -> get_dep_out it i <> UB.
Proof.
  intros it i [(D & W) A]. destruct (W_cur it D W) as (n & E). unfold get_dep_out. unfold load at 1. rewrite E. cbn [bind].
  rewrite (D_deps it D W _ _ E). pose proof (W_seg it D W _ _ E) as Sg. pose proof (D_len it D W _ _ E) as Ln.
  destruct (D (cur it)) as [|d r] eqn:ED; cbn [hd_error]; [discriminate|].
  destruct (nth_dep_ok it D (cur it) r d _ _ (S (fresh it)) i W Sg ltac:(cbn in Ln; lia)) as (res & R1 & R2 & _).
  rewrite R1. cbn [bind]. destruct res as [x|]; [|discriminate].
  destruct (D_in it D W _ _ x E ltac:(rewrite ED; apply R2; auto)) as (e & Ee & _).
  rewrite (entry_get_out_safe it D x e W Ee). destruct (is_end (state e)); discriminate.
Qed.

Lemma queue_size_ok : forall it o l pl f fuel acc, seg (cells it) o pl f l -> (length l < fuel)%nat ->
  queue_size_loop fuel it f acc = Ok (Some (acc + Z.of_nat (length l))).
Proof.
  induction l as [|x r IH]; intros pl f fuel acc Sg L; (destruct fuel as [|fuel]; [cbn in L; lia|]); cbn in Sg; cbn [queue_size_loop].
  - subst f. cbn. do 2 f_equal. lia.
  - destruct Sg as (-> & n & En & _ & _ & Sg). unfold load. rewrite En. cbn [bind].
    rewrite (IH _ _ fuel (acc + 1) Sg) by (cbn in L; lia). cbn [length]. do 2 f_equal. lia.
Qed.

Lemma dep_queue_size_ok : forall it D n, WFD it D -> cells it (cur it) = Some n ->
  dep_queue_size it = Ok (Some (Z.of_nat (length (D (cur it))))).
Proof.
  intros it D n W E. unfold dep_queue_size, load. rewrite E. cbn [bind].
  pose proof (D_len it D W _ _ E). rewrite (queue_size_ok it (cur it) (D (cur it)) _ _ _ 0 (W_seg it D W _ _ E)) by lia.
  reflexivity.
Qed.

Lemma level_loop_noUB : forall fuel it D i lvl, WFD it D -> (exists n, cells it i = Some n) ->
  (i < fuel)%nat -> exists z, level_loop fuel it i lvl = Ok (Some z).
Proof.
  induction fuel as [|fuel IH]; intros it D i lvl W (n & E) L; [lia|].
  cbn [level_loop]. unfold load. rewrite E. cbn [bind]. destruct (parent n) as [p|] eqn:Ep; [|eauto].
  destruct (W_par it D W _ _ _ E Ep) as (Q & _ & np & Q2). eapply IH; eauto. lia.
Qed.

Lemma get_in_loop_noUB : forall fuel it D i lvl q, WFD it D -> (exists n, cells it i = Some n) ->
  (i < fuel)%nat -> exists z, get_in_loop fuel it i lvl q = Ok (Some z).
Proof.
  induction fuel as [|fuel IH]; intros it D i lvl q W (n & E) L; [lia|].
  cbn [get_in_loop]. unfold load. rewrite E. cbn [bind]. destruct (lvl =? q); [eauto|].
  destruct (parent n) as [p|] eqn:Ep; [|eauto].
  destruct (W_par it D W _ _ _ E Ep) as (Q & _ & np & Q2). eapply IH; eauto. lia.
Qed.

Lemma do_call_safe : forall it c, WF it -> do_call it c <> UB /\ forall it' o, do_call it c = Ok (it', o) -> WF it'.
Proof.
  intros it c Wf. pose proof Wf as [(D & W) A]. destruct (W_cur it D W) as (n & E).
  assert (T : forall X (f : X -> obs) (m : outcome (iter * X)),
     (m = Abort \/ exists it' b, m = Ok (it', b) /\ WF it') ->
     bind m (fun '(it', r) => Ok (it', f r)) <> UB /\
     forall it' o, bind m (fun '(it', r) => Ok (it', f r)) = Ok (it', o) -> WF it').
  { intros X f m [->|(it' & b & -> & H)]; cbn; split; try discriminate. intros it2 o Q. inversion Q; subst; auto. }
  destruct c as [|s| |o|inp a| |c|i| | | |l]; cbn [do_call].
  - apply (T _ ONext). right. destruct (next_inv it Wf) as (it' & r & H1 & H2 & _). eauto.
  - apply (T _ OBool). apply set_state_cases; auto.
  - apply (T _ OBool). apply set_state_cases; auto.
  - apply (T _ OBool). apply done_cases; auto.
  - apply (T _ OCode). apply append_cases; auto.
  - apply (T _ ODeq). apply dequeue_cases; auto.
  - destruct (set_context_ok it c Wf) as (it' & -> & H). cbn. split; [discriminate|]. intros it2 o Q. inversion Q; subst; auto.
  - pose proof (get_dep_out_noUB it i Wf). destruct (get_dep_out it i); cbn; split; try congruence; intros it' o Q; inversion Q; subst; auto.
  - unfold get_out. rewrite (entry_get_out_safe it D _ n W E). destruct (is_end (state n)); cbn; split; try congruence; intros it' o Q; inversion Q; subst; auto.
  - rewrite (dep_queue_size_ok it D n W E). cbn. split; [discriminate|]. intros it' o Q; inversion Q; subst; auto.
  - unfold level. destruct (level_loop_noUB (S (fresh it)) it D (cur it) 0 W ltac:(eauto)) as (z & ->); [pose proof (W_live it D W _ _ E); lia|].
    cbn. split; [discriminate|]. intros it' o Q; inversion Q; subst; auto.
  - unfold get_in. destruct (get_in_loop_noUB (S (fresh it)) it D (cur it) 0 l W ltac:(eauto)) as (z & ->); [pose proof (W_live it D W _ _ E); lia|].
    cbn. split; [discriminate|]. intros it' o Q; inversion Q; subst; auto.
Qed.

Lemma run_calls_safe : forall l it, WF it -> run_calls it l <> UB /\ forall it' os, run_calls it l = Ok (it', os) -> WF it'.
Proof.
  induction l as [|c r IH]; intros it Wf; cbn [run_calls].
  - split; [discriminate|]. intros it' os H. inversion H; subst; auto.
  - destruct (do_call_safe it c Wf) as [H1 H2]. destruct (do_call it c) as [[it1 o]| |]; cbn [bind]; try (split; congruence).
    specialize (H2 it1 o eq_refl). destruct (IH it1 H2) as [H3 H4].
    destruct (run_calls it1 r) as [[it2 os]| |]; cbn [bind]; try (split; congruence).
    split; [discriminate|]. intros it' os' Q. inversion Q; subst. eapply H4; eauto.
Qed.

Lemma reachable_WF : forall it, reachable it -> WF it.
Proof. intros it (p & l & os & H). eapply run_calls_safe; eauto. apply new_WF. Qed.

Lemma no_ub : forall p l, run_calls (new_iterator p) l <> UB.
Proof. intros. apply run_calls_safe. apply new_WF. Qed.

(** C05 *)
Lemma next_spec : forall it, reachable it ->
  exists it' r, next it = Ok (it', r) /\ cells it' = cells it /\
    ((r = NEnd /\ finished (cells it) 0) \/
     (exists p l, r = NTask p /\ unfinished (cells it) 0 /\ unfinished (cells it) (cur it') /\
        (exists n, cells it (cur it') = Some n /\ p_in n = p) /\
        queue (cells it) (cur it') l /\ Forall (finished (cells it)) l)).
Proof.
  intros it R. apply reachable_WF in R. destruct R as [(D & W) A].
  destruct (next_ok it D W A) as (i & r & ni & E & Ei & A' & H).
  exists (set_cur it i), r. split; auto. split; [reflexivity|].
  destruct H as [(-> & -> & He)|(-> & He & Hd)].
  - left. split; auto. exists ni. apply is_end_spec in He. auto.
  - right. exists (p_in ni), (D i). split; auto. split; [|split; [|split; [|split]]].
    + destruct (W_root it D W) as (n0 & E0). exists n0. split; auto. apply is_end_false.
      destruct (is_end (state n0)) eqn:Q; auto. pose proof (anc_open_root it D i n0 W A' E0 Q). subst i.
      assert (n0 = ni) by congruence. subst. congruence.
    + cbn. exists ni. apply is_end_false in He. auto.
    + cbn. eauto.
    + cbn. eapply D_queue; eauto.
    + rewrite Forall_forall. intros x Hx. destruct (D_in it D W i ni x Ei Hx) as (nx & Ex & _).
      exists nx. split; auto. apply is_end_spec. eapply Hd; eauto.
Qed.

(** C07 *)
Lemma append_spec : forall it inp a it' rc l, reachable it -> append_dep it inp a = Ok (it', rc) ->
  queue (cells it) (cur it) l ->
  (rc = 0 /\ a = true /\ cur it' = cur it /\
     exists i, cells it i = None /\ queue (cells it') (cur it) (l ++ [i]) /\
       exists n, cells it' i = Some n /\ p_in n = inp /\ state n = 0)
  \/ (rc = -12 /\ a = false /\ it' = it).
Proof.
  intros it inp a it' rc l R H Q. apply reachable_WF in R. pose proof R as Wf. destruct R as [(D & W) A].
  destruct (W_cur it D W) as (n & E). pose proof (queue_D it D W _ _ Q) as ->.
  destruct (is_end (state n)) eqn:Es.
  { unfold append_dep, load in H. rewrite E in H. cbn [bind] in H. rewrite Es in H. discriminate. }
  destruct a.
  - left.
    assert (HD : D (cur it) = [] -> last_dep n = None).
    { intros ED. destruct (last_dep n) as [x|] eqn:El; auto. exfalso. unfold append_dep, load in H. rewrite E in H. cbn [bind] in H.
      rewrite Es in H. cbn [negb assert bind] in H.
      rewrite (D_deps it D W _ _ E), ED in H. cbn [hd_error] in H. rewrite El in H. discriminate. }
    destruct (append_ok it D n inp Wf W E Es HD) as (it2 & H1 & H2 & H3 & H4 & H5 & H6).
    rewrite H1 in H. inversion H; subst it2 rc. repeat split; auto. exists (fresh it).
    assert (cells it (fresh it) = None).
    { destruct (cells it (fresh it)) eqn:Q2; auto. apply (W_live it D W) in Q2. lia. }
    split; auto. split.
    + pose proof (W_cur _ _ H5) as (n' & E'). rewrite H3 in E'. pose proof (D_queue _ _ H5 _ _ E') as Q3.
      unfold appended_D in Q3. rewrite Nat.eqb_refl in Q3. exact Q3.
    + rewrite H4. unfold appended_cell. rewrite Nat.eqb_refl. eexists. split; [reflexivity|]. split; reflexivity.
  - right. unfold append_dep, load in H. rewrite E in H. cbn [bind] in H. rewrite Es in H. cbn in H. inversion H; auto.
Qed.

Lemma dequeue_spec : forall it it' r l, reachable it -> dequeue it = Ok (it', r) ->
  queue (cells it) (cur it) l ->
  match l with
  | [] => r = None /\ it' = it
  | x :: l' => exists n, cells it x = Some n /\ finished (cells it) x /\
      r = Some (p_out n, p_in n, state n =? -3) /\
      cur it' = cur it /\ queue (cells it') (cur it) l' /\ cells it' x = None
  end.
Proof.
  intros it it' r l R H Q. apply reachable_WF in R. pose proof R as Wf. destruct R as [(D & W) A].
  destruct (W_cur it D W) as (n & E). pose proof (queue_D it D W _ _ Q) as ->.
  destruct (D (cur it)) as [|x l'] eqn:ED.
  - unfold dequeue, load in H. rewrite E in H. cbn [bind] in H. rewrite (D_deps it D W _ _ E), ED in H. inversion H; auto.
  - destruct (D_in it D W _ _ x E ltac:(rewrite ED; cbn; auto)) as (e & Ee & _ & Hx).
    pose proof (dequeue_raw it D n x l' e W E ED Ee) as HR. rewrite H in HR.
    destruct (is_end (state e)) eqn:Es; [|discriminate]. destruct (D x) eqn:Dx; [|discriminate].
    destruct (dequeue_ok it D n x l' e Wf W E ED Ee Es Dx) as (it2 & H1 & H2 & H3 & H4 & H5 & H6).
    rewrite H1 in H. inversion H; subst it2 r. exists e. split; auto. split; [exists e; apply is_end_spec in Es; auto|].
    split; auto. split; auto. split.
    + pose proof (W_cur _ _ H5) as (n' & E'). rewrite H3 in E'. pose proof (D_queue _ _ H5 _ _ E') as Q3.
      unfold dequeued_D in Q3. rewrite Nat.eqb_refl in Q3. exact Q3.
    + rewrite H4. unfold dequeued_cell. rewrite Nat.eqb_refl. reflexivity.
Qed.

Lemma get_dep_out_spec : forall it i r l, reachable it -> 0 <= i -> get_dep_out it i = Ok r ->
  queue (cells it) (cur it) l ->
  match nth_error l (Z.to_nat i) with
  | None => r = Some None
  | Some x => exists n, cells it x = Some n /\ finished (cells it) x /\ r = Some (Some (p_out n, p_in n, state n =? -3))
  end.
Proof.
  intros it i r l R Hi H Q. apply reachable_WF in R. destruct R as [(D & W) A].
  destruct (W_cur it D W) as (n & E). pose proof (queue_D it D W _ _ Q) as ->.
  rewrite (get_dep_out_ok it D n i W E Hi) in H. destruct (nth_error (D (cur it)) (Z.to_nat i)) as [x|]; [|inversion H; auto].
  destruct (cells it x) as [e|] eqn:Ee; [|discriminate]. destruct (is_end (state e)) eqn:Es; [|discriminate].
  inversion H. exists e. split; auto. split; auto. exists e. apply is_end_spec in Es. auto.
Qed.

Lemma queue_size_spec : forall it l, reachable it -> queue (cells it) (cur it) l ->
  dep_queue_size it = Ok (Some (Z.of_nat (length l))).
Proof.
  intros it l R Q. apply reachable_WF in R. destruct R as [(D & W) A].
  destruct (W_cur it D W) as (n & E). pose proof (queue_D it D W _ _ Q) as ->. eapply dep_queue_size_ok; eauto.
Qed.
