(** Proofs about the recursive iterator. *)
From Coq Require Import ZArith List Bool Lia ZifyBool.
Import ListNotations.
From Verif Require Import IteratorModel IteratorSpec.
Open Scope Z_scope.

Lemma is_end_spec : forall s, is_end s = true <-> s = -2 \/ s = -3.
Proof. intros s. unfold is_end, ST_done, ST_failed. lia. Qed.
Lemma is_end_false : forall s, is_end s = false <-> s <> -2 /\ s <> -3.
Proof. intros s. unfold is_end, ST_done, ST_failed. lia. Qed.

(** * Well-formed iterator heaps *)

(** The dependency list of [owner]: forward and backward links and parents are right. *)
Fixpoint seg (c : nat -> option node) (owner : nat) (pl : loc) (first : option nat) (l : list nat) : Prop :=
  match l with
  | [] => first = None
  | x :: r => first = Some x /\ exists n, c x = Some n /\ parent n = Some owner /\
              le_prev n = Some pl /\ seg c owner (LNext x) (le_next n) r
  end.

Record WFD (it : iter) (D : nat -> list nat) : Prop := {
  W_live : forall i n, cells it i = Some n -> (i < fresh it)%nat;
  W_root : exists n, cells it 0 = Some n;
  W_cur : exists n, cells it (cur it) = Some n;
  W_seg : forall i n, cells it i = Some n -> seg (cells it) i (LHead i) (deps n) (D i);
  W_last : forall i n, cells it i = Some n -> D i <> [] -> last_dep n = Some (last (D i) 0%nat);
  W_nodup : forall i n, cells it i = Some n -> NoDup (D i);
  W_par0 : forall i n, cells it i = Some n -> (parent n = None <-> i = 0%nat);
  W_par : forall i n p, cells it i = Some n -> parent n = Some p ->
            (p < i)%nat /\ In i (D p) /\ exists np, cells it p = Some np;
  W_out : forall i n, cells it i = Some n -> state n <> -2 -> p_out n = 0;
  W_first : forall i n, cells it i = Some n -> last_dep n = None -> D i = [];
}.

(** All proper ancestors of a node are unfinished. *)
Inductive anc_open (c : nat -> option node) : nat -> Prop :=
| AO_root i n : c i = Some n -> parent n = None -> anc_open c i
| AO_step i n p np : c i = Some n -> parent n = Some p -> c p = Some np ->
    is_end (state np) = false -> anc_open c p -> anc_open c i.

Definition WF (it : iter) : Prop := (exists D, WFD it D) /\ anc_open (cells it) (cur it).

Lemma seg_in : forall c o l pl f x, seg c o pl f l -> In x l ->
  exists n, c x = Some n /\ parent n = Some o.
Proof.
  induction l as [|y r IH]; cbn; intros pl f x S H; [tauto|].
  destruct S as (Ef & n & En & Ep & Epv & S). destruct H as [<-|H]; [eauto|]. eapply IH; eauto.
Qed.

Lemma seg_ext : forall c c' o l pl f, seg c o pl f l ->
  (forall x n, In x l -> c x = Some n -> exists n', c' x = Some n' /\ parent n' = parent n /\
      le_prev n' = le_prev n /\ le_next n' = le_next n) ->
  seg c' o pl f l.
Proof.
  induction l as [|y r IH]; cbn; intros pl f S H; auto.
  destruct S as (Ef & n & En & Ep & Epv & S). split; auto.
  destruct (H y n) as (n' & E1 & E2 & E3 & E4); auto.
  exists n'. rewrite E2, E3, E4. repeat split; auto.
Qed.

Lemma seg_linked : forall c o l pl f, seg c o pl f l -> linked c f l.
Proof.
  induction l as [|y r IH]; cbn; intros pl f S; auto.
  destruct S as (Ef & n & En & Ep & Epv & S). eauto.
Qed.

Lemma linked_fun : forall c l l' f, linked c f l -> linked c f l' -> l = l'.
Proof.
  induction l as [|x r IH]; intros [|y r'] f L L'; cbn in *; auto.
  - destruct L' as [E _]. congruence.
  - destruct L as [E _]. congruence.
  - destruct L as (E & n & En & L), L' as (E' & n' & En' & L').
    assert (x = y) by congruence. subst y. assert (n = n') by congruence. subst n'. f_equal. eauto.
Qed.

Lemma seg_hd : forall c o l pl f, seg c o pl f l -> f = hd_error l.
Proof. intros c o [|x r] pl f S; cbn in *; tauto. Qed.

Section WFfacts.
Variable it : iter.
Variable D : nat -> list nat.
Hypothesis W : WFD it D.

Lemma D_in : forall i n x, cells it i = Some n -> In x (D i) ->
  exists nx, cells it x = Some nx /\ parent nx = Some i /\ (i < x < fresh it)%nat.
Proof.
  intros i n x E H. destruct (seg_in _ _ _ _ _ _ (W_seg it D W i n E) H) as (nx & E1 & E2).
  exists nx. repeat split; auto.
  - eapply W_par; eauto.
  - eapply W_live; eauto.
Qed.

Lemma D_len : forall i n, cells it i = Some n -> (length (D i) <= fresh it)%nat.
Proof.
  intros i n E. pose proof (W_nodup it D W i n E) as ND.
  assert (incl (D i) (seq 0 (fresh it))).
  { intros x Hx. apply in_seq. destruct (D_in i n x E Hx) as (nx & _ & _ & H). lia. }
  apply NoDup_incl_length in H; auto. rewrite seq_length in H. auto.
Qed.

Lemma D_deps : forall i n, cells it i = Some n -> deps n = hd_error (D i).
Proof. intros i n E. eapply seg_hd. eapply W_seg; eauto. Qed.

Lemma first_unfinished_ok : forall l o pl f fuel, seg (cells it) o pl f l -> (length l < fuel)%nat ->
  exists r, first_unfinished fuel it f = Ok (Some r) /\
    match r with
    | None => forall x n, In x l -> cells it x = Some n -> is_end (state n) = true
    | Some x => In x l /\ exists n a b, cells it x = Some n /\ is_end (state n) = false /\ l = a ++ x :: b /\
        forall y n, In y a -> cells it y = Some n -> is_end (state n) = true
    end.
Proof.
  induction l as [|x r IH]; intros o pl f fuel S L; (destruct fuel as [|fuel]; [cbn in L; lia|]); cbn in S.
  - subst f. exists None. split; [reflexivity|]. cbn. tauto.
  - destruct S as (-> & n & En & Ep & Epv & S). cbn [first_unfinished bind]. unfold load. rewrite En. cbn [bind].
    destruct (is_end (state n)) eqn:Es.
    + destruct (IH o _ _ fuel S ltac:(cbn in L; lia)) as ([y|] & E & H).
      * exists (Some y). split; auto. destruct H as (Hin & ny & a & b & H1 & H2 & H3 & H4).
        split; [cbn; auto|]. exists ny, (x :: a), b. repeat split; auto; [cbn; congruence|].
        intros z nz [<-|Hz] Ez; [congruence|eauto].
      * exists None. split; auto. intros z nz [<-|Hz] Ez; [congruence|eauto].
    + exists (Some x). split; [reflexivity|]. split; [cbn; auto|]. exists n, [], r. repeat split; auto. all: cbn; tauto.
Qed.

(** The queue of a node seen from outside is the ghost list. *)
Lemma queue_D : forall i l, queue (cells it) i l -> l = D i.
Proof.
  intros i l (n & E & L). eapply linked_fun; eauto. eapply seg_linked. eapply W_seg; eauto.
Qed.
Lemma D_queue : forall i n, cells it i = Some n -> queue (cells it) i (D i).
Proof. intros i n E. exists n. split; auto. eapply seg_linked. eapply W_seg; eauto. Qed.
End WFfacts.

Lemma WFD_set_cur : forall it D i n, WFD it D -> cells it i = Some n -> WFD (set_cur it i) D.
Proof. intros it D i n [] E. constructor; cbn; eauto. Qed.

(** * next *)

Lemma next_loop_down : forall D fuel it n, WFD it D ->
  cells it (cur it) = Some n -> is_end (state n) = false -> anc_open (cells it) (cur it) ->
  (fresh it - cur it < fuel)%nat ->
  exists i ni, next_loop fuel it = Ok (set_cur it i, NTask (p_in ni)) /\ cells it i = Some ni /\
    is_end (state ni) = false /\ anc_open (cells it) i /\
    (forall x nx, In x (D i) -> cells it x = Some nx -> is_end (state nx) = true).
Proof.
  intros D. induction fuel as [|fuel IH]; intros it n W E Es A L; [lia|].
  cbn [next_loop]. unfold load at 1. rewrite E. cbn [bind]. rewrite Es.
  pose proof (W_seg it D W _ _ E) as Sg. pose proof (D_deps it D W _ _ E) as Hd.
  destruct (D (cur it)) as [|d r] eqn:ED; cbn in Hd; rewrite Hd.
  - exists (cur it), n. repeat split; auto. { destruct it; reflexivity. } rewrite ED. cbn. tauto.
  - pose proof (D_len it D W _ _ E) as Ln. rewrite ED in Ln. rewrite Hd in Sg.
    destruct (first_unfinished_ok it (d :: r) _ _ _ (S (fresh it)) Sg ltac:(lia)) as (res & Eq & H).
    rewrite Eq. cbn [bind]. destruct res as [x|].
    + destruct H as (Hin & nx & a & b & Ex & Esx & _).
      destruct (D_in it D W (cur it) n x E) as (nx' & Ex' & Epx & Hlt); [rewrite ED; auto|].
      assert (nx' = nx) by congruence. subst nx'.
      destruct (IH (set_cur it x) nx) as (i & ni & H1 & H2 & H3 & H4 & H5); auto.
      * eapply WFD_set_cur; eauto.
      * cbn. eapply AO_step; eauto.
      * cbn. lia.
      * exists i, ni. repeat split; auto.
    + exists (cur it), n. repeat split; auto. { destruct it; reflexivity. }
      rewrite ED. auto.
Qed.

Lemma next_loop_ok : forall D fuel it n, WFD it D -> anc_open (cells it) (cur it) ->
  cells it (cur it) = Some n -> (cur it + fresh it + 1 < fuel)%nat ->
  exists i r ni, next_loop fuel it = Ok (set_cur it i, r) /\ cells it i = Some ni /\
   anc_open (cells it) i /\
   ((r = NEnd /\ i = 0%nat /\ is_end (state ni) = true) \/
    (r = NTask (p_in ni) /\ is_end (state ni) = false /\
     (forall x nx, In x (D i) -> cells it x = Some nx -> is_end (state nx) = true))).
Proof.
  intros D. induction fuel as [|fuel IH]; intros it n W A E L; [lia|].
  destruct (is_end (state n)) eqn:Es.
  - cbn [next_loop]. unfold load at 1. rewrite E. cbn [bind]. rewrite Es.
    destruct (parent n) as [p|] eqn:Ep.
    + destruct (W_par it D W _ _ _ E Ep) as (Hlt & _ & np & Enp).
      inversion A as [? n0 H1 H2|? n0 p0 np0 H1 H2 H3 H4 H5]; subst.
      { assert (n0 = n) by congruence. subst. congruence. }
      assert (n0 = n) by congruence. subst. assert (p0 = p) by congruence. subst. assert (np0 = np) by congruence. subst.
      destruct (next_loop_down D fuel (set_cur it p) np) as (i & ni & Q1 & Q2 & Q3 & Q4 & Q5); auto.
      * eapply WFD_set_cur; eauto.
      * cbn. lia.
      * exists i, (NTask (p_in ni)), ni. split; [exact Q1|]. split; [exact Q2|]. split; auto.
    + exists (cur it), NEnd, n. split; [destruct it; reflexivity|]. split; [exact E|]. split; [exact A|].
      left. split; [reflexivity|]. split; [|exact Es]. eapply W_par0; eauto.
  - destruct (next_loop_down D (S fuel) it n) as (i & ni & Q1 & Q2 & Q3 & Q4 & Q5); auto; [lia|].
    exists i, (NTask (p_in ni)), ni. split; [exact Q1|]. split; [exact Q2|]. split; auto.
Qed.

Lemma next_ok : forall it D, WFD it D -> anc_open (cells it) (cur it) ->
  exists i r ni, next it = Ok (set_cur it i, r) /\ cells it i = Some ni /\ anc_open (cells it) i /\
   ((r = NEnd /\ i = 0%nat /\ is_end (state ni) = true) \/
    (r = NTask (p_in ni) /\ is_end (state ni) = false /\
     (forall x nx, In x (D i) -> cells it x = Some nx -> is_end (state nx) = true))).
Proof.
  intros it D W A. destruct (W_cur it D W) as (n & E). eapply next_loop_ok; eauto.
  pose proof (W_live it D W _ _ E). lia.
Qed.

(** If all ancestors of the current task are open and the root is finished, current is the root. *)
Lemma anc_open_root : forall it D i n, WFD it D -> anc_open (cells it) i -> cells it 0 = Some n ->
  is_end (state n) = true -> i = 0%nat.
Proof.
  intros it D i n W A. induction A as [i ni E Ep|i ni p np E Ep Enp Es A IH]; intros E0 Es0.
  - eapply W_par0; eauto.
  - specialize (IH E0 Es0). subst p. congruence.
Qed.

(** * Frames: updating private fields of the current node *)

Definition same_links (a b : node) : Prop :=
  parent a = parent b /\ deps a = deps b /\ last_dep a = last_dep b /\
  le_next a = le_next b /\ le_prev a = le_prev b.

Lemma WFD_private : forall it D i n n', WFD it D -> cells it i = Some n -> same_links n' n ->
  (state n' <> -2 -> p_out n' = 0) -> WFD (set_cell it i (Some n')) D.
Proof.
  intros it D i n n' W E (L1 & L2 & L3 & L4 & L5) Ho.
  assert (C : forall j m, cells (set_cell it i (Some n')) j = Some m ->
     exists m0, cells it j = Some m0 /\ same_links m m0).
  { intros j m. cbn. destruct (Nat.eqb j i) eqn:Ej; intros H.
    - assert (j = i) by lia. subst j. inversion H; subst m. exists n. split; auto. repeat split; auto.
    - exists m. split; auto. repeat split; auto. }
  assert (C' : forall j m0, cells it j = Some m0 -> exists m, cells (set_cell it i (Some n')) j = Some m /\ same_links m m0).
  { intros j m0 H. cbn. destruct (Nat.eqb j i) eqn:Ej.
    - assert (j = i) by lia. subst j. exists n'. split; auto. assert (m0 = n) by congruence. subst. repeat split; auto.
    - exists m0. split; auto. repeat split; auto. }
  destruct W as [W1 W2 W3 W4 W5 W6 W7 W8 W9 W10]. constructor.
  - intros j m H. destruct (C j m H) as (m0 & H0 & _). cbn. eauto.
  - destruct W2 as (m0 & H0). destruct (C' _ _ H0) as (m & H & _). eauto.
  - destruct W3 as (m0 & H0). destruct (C' _ _ H0) as (m & H & _). eauto.
  - intros j m H. destruct (C j m H) as (m0 & H0 & Q1 & Q2 & Q3 & Q4 & Q5). rewrite Q2.
    eapply seg_ext; [eauto|]. intros x nx Hx Ex. destruct (C' _ _ Ex) as (nx' & H' & R1 & R2 & R3 & R4 & R5).
    exists nx'. auto.
  - intros j m H. destruct (C j m H) as (m0 & H0 & Q1 & Q2 & Q3 & Q4 & Q5). rewrite Q3. eauto.
  - intros j m H. destruct (C j m H) as (m0 & H0 & _). eauto.
  - intros j m H. destruct (C j m H) as (m0 & H0 & Q1 & Q2 & Q3 & Q4 & Q5). rewrite Q1. eauto.
  - intros j m p H Hp. destruct (C j m H) as (m0 & H0 & Q1 & Q2 & Q3 & Q4 & Q5). rewrite Q1 in Hp.
    destruct (W8 _ _ _ H0 Hp) as (A & B & np & Enp). repeat split; auto.
    destruct (C' _ _ Enp) as (m' & H' & _). eauto.
  - intros j m. cbn. destruct (Nat.eqb j i) eqn:Ej; intros H; [inversion H; subst; auto|eauto].
  - intros j m H. destruct (C j m H) as (m0 & H0 & Q1 & Q2 & Q3 & Q4 & Q5). rewrite Q3. eauto.
Qed.

(** Ancestors stay open when the change is at [i] itself and keeps parents. *)
Lemma anc_open_ext : forall c c' i, anc_open c i -> (exists n, c' i = Some n /\ forall n0, c i = Some n0 -> parent n = parent n0) ->
  (forall j n0, (j < i)%nat -> c j = Some n0 -> exists n, c' j = Some n /\ parent n = parent n0 /\ state n = state n0) ->
  (forall j n p, c j = Some n -> parent n = Some p -> (p < j)%nat) ->
  anc_open c' i.
Proof.
  intros c c' i A. induction A as [i ni E Ep|i ni p np E Ep Enp Es A IH]; intros (n & En & Hp) Hlow Hord.
  - eapply AO_root; eauto. rewrite (Hp _ E). auto.
  - pose proof (Hord _ _ _ E Ep) as Hlt.
    destruct (Hlow p np Hlt Enp) as (np' & Enp' & Q1 & Q2).
    eapply AO_step; eauto.
    + rewrite (Hp _ E). eauto.
    + rewrite Q2. auto.
    + apply IH; auto.
      * exists np'. split; auto. intros n0 H0. congruence.
      * intros j n0 Hj. apply Hlow. lia.
Qed.

Lemma anc_open_private : forall it D i n', WFD it D -> (exists n, cells it i = Some n /\ parent n' = parent n) ->
  anc_open (cells it) i -> anc_open (cells (set_cell it i (Some n'))) i.
Proof.
  intros it D i n' W (n & E & Ep) A. eapply anc_open_ext; eauto.
  - cbn. rewrite Nat.eqb_refl. exists n'. split; auto. intros n0 H. congruence.
  - intros j n0 Hj H. cbn. replace (Nat.eqb j i) with false by lia. eauto.
  - intros j n0 p H Hp. eapply W_par; eauto.
Qed.

Lemma WFD_cells_ext : forall it it' D, WFD it D -> fresh it' = fresh it -> cur it' = cur it ->
  (forall j, cells it' j = cells it j) -> WFD it' D.
Proof.
  intros it it' D W F Cu C. pose proof W as [W1 W2 W3 W4 W5 W6 W7 W8 W9 W10]. constructor.
  - intros i n H. rewrite C in H. rewrite F. eauto.
  - rewrite C. exact W2.
  - rewrite C, Cu. exact W3.
  - intros i n H. rewrite C in H. eapply seg_ext; [eapply W4; eauto|]. intros x nx _ Ex. rewrite C. eauto.
  - intros i n H. rewrite C in H. eauto.
  - intros i n H. rewrite C in H. eauto.
  - intros i n H. rewrite C in H. eauto.
  - intros i n p H. rewrite C in *. eauto.
  - intros i n H. rewrite C in H. eauto.
  - intros i n H. rewrite C in H. eauto.
Qed.

Lemma anc_open_cells_ext : forall c c' i, anc_open c i -> (forall j, c' j = c j) -> anc_open c' i.
Proof.
  intros c c' i A H. induction A as [i ni E Ep|i ni p np E Ep Enp Es A IH].
  - eapply AO_root; eauto. rewrite H; eauto.
  - eapply AO_step; eauto; rewrite H; eauto.
Qed.

Lemma store_ok : forall it i n f, cells it i = Some n -> store it i f = Ok (set_cell it i (Some (f n))).
Proof. intros. unfold store, load. rewrite H. reflexivity. Qed.

Lemma set_state_ok : forall it D s n, WF it -> WFD it D -> cells it (cur it) = Some n ->
  is_end (state n) = false -> s <> -1 ->
  set_state it s = Ok (set_cell it (cur it) (Some (w_state s n)), true) /\
  WFD (set_cell it (cur it) (Some (w_state s n))) D /\ WF (set_cell it (cur it) (Some (w_state s n))).
Proof.
  intros it D s n [_ A] W E Es Hs. unfold set_state. replace (s =? ST_error) with false by (unfold ST_error; lia).
  unfold load. rewrite E. cbn [bind]. rewrite Es. cbn [negb assert bind]. rewrite (store_ok _ _ _ _ E). cbn [bind].
  assert (Ho : p_out n = 0). { eapply W_out; eauto. apply is_end_false in Es. tauto. }
  assert (W' : WFD (set_cell it (cur it) (Some (w_state s n))) D).
  { eapply WFD_private; [exact W|exact E|repeat split|]. intros _. exact Ho. }
  split; [reflexivity|]. split; [exact W'|]. split; [exists D; exact W'|].
  apply (anc_open_private it D (cur it)); auto. eauto.
Qed.

Lemma set_state_total : forall it s, WF it -> set_state it s <> UB.
Proof.
  intros it s [(D & W) A]. destruct (W_cur it D W) as (n & E). unfold set_state.
  destruct (s =? ST_error); [discriminate|]. unfold load. rewrite E. cbn [bind].
  unfold assert. destruct (is_end (state n)); cbn; [discriminate|]. rewrite (store_ok _ _ _ _ E). discriminate.
Qed.

Lemma set_state_inv : forall it s it' b, WF it -> set_state it s = Ok (it', b) -> WF it'.
Proof.
  intros it s it' b Wf H. pose proof Wf as [(D & W) A]. destruct (W_cur it D W) as (n & E).
  destruct (Z.eq_dec s (-1)) as [->|Ns].
  - cbn in H. inversion H; subst. auto.
  - destruct (is_end (state n)) eqn:Es.
    + unfold set_state in H. replace (s =? ST_error) with false in H by (unfold ST_error; lia).
      unfold load in H. rewrite E in H. cbn in H. rewrite Es in H. discriminate.
    + destruct (set_state_ok it D s n Wf W E Es Ns) as (H1 & _ & H3). rewrite H1 in H. inversion H; subst. auto.
Qed.

Lemma done_ok : forall it D o n, WF it -> WFD it D -> cells it (cur it) = Some n -> is_end (state n) = false ->
  exists it', done it o = Ok (it', true) /\ WFD it' D /\ WF it' /\ fresh it' = fresh it /\ cur it' = cur it /\
   forall j, cells it' j = if Nat.eqb j (cur it) then Some (w_state (-2) (w_out o n)) else cells it j.
Proof.
  intros it D o n [_ A] W E Es. unfold done. unfold load. rewrite E. cbn [bind]. rewrite Es. cbn [negb assert bind].
  rewrite (store_ok _ _ _ _ E). cbn [bind]. unfold set_state. cbn [Z.eqb ST_done ST_error Pos.eqb].
  change (ST_done =? ST_error) with false. cbv iota. unfold load. cbn [cells set_cell cur]. rewrite Nat.eqb_refl.
  cbn [bind]. change (state (w_out o n)) with (state n). rewrite Es. cbn [negb assert bind].
  rewrite (store_ok _ _ (w_out o n)) by (cbn; rewrite Nat.eqb_refl; reflexivity). cbn [bind].
  eexists. split; [reflexivity|].
  assert (W1 : WFD (set_cell it (cur it) (Some (w_state (-2) (w_out o n)))) D).
  { eapply WFD_private; [exact W|exact E|repeat split|]. cbn. lia. }
  set (it2 := set_cell (set_cell it (cur it) (Some (w_out o n))) (cur it) (Some (w_state ST_done (w_out o n)))).
  assert (C : forall j, cells it2 j = cells (set_cell it (cur it) (Some (w_state (-2) (w_out o n)))) j).
  { intros j. unfold it2. cbn. destruct (Nat.eqb j (cur it)); reflexivity. }
  assert (W2 : WFD it2 D) by (eapply WFD_cells_ext; [exact W1|reflexivity|reflexivity|exact C]).
  split; auto. split; [|repeat split; auto].
  split; [exists D; auto|]. change (cur it2) with (cur it).
  eapply anc_open_cells_ext; [|exact C].
  exact (anc_open_private it D (cur it) (w_state (-2) (w_out o n)) W (ex_intro _ n (conj E eq_refl)) A).
Qed.

(** * Appending a dependency *)

Lemma seg_snoc : forall c c' o x nx l pl f,
  seg c o pl f l ->
  (forall a y b n, l = a ++ y :: b -> c y = Some n -> exists n', c' y = Some n' /\ parent n' = parent n /\
     le_prev n' = le_prev n /\ le_next n' = match b with [] => Some x | _ => le_next n end) ->
  c' x = Some nx -> parent nx = Some o -> le_next nx = None ->
  le_prev nx = Some (match l with [] => pl | _ => LNext (last l 0%nat) end) ->
  seg c' o pl (match l with [] => Some x | _ => f end) (l ++ [x]).
Proof.
  induction l as [|y r IH]; intros pl f Sg H Ex Ep En Epv.
  - cbn. split; auto. exists nx. auto.
  - cbn in Sg. destruct Sg as (-> & n & Ey & Eyp & Eyv & Sg).
    cbn [app seg]. split; auto. destruct (H [] y r n eq_refl Ey) as (n' & E1 & E2 & E3 & E4).
    exists n'. split; auto. rewrite E2, E3. split; auto. split; auto.
    specialize (IH (LNext y) (le_next n) Sg).
    assert (Hs : seg c' o (LNext y) (match r with [] => Some x | _ => le_next n end) (r ++ [x])).
    { apply IH; auto.
      - intros a z b m El Ez. apply (H (y :: a) z b m); auto. cbn. congruence.
      - rewrite Epv. destruct r; reflexivity. }
    rewrite E4. destruct r; exact Hs.
Qed.

Lemma last_in : forall (l : list nat) d, l <> [] -> In (last l d) l.
Proof.
  induction l as [|x r IH]; intros d H; [congruence|]. destruct r as [|y r]; [cbn; auto|].
  right. apply IH. congruence.
Qed.

Lemma last_split_unique : forall (l a b : list nat) y, NoDup l -> l = a ++ y :: b -> b <> [] -> y <> last l 0%nat.
Proof.
  intros l a b y ND E Nb He. subst l. rewrite He in ND at 1.
  assert (L : last (a ++ y :: b) 0%nat = last b 0%nat).
  { clear - Nb. induction a as [|z a IH]; cbn [app].
    - destruct b; [congruence|]. reflexivity.
    - rewrite <- IH. destruct (a ++ y :: b) eqn:E; [destruct a; discriminate|]. reflexivity. }
  rewrite L in *. apply NoDup_remove_2 in ND. apply ND. apply in_or_app. right. apply last_in; auto.
Qed.

Lemma NoDup_snoc : forall (l : list nat) x, NoDup l -> ~ In x l -> NoDup (l ++ [x]).
Proof.
  intros l x H N. induction l as [|y r IH]; cbn.
  - constructor; [tauto|constructor].
  - inversion H; subst. constructor.
    + rewrite in_app_iff. cbn. intros [Q|[Q|[]]]; [tauto|]. subst. apply N. cbn. auto.
    + apply IH; auto. intros Q. apply N. cbn. auto.
Qed.

Lemma last_snoc : forall (l : list nat) x d, last (l ++ [x]) d = x.
Proof. intros. apply last_last. Qed.

(** The heap after a successful append. *)
Definition appended_cell (it : iter) (D : nat -> list nat) (n : node) (inp : Z) (j : nat) : option node :=
  if Nat.eqb j (fresh it) then
    Some (w_prev (Some (match D (cur it) with [] => LHead (cur it) | _ => LNext (last (D (cur it)) 0%nat) end))
                 (new_node (Some (cur it)) inp))
  else if Nat.eqb j (cur it) then
    Some (w_last (Some (fresh it)) (w_deps (hd_error (D (cur it) ++ [fresh it])) n))
  else match D (cur it) with
       | [] => cells it j
       | _ => if Nat.eqb j (last (D (cur it)) 0%nat)
              then match cells it j with Some m => Some (w_next (Some (fresh it)) m) | None => None end
              else cells it j
       end.
Definition appended_D (it : iter) (D : nat -> list nat) (i : nat) : list nat :=
  if Nat.eqb i (cur it) then D (cur it) ++ [fresh it]
  else if Nat.eqb i (fresh it) then [] else D i.

Lemma append_WFD : forall it it' D n inp, WFD it D -> cells it (cur it) = Some n ->
  fresh it' = S (fresh it) -> cur it' = cur it ->
  (forall j, cells it' j = appended_cell it D n inp j) ->
  WFD it' (appended_D it D).
Proof.
  intros it it' D n inp W E F Cu C.
  pose proof (W_live it D W _ _ E) as Lc.
  assert (FR : forall j m, cells it j = Some m -> (j < fresh it)%nat) by (apply W).
  (* every old node is still there, with the same parent *)
  assert (K : forall j m, cells it j = Some m -> exists m', cells it' j = Some m' /\ parent m' = parent m /\
     state m' = state m /\ p_out m' = p_out m /\ le_prev m' = le_prev m /\
     (j <> cur it -> deps m' = deps m /\ last_dep m' = last_dep m) /\
     ((D (cur it) = [] \/ j <> last (D (cur it)) 0%nat) -> le_next m' = le_next m)).
  { intros j m Hj. rewrite C. unfold appended_cell. pose proof (FR _ _ Hj).
    replace (Nat.eqb j (fresh it)) with false by lia.
    destruct (Nat.eqb j (cur it)) eqn:Ej.
    - assert (j = cur it) by lia. subst j. assert (m = n) by congruence. subst m.
      eexists. split; [reflexivity|]. cbn. repeat split; auto; congruence.
    - destruct (D (cur it)) as [|d r] eqn:ED.
      + exists m. repeat split; auto.
      + destruct (Nat.eqb j (last (d :: r) 0%nat)) eqn:El.
        * rewrite Hj. eexists. split; [reflexivity|]. cbn [w_next parent state p_out le_prev deps last_dep le_next].
          repeat split; auto. intros [Q|Q]; [congruence|]. exfalso. apply Q. lia.
        * exists m. repeat split; auto. }
  assert (B : forall j m', cells it' j = Some m' -> j = fresh it \/ exists m, cells it j = Some m).
  { intros j m'. rewrite C. unfold appended_cell.
    destruct (Nat.eqb j (fresh it)) eqn:Ef; [intros _; left; lia|].
    destruct (Nat.eqb j (cur it)) eqn:Ej.
    { intros _. right. assert (Hj : j = cur it) by lia. rewrite Hj. exists n. exact E. }
    destruct (D (cur it)) as [|d r]; [intros H; right; eauto|].
    destruct (Nat.eqb j (last (d :: r) 0%nat)); [|intros H; right; eauto].
    destruct (cells it j) as [q|] eqn:Q; [intros H; right; exists q; reflexivity|discriminate]. }
  assert (NF : cells it' (fresh it) = Some (w_prev (Some (match D (cur it) with [] => LHead (cur it) | _ => LNext (last (D (cur it)) 0%nat) end))
                 (new_node (Some (cur it)) inp))).
  { rewrite C. unfold appended_cell. rewrite Nat.eqb_refl. reflexivity. }
  assert (NC : cells it' (cur it) = Some (w_last (Some (fresh it)) (w_deps (hd_error (D (cur it) ++ [fresh it])) n))).
  { rewrite C. unfold appended_cell. replace (Nat.eqb (cur it) (fresh it)) with false by lia. rewrite Nat.eqb_refl. reflexivity. }
  assert (DD : appended_D it D (cur it) = D (cur it) ++ [fresh it]) by (unfold appended_D; rewrite Nat.eqb_refl; reflexivity).
  assert (DF : appended_D it D (fresh it) = []).
  { unfold appended_D. replace (Nat.eqb (fresh it) (cur it)) with false by lia. rewrite Nat.eqb_refl. reflexivity. }
  assert (DO : forall i, i <> cur it -> (i < fresh it)%nat -> appended_D it D i = D i).
  { intros i Q1 Q2. unfold appended_D. replace (Nat.eqb i (cur it)) with false by lia.
    replace (Nat.eqb i (fresh it)) with false by lia. reflexivity. }
  constructor.
  - intros j m' H. rewrite F. destruct (B j m' H) as [->|(m & Hm)]; [lia|]. pose proof (FR _ _ Hm). lia.
  - destruct (W_root it D W) as (m & Hm). destruct (K _ _ Hm) as (m' & H' & _). eauto.
  - rewrite Cu. eauto.
  - intros i m' H. destruct (Nat.eq_dec i (cur it)) as [->|Ni]; [|destruct (B i m' H) as [->|(m & Hm)]].
    + rewrite NC in H. inversion H; subst m'. cbn [w_last w_deps deps]. rewrite DD.
      pose proof (W_seg it D W _ _ E) as Sg.
      assert (Q : hd_error (D (cur it) ++ [fresh it]) = match D (cur it) with [] => Some (fresh it) | _ => deps n end).
      { rewrite (D_deps it D W _ _ E). destruct (D (cur it)); reflexivity. }
      rewrite Q. eapply seg_snoc; [exact Sg| |exact NF|reflexivity|reflexivity|reflexivity].
      intros a y b m El Hm. destruct (K y m Hm) as (m1 & K1 & K2 & K3 & K4 & K5 & K6 & K7).
      exists m1. repeat split; auto. destruct b as [|z b].
      * (* y is the last one *)
        assert (Ey : y = last (D (cur it)) 0%nat) by (rewrite El, last_snoc; reflexivity).
        rewrite C in K1. unfold appended_cell in K1.
        pose proof (FR _ _ Hm). replace (Nat.eqb y (fresh it)) with false in K1 by lia.
        assert (y <> cur it).
        { destruct (D_in it D W (cur it) n y E) as (ny & _ & _ & Q2); [rewrite El; apply in_or_app; cbn; auto|]. lia. }
        replace (Nat.eqb y (cur it)) with false in K1 by lia.
        destruct (D (cur it)) as [|d r] eqn:ED; [destruct a; discriminate|].
        rewrite <- Ey in K1. rewrite Nat.eqb_refl, Hm in K1. inversion K1; subst m1. reflexivity.
      * apply K7. right. eapply last_split_unique; eauto; [eapply W_nodup; eauto|congruence].
    + rewrite NF in H. inversion H; subst m'. rewrite DF. reflexivity.
    + rewrite DO by eauto. destruct (K i m Hm) as (m1 & K1 & K2 & K3 & K4 & K5 & K6 & K7).
      assert (m1 = m') by congruence. subst m1. rewrite (proj1 (K6 Ni)).
      eapply seg_ext; [eapply W_seg; eauto|]. intros x nx Hx Enx.
      destruct (K x nx Enx) as (x1 & X1 & X2 & X3 & X4 & X5 & X6 & X7). exists x1. repeat split; auto. apply X7.
      destruct (list_eq_dec Nat.eq_dec (D (cur it)) []) as [En|Nn]; [auto|]. right. intros Q. subst x.
      destruct (D_in it D W (cur it) n _ E (last_in _ 0%nat Nn)) as (z1 & Z1 & Z2 & _).
      destruct (D_in it D W i m _ Hm Hx) as (z2 & Z3 & Z4 & _). congruence.
  - intros i m' H. destruct (Nat.eq_dec i (cur it)) as [->|Ni]; [|destruct (B i m' H) as [->|(m & Hm)]].
    + rewrite NC in H. inversion H; subst m'. rewrite DD, last_snoc. reflexivity.
    + rewrite DF. congruence.
    + rewrite DO by eauto. destruct (K i m Hm) as (m1 & K1 & K2 & K3 & K4 & K5 & K6 & K7).
      assert (m1 = m') by congruence. subst m1. rewrite (proj2 (K6 Ni)). eapply W_last; eauto.
  - intros i m' H. destruct (Nat.eq_dec i (cur it)) as [->|Ni]; [|destruct (B i m' H) as [->|(m & Hm)]].
    + rewrite DD. apply NoDup_snoc; [eapply W_nodup; eauto|]. intros Q.
      destruct (D_in it D W (cur it) n _ E Q) as (_ & _ & _ & Q2). lia.
    + rewrite DF. constructor.
    + rewrite DO by eauto. eapply W_nodup; eauto.
  - intros i m' H. destruct (B i m' H) as [->|(m & Hm)].
    + rewrite NF in H. inversion H; subst m'. cbn. split; [discriminate|]. lia.
    + destruct (K i m Hm) as (m1 & K1 & K2 & _). assert (m1 = m') by congruence. subst m1. rewrite K2. eapply W_par0; eauto.
  - intros i m' p H Hp. destruct (B i m' H) as [->|(m & Hm)].
    + rewrite NF in H. inversion H; subst m'. cbn in Hp. inversion Hp; subst p. split; auto. split; eauto.
      rewrite DD. apply in_or_app. cbn. auto.
    + destruct (K i m Hm) as (m1 & K1 & K2 & _). assert (m1 = m') by congruence. subst m1. rewrite K2 in Hp.
      destruct (W_par it D W _ _ _ Hm Hp) as (Q1 & Q2 & np & Q3). split; auto.
      destruct (K _ _ Q3) as (np' & Q4 & _). split; eauto.
      destruct (Nat.eq_dec p (cur it)) as [->|Np].
      * rewrite DD. apply in_or_app. auto.
      * rewrite DO; auto. eauto.
  - intros i m' H. destruct (B i m' H) as [->|(m & Hm)].
    + rewrite NF in H. inversion H; subst m'. reflexivity.
    + destruct (K i m Hm) as (m1 & K1 & K2 & K3 & K4 & _). assert (m1 = m') by congruence. subst m1. rewrite K3, K4. eapply W_out; eauto.
  - intros i m' H. destruct (Nat.eq_dec i (cur it)) as [->|Ni]; [|destruct (B i m' H) as [->|(m & Hm)]].
    + rewrite NC in H. inversion H; subst m'. discriminate.
    + auto.
    + rewrite DO by eauto. destruct (K i m Hm) as (m1 & K1 & K2 & K3 & K4 & K5 & K6 & K7).
      assert (m1 = m') by congruence. subst m1. rewrite (proj2 (K6 Ni)). eapply W_first; eauto.
Qed.

Lemma append_ok : forall it D n inp, WF it -> WFD it D -> cells it (cur it) = Some n ->
  is_end (state n) = false -> (D (cur it) = [] -> last_dep n = None) ->
  exists it', append_dep it inp true = Ok (it', 0) /\ fresh it' = S (fresh it) /\ cur it' = cur it /\
    (forall j, cells it' j = appended_cell it D n inp j) /\
    WFD it' (appended_D it D) /\ WF it'.
Proof.
  intros it D n inp Wf W E Es HD.
  pose proof (W_live it D W _ _ E) as Lc.
  assert (X : exists it', append_dep it inp true = Ok (it', 0) /\ fresh it' = S (fresh it) /\ cur it' = cur it /\
    (forall j, cells it' j = appended_cell it D n inp j)).
  { unfold append_dep. unfold load at 1. rewrite E. cbn [bind]. rewrite Es. cbn [negb assert bind].
    pose proof (D_deps it D W _ _ E) as Hd.
    set (it1 := Iter _ _ _).
    assert (C1 : cells it1 (cur it) = Some n).
    { cbn. replace (Nat.eqb (cur it) (fresh it)) with false by lia. auto. }
    assert (F1 : cells it1 (fresh it) = Some (new_node (Some (cur it)) inp)) by (cbn; rewrite Nat.eqb_refl; auto).
    destruct (D (cur it)) as [|d r] eqn:ED; cbn [hd_error] in Hd; rewrite Hd.
    - rewrite (HD eq_refl). cbn [assert bind]. unfold list_insert_head. change (cur it1) with (cur it).
      unfold load at 1. rewrite C1. cbn [bind]. rewrite Hd.
      rewrite (store_ok _ _ _ _ F1). cbn [bind].
      rewrite (store_ok _ (cur it) n) by (cbn [set_cell cells]; replace (Nat.eqb (cur it) (fresh it)) with false by lia; exact C1).
      cbn [bind].
      rewrite (store_ok _ (fresh it) (w_next None (new_node (Some (cur it)) inp)))
        by (cbn [set_cell cells]; replace (Nat.eqb (fresh it) (cur it)) with false by lia; rewrite Nat.eqb_refl; reflexivity).
      cbn [bind]. change (cur (set_cell _ _ _)) with (cur it).
      rewrite (store_ok _ (cur it) (w_deps (Some (fresh it)) n))
        by (cbn [set_cell cells]; replace (Nat.eqb (cur it) (fresh it)) with false by lia; rewrite Nat.eqb_refl; reflexivity).
      cbn [bind]. eexists. split; [reflexivity|]. split; [reflexivity|]. split; [reflexivity|].
      intros j. unfold appended_cell. rewrite ED. cbn [set_cell cells it1].
      destruct (Nat.eqb j (cur it)) eqn:Ej.
      + replace (Nat.eqb j (fresh it)) with false by lia. reflexivity.
      + destruct (Nat.eqb j (fresh it)) eqn:Ef; reflexivity.
    - assert (Nn : D (cur it) <> []) by congruence.
      rewrite (W_last it D W _ _ E Nn). rewrite ED. set (l := last (d :: r) 0%nat).
      assert (Hl : In l (D (cur it))) by (rewrite ED; apply last_in; congruence).
      destruct (D_in it D W _ _ _ E Hl) as (nl & El & Epl & Hlt).
      assert (Nl : le_next nl = None).
      { pose proof (W_seg it D W _ _ E) as Sg. rewrite ED in Sg. clear - Sg El.
        assert (G : forall q pl f, q <> [] -> seg (cells it) (cur it) pl f q -> forall m, cells it (last q 0%nat) = Some m -> le_next m = None).
        { induction q as [|y q IH]; intros pl f Hq S m Hm; [congruence|]. cbn in S. destruct S as (_ & ny & Ey & _ & _ & S).
          destruct q as [|z q]; [cbn in *; congruence|]. eapply IH; [congruence|exact S|exact Hm]. }
        eapply G; [|exact Sg|exact El]. congruence. }
      unfold list_insert_after.
      assert (L1 : cells it1 l = Some nl) by (unfold it1; cbn [cells]; replace (Nat.eqb l (fresh it)) with false by lia; exact El).
      unfold load at 1. rewrite L1. cbn [bind]. rewrite Nl.
      rewrite (store_ok _ _ _ _ F1). cbn [bind].
      rewrite (store_ok _ l nl) by (cbn [set_cell cells]; replace (Nat.eqb l (fresh it)) with false by lia; exact L1).
      cbn [bind].
      rewrite (store_ok _ (fresh it) (w_next None (new_node (Some (cur it)) inp)))
        by (cbn [set_cell cells]; replace (Nat.eqb (fresh it) l) with false by lia; rewrite Nat.eqb_refl; reflexivity).
      cbn [bind]. change (cur (set_cell _ _ _)) with (cur it).
      rewrite (store_ok _ (cur it) n)
        by (cbn [set_cell cells]; replace (Nat.eqb (cur it) (fresh it)) with false by lia;
            replace (Nat.eqb (cur it) l) with false by lia; exact C1).
      cbn [bind]. eexists. split; [reflexivity|]. split; [reflexivity|]. split; [reflexivity|].
      intros j. unfold appended_cell. rewrite ED. cbn [set_cell cells it1]. fold l.
      destruct (Nat.eqb j (cur it)) eqn:Ej.
      + replace (Nat.eqb j (fresh it)) with false by lia. cbn [app hd_error].
        f_equal. destruct n; cbn in Hd |- *. rewrite Hd. reflexivity.
      + destruct (Nat.eqb j (fresh it)) eqn:Ef; [reflexivity|].
        destruct (Nat.eqb j l) eqn:Ejl; [|reflexivity]. assert (j = l) by lia. subst j. rewrite El. reflexivity. }
  destruct X as (it' & X1 & X2 & X3 & X4). exists it'.
  assert (W' : WFD it' (appended_D it D)) by (eapply append_WFD; eauto).
  repeat (split; [assumption|]). split; [eauto|].
  destruct Wf as [_ A]. rewrite X3. eapply anc_open_ext; [exact A| | |].
  - rewrite X4. unfold appended_cell. replace (Nat.eqb (cur it) (fresh it)) with false by lia. rewrite Nat.eqb_refl.
    eexists. split; [reflexivity|]. intros n0 H. cbn. congruence.
  - intros j n0 Hj H. rewrite X4. unfold appended_cell. replace (Nat.eqb j (fresh it)) with false by lia.
    replace (Nat.eqb j (cur it)) with false by lia. destruct (D (cur it)) as [|d r]; [eauto|].
    destruct (Nat.eqb j (last (d :: r) 0%nat)); [rewrite H; eexists; split; [reflexivity|]; split; reflexivity|eauto].
  - intros j n0 p0 H1 H2. exact (proj1 (W_par it D W _ _ _ H1 H2)).
Qed.
