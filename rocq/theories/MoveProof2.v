(** The traversal of moved data finds the moved parts. *)
From Coq Require Import ZArith String List Bool Lia ZifyBool.
From Verif Require Import Base BaseProof EntryModel EntrySpec EntryProof ValueModel ValueSpec ValueProof ValueProof2 DeepModel DeepSpec DeepProof DeepProof2 DeepProof3 DeepProof4 DeepProof5 DeepProof8 CopySpec CopyProof MoveSpec MoveProof.
Import ListNotations.
Open Scope Z_scope.

Lemma type_info : forall d x y i, same_type d x y -> has_info d x i -> has_info d y i.
Proof. intros d x y i [T _] [e [F I]]. exists e. split; [apply T; exact F|exact I]. Qed.
Lemma type_info_back : forall d x y i, same_type d x y -> has_info d y i -> has_info d x i.
Proof. intros d x y i [T _] [e [F I]]. exists e. split; [apply T; exact F|exact I]. Qed.
Lemma type_size : forall d x y i z, same_type d x y -> has_info d x i -> size_of d x z -> size_of d y z.
Proof.
  intros d x y i z [T _] [e [F _]] [w [S ->]]. pose proof (proj1 (T _) F) as [qs' F']. destruct F as [qs F].
  exists w. split; [|reflexivity]. apply (size_of_final _ _ _ _ F'). apply (size_of_final _ _ _ _ F). exact S.
Qed.
Lemma type_rebase : forall d w a a', same_type d w (rebase w a a').
Proof. intros. split; [intro; reflexivity|intro P; exact P]. Qed.
Lemma mod_shift : forall a k y s, (a + k) mod 2 ^ 64 = y -> 0 <= y + s < 2 ^ 64 -> (a + s + k) mod 2 ^ 64 = y + s.
Proof.
  intros a k y s H R. replace (a + s + k) with (a + k + s) by lia. rewrite <- Zplus_mod_idemp_l, H. apply Z.mod_small. exact R.
Qed.

Lemma forall2_length : forall {A B} (P : A -> B -> Prop) l l', Forall2 P l l' -> length l = length l'.
Proof. intros A B P l l' F. induction F; cbn; congruence. Qed.

Section Move.
Variable E : env.
Variable M : mode.
Notation d := (en_db E).
Variable m : mem.
Variable v : value.
Variable m' : mem.
Variable v' : value.
Variable R : list region.
Hypothesis RL : relocated E M m v m' v' R.
Hypothesis MV : movable E M m v.
Hypothesis NV : mo_uptr M <> UPTR_as_values.

Definition link (x x' : value) : Prop :=
  same_type d x x' /\ exists anc r, sees E M m v anc x /\ In r R /\ (forall t p, points d m x t p -> in_region r (v_addr x) 8) /\
    r_src r <= v_addr x <= r_src r + r_size r /\ v_addr x' = moved r (v_addr x).
Definition went (p p' : Z) : Prop := p = 0 /\ p' = 0 \/ p <> 0 /\ p' <> 0 /\ exists q, In q R /\ r_src q <= p < r_src q + r_size q /\ p' = moved q p.
Lemma went_inj : forall p p' q q', went p p' -> went q q' -> (p = q <-> p' = q').
Proof.
  intros p p' q q' [[-> ->]|[P1 [P2 [r [Ir [Rr Q]]]]]] [[-> ->]|[P3 [P4 [r2 [Ir2 [Rr2 Q2]]]]]]; try lia. split.
  - intros <-. rewrite Q, Q2. f_equal. eapply region_eq; [exact (rl_src _ _ _ _ _ _ _ RL)|exact Ir|exact Ir2|exact Rr|exact Rr2].
  - intros Q3. rewrite Q, Q2 in Q3. eapply (moved_inj R (rl_dst _ _ _ _ _ _ _ RL) r r2 p q); eassumption.
Qed.
Lemma link_points : forall x x' t p, link x x' -> points d m x t p -> exists p', points d m' x' t p' /\ went p p'.
Proof.
  intros x x' t p [T [anc [r [S [Ir [Rr [Rb Q]]]]]]] P. exists (number_at m' (v_addr x') 8). split.
  - split; [|reflexivity]. exact (type_info _ _ _ _ T (points_info _ _ _ _ _ P)).
  - destruct (Z.eq_dec p 0) as [-> |NZ].
    + left. split; [reflexivity|]. rewrite Q. eapply (rl_null _ _ _ _ _ _ _ RL); eauto.
    + right. split; [exact NZ|]. rewrite Q. destruct (rl_pointer _ _ _ _ _ _ _ RL anc x t p r S P NZ Ir (Rr _ _ P)) as [q [Iq [Rq Qq]]]. rewrite Qq.
      split; [|exists q; auto]. unfold moved. destruct (rl_fits _ _ _ _ _ _ _ RL q Iq). lia.
Qed.
Lemma link_points_back : forall x x' t p', link x x' -> points d m' x' t p' -> exists p, points d m x t p /\ went p p'.
Proof.
  intros x x' t p' L P. pose proof L as [T _].
  assert (P0 : points d m x t (number_at m (v_addr x) 8)).
  { split; [|reflexivity]. exact (type_info_back _ _ _ _ T (points_info _ _ _ _ _ P)). }
  destruct (link_points _ _ _ _ L P0) as [p2 [P2 W]]. destruct (points_fun _ _ _ _ _ _ _ P P2) as [_ <-]. exists (number_at m (v_addr x) 8). split; assumption.
Qed.
Lemma move_no_loop : forall anc anc' p p', Forall2 link anc anc' -> went p p' -> no_loop d m anc p -> no_loop d m' anc' p'.
Proof.
  intros anc anc' p p' F W H. induction F as [|a a' anc anc' L F IH]; intros b t I P; [destruct I|]. destruct I as [<-|I].
  - destruct (link_points_back _ _ _ _ L P) as [p2 [P2 W2]]. assert (p2 = p) by (apply (went_inj _ _ _ _ W2 W); reflexivity). subst p2.
    apply (H a t); [left; reflexivity|exact P2].
  - eapply IH; [|exact I|exact P]. intros c t' Ic. apply H. right. exact Ic.
Qed.
Lemma move_loop : forall anc anc' p p' l, Forall2 link anc anc' -> went p p' -> loop_at d m anc p l -> loop_at d m' anc' p' l.
Proof.
  intros anc anc' p p' l F W [pre [a [post [t [-> [-> [P NP]]]]]]].
  apply Forall2_app_inv_l in F. destruct F as [pre' [l2 [F1 [F2 ->]]]]. inversion F2 as [|? a' ? post' La Fp]; subst.
  exists pre', a', post', t. split; [reflexivity|]. split; [rewrite (forall2_length _ _ _ F1); reflexivity|].
  destruct (link_points _ _ _ _ La P) as [p2 [P2 W2]]. assert (p2 = p') by (apply (went_inj _ _ _ _ W2 W); reflexivity). subst p2. split; [exact P2|].
  intros b t' I. exact (move_no_loop pre pre' p p' F1 W (fun c t2 Ic => NP c t2 Ic) b t' I).
Qed.
Lemma link_counter : forall x x', link x x' -> counterpart d R x x'.
Proof. intros x x' [T [anc [r [S [Ir [_ [Rb Q]]]]]]]. split; [exact T|]. exists r. auto. Qed.

(** the view of the moved value *)
Definition view_moved (x x' : value) (w : view) (w' : view) : Prop :=
  match w with
  | VFail => False
  | VLeaf sz => w' = VLeaf sz
  | VLoop sz l => w' = VLoop sz l
  | VNode sz ch => w' = VNode sz (map (fun y => rebase y (v_addr x) (v_addr x')) ch)
  | VPtr sz t => exists p q, (exists ty, points d m x ty p) /\ p <> 0 /\ In q R /\ r_src q <= p < r_src q + r_size q /\ w' = VPtr sz (rebase t p (moved q p))
  | VCall _ => False
  end.
Lemma looks_move : forall anc x anc' x' w r, sees E M m v anc x -> Forall2 link (x :: anc) (x' :: anc') -> looks E M m anc x w ->
  In r R -> v_addr x' = moved r (v_addr x) ->
  (forall sz ch, w = VNode sz ch -> forall y, In y ch -> r_src r <= v_addr y <= r_src r + r_size r) ->
  exists w', looks E M m' anc' x' w' /\ view_moved x x' w w'.
Proof.
  intros anc x anc' x' w r S F L Ir A RG. inversion F as [|? ? ? ? Lx Fa]; subst. pose proof Lx as [T _].
  assert (CF : Forall2 (counterpart d R) (x :: anc) (x' :: anc')).
  { clear - F. induction F as [|a a' l l' H F IH]; constructor; [apply link_counter; exact H|exact IH]. }
  destruct (rl_answers _ _ _ _ _ _ _ RL _ _ _ _ S CF) as [HN [HS HP]]. clear CF.
  pose proof (fun i => type_info d x x' i T) as TI. pose proof (fun i z => type_size d x x' i z T) as TS.
  pose proof (rl_fits _ _ _ _ _ _ _ RL r Ir) as RF.
  assert (SH : forall y, r_src r <= v_addr y <= r_src r + r_size r -> 0 < v_addr y + (v_addr x' - v_addr x) < 2 ^ 64) by (intros y Y; rewrite A; unfold moved; lia).
  inversion L as [sz i I K Sz|sz t P Sz|sz t p P NZ NL O HD U Sz|sz t p l P NZ LA Sz|sz p w2 TG NL Sz|sz l z ch I FM Sz|sz l z ch I K Sz|sz t c ch w2 I K EA Sz|t c w2 I C HD NA|i l I K C H]; subst.
  - exists (VLeaf sz). split; [|reflexivity]. eapply lk_scalar; eauto.
  - destruct (link_points _ _ _ _ Lx P) as [p' [P' [[_ ->]|[Q _]]]]; [|congruence]. exists (VLeaf sz). split; [|reflexivity]. eapply lk_null; [exact P'|]. eapply TS; [eapply points_info; exact P|exact Sz].
  - exfalso. destruct U as [U|U]; [|congruence]. eapply (mv_opaque _ _ _ _ MV); eauto.
  - destruct (link_points _ _ _ _ Lx P) as [p' [P' W]]. exists (VLoop sz l). split; [|reflexivity]. eapply lk_loop; [exact P'| | |eapply TS; [eapply points_info; exact P|exact Sz]].
    + destruct W as [[Q _]|[_ [Q _]]]; congruence.
    + eapply move_loop; eassumption.
  - destruct (target_points _ _ _ _ _ _ _ TG) as [NZ [t P]]. destruct (link_points _ _ _ _ Lx P) as [p' [P' W]].
    pose proof W as [[Q _]|[_ [NZ' [q [Iq [Rq Q]]]]]]; [congruence|]. exists (VPtr sz (rebase w2 p p')).
    split; [|exists p, q; split; [exists t; exact P|]; split; [exact NZ|]; split; [exact Iq|]; split; [exact Rq|]; rewrite Q; reflexivity].
    eapply lk_target; [|eapply move_no_loop; eassumption|eapply TS; [eapply points_info; exact P|exact Sz]].
    inversion TG as [t' w3 P2 _ HD IA|t' P2 _ HD O|t' P2 _ HD O U]; destruct (points_fun _ _ _ _ _ _ _ P P2) as [Qt _]; clear Q; subst.
    + eapply tg_handled; [exact P'|exact NZ'| |]; [|exact IA]. rewrite (HP _ HD). destruct P as [_ P0], P' as [_ P0']. rewrite <- P0, <- P0'. reflexivity.
    + replace (rebase (array_at t' 1 p) p p') with (array_at t' 1 p') by (unfold rebase, array_at; cbn; f_equal; lia). eapply tg_typed; [exact P'|exact NZ'|apply HN; exact HD|exact O].
    + replace (rebase (array_at (en_uchar E) 1 p) p p') with (array_at (en_uchar E) 1 p') by (unfold rebase, array_at; cbn; f_equal; lia). eapply tg_byte; [exact P'|exact NZ'|apply HN; exact HD|exact O|exact U].
  - eexists. split; [|reflexivity]. eapply lk_struct; [apply TI; exact I| |eapply TS; [exact I|exact Sz]].
    specialize (RG _ _ eq_refl). clear - FM RG SH. induction FM as [|a y l ch MI FM IH]; cbn; constructor; [|apply IH; intros; apply RG; right; assumption].
    destruct MI as [mi [I1 [-> I3]]]. exists mi. split; [exact I1|]. specialize (SH _ (RG _ (or_introl eq_refl))). cbn [v_addr] in SH. unfold rebase. cbn [v_addr v_entry]. split; [|lia].
    f_equal. replace (v_addr x' + m_byte_offset mi) with (v_addr x + (v_addr x' - v_addr x) + m_byte_offset mi) by lia. rewrite (mod_shift _ _ _ _ eq_refl) by lia. lia.
  - eexists. split; [|reflexivity]. eapply lk_union; [apply TI; exact I| |eapply TS; [exact I|exact Sz]].
    destruct K as [[-> [-> |[HD U]]]|[w [-> [NE HD]]]].
    + left. auto.
    + left. split; [reflexivity|]. right. split; [apply HN; exact HD|exact U].
    + right. eexists. split; [reflexivity|]. split; [exact NE|]. apply HS; [discriminate|exact HD].
  - eexists. split; [|reflexivity]. pose proof EA as [t2 [c2 [I2 [EL EE]]]]. specialize (RG _ _ eq_refl).
    assert (W : exists w', (int_of c <> -1 /\ w' = x' \/ int_of c = -1 /\ (en_handler E m' RQVST_flex_array_count (x' :: anc') = Ret (0, Some w')
                         \/ en_handler E m' RQVST_flex_array_count (x' :: anc') = Ret (0, None) /\ mo_flx M = FLXARR_ignore /\
                            exists r, t = Some r /\ w' = array_at r 0 (v_addr x'))) /\ same_type d w2 w' /\ v_addr w' = v_addr w2 + (v_addr x' - v_addr x)).
    { destruct K as [[C ->]|[C [HD|[HD [MF [r0 [-> ->]]]]]]].
      - exists x'. split; [left; split; [exact C|reflexivity]|]. split; [exact T|lia].
      - exists (rebase w2 (v_addr x) (v_addr x')). split; [|split; [apply type_rebase|cbn; lia]]. right. split; [exact C|]. left. apply HS; [discriminate|exact HD].
      - exists (array_at r0 0 (v_addr x')). split; [|split; [split; [intro; reflexivity|intro X; exact X]|cbn; lia]]. right. split; [exact C|]. right. split; [apply HN; exact HD|]. split; [exact MF|]. exists r0. auto. }
    destruct W as [w' [W1 [W2 W3]]]. eapply lk_array; [apply TI; exact I|exact W1| |].
    + exists t2, c2. split; [eapply type_info; eassumption|]. split; [rewrite map_length; exact EL|]. intros NE. destruct EE as [r0 [z [E1 [E2 E3]]]]; [intros ->; apply NE; reflexivity|].
      exists r0, z. split; [exact E1|]. split; [exact E2|]. intros i y Y. rewrite nth_error_map in Y. destruct (nth_error ch i) as [y0|] eqn:Y0; [|discriminate]. cbn in Y. injection Y as <-.
      pose proof (E3 _ _ Y0) as [Q NZ]. specialize (SH _ (RG _ (nth_error_In _ _ Y0))). split; [|unfold rebase; cbn; lia].
      unfold rebase. rewrite Q in SH |- *. cbn [v_addr v_entry] in *. f_equal. rewrite W3. rewrite (mod_shift _ _ _ _ eq_refl) by lia. lia.
    + destruct ch as [|y ch]; [exact Sz|]. cbn [map]. eapply type_size; [exact W2|exact I2|exact Sz].
  - eexists. split; [|reflexivity]. eapply lk_flex_other; [apply TI; exact I|exact C|apply HS; [discriminate|exact HD]|]. exact NA.
  - destruct (mv_data _ _ _ _ MV _ _ _ S I K).
Qed.
End Move.
