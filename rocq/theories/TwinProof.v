(** Structures that say the same on every way are equal. *)
From Coq Require Import ZArith String List Bool Lia ZifyBool.
From Verif Require Import Base BaseProof EntryModel EntrySpec EntryProof ValueModel ValueSpec ValueProof ValueProof2 DeepModel DeepSpec DeepProof DeepProof2 DeepProof3 DeepProof4 DeepProof5 DeepProof8 CopySpec CopyProof MoveSpec MoveProof MoveProof2 MoveProof3 MoveProof4 TwinSpec.
Import ListNotations.
Open Scope Z_scope.

Section Twin.
Variable E : env.
Variable M : mode.
Notation d := (en_db E).
Variable m : mem.
Variable v : value.
Variable m' : mem.
Variable v' : value.
Hypothesis MR : mirrored E M m v m' v'.
Hypothesis TV : traversable E M m v.
Hypothesis NV : mo_uptr M <> UPTR_as_values.
Notation beside := (beside E M m v m' v').

Lemma beside_reaches : forall anc x anc' x', beside anc x anc' x' -> reaches E M m v anc x.
Proof. intros anc x anc' x' H. induction H; [apply re_here|eapply re_node; eassumption|eapply re_ptr; eassumption]. Qed.
Lemma beside_type : forall anc x anc' x', beside anc x anc' x' -> same_type d x x'.
Proof. intros anc x anc' x' H. inversion H; subst; [exact (mr_type _ _ _ _ _ _ MR)|apply type_rebase|apply type_rebase]. Qed.
Lemma beside_length : forall anc x anc' x', beside anc x anc' x' -> length anc = length anc'.
Proof. intros anc x anc' x' H. induction H; cbn; congruence. Qed.
(** a value above on the way *)
Lemma beside_above : forall anc x anc' x', beside anc x anc' x' -> forall i a a', nth_error anc i = Some a -> nth_error anc' i = Some a' ->
  exists up up', anc = firstn i anc ++ a :: up /\ anc' = firstn i anc' ++ a' :: up' /\ beside up a up' a' /\ ((exists sz ch, looks E M m up a (VNode sz ch)) \/ exists sz w, looks E M m up a (VPtr sz w)).
Proof.
  intros anc x anc' x' H. induction H as [|anc x anc' x' sz ch c H IH L I|anc x anc' x' sz w H IH L]; intros [|i] a a' Q Q'; try discriminate; cbn in Q, Q'.
  - injection Q as <-. injection Q' as <-. exists anc, anc'. cbn. split; [reflexivity|]. split; [reflexivity|]. split; [exact H|]. left. eauto.
  - destruct (IH _ _ _ Q Q') as [up [up' [U1 [U2 [U3 U4]]]]]. exists up, up'. cbn. split; [f_equal; exact U1|]. split; [f_equal; exact U2|]. auto.
  - injection Q as <-. injection Q' as <-. exists anc, anc'. cbn. split; [reflexivity|]. split; [reflexivity|]. split; [exact H|]. right. eauto.
  - destruct (IH _ _ _ Q Q') as [up [up' [U1 [U2 [U3 U4]]]]]. exists up, up'. cbn. split; [f_equal; exact U1|]. split; [f_equal; exact U2|]. auto.
Qed.
Lemma node_not_pointer : forall m anc x sz ch t, looks E M m anc x (VNode sz ch) -> has_info d x (IPointer t) -> False.
Proof. intros m1 anc x sz ch t L H. destruct (node_info _ _ _ _ _ _ _ L) as [i [I K]]. pose proof (has_info_fun _ _ _ _ I H) as ->. contradiction. Qed.
Lemma beside_loop : forall anc x anc' x' t p sz l, beside anc x anc' x' -> points d m x t p -> looks E M m anc x (VLoop sz l) -> loop_at d m anc p l ->
  loop_at d m' anc' (number_at m' (v_addr x') 8) l /\ number_at m' (v_addr x') 8 <> 0.
Proof.
  intros anc x anc' x' t p sz l B P L LA. destruct (mr_loop _ _ _ _ _ _ MR _ _ _ _ _ _ B L) as [a' [L0 [A' Q]]].
  destruct LA as [pre [a [post [ta [-> [-> [Pa NP]]]]]]].
  replace (Z.to_nat (Z.of_nat (length pre) + 1 - 1)) with (length pre) in A' by lia.
  assert (A0 : nth_error (pre ++ a :: post) (length pre) = Some a) by (rewrite nth_error_app2, Nat.sub_diag by lia; reflexivity).
  destruct (beside_above _ _ _ _ B _ _ _ A0 A') as [up [up' [U1 [U2 [U3 U4]]]]].
  rewrite firstn_app, Nat.sub_diag, firstn_all in U1. cbn [firstn] in U1. rewrite app_nil_r in U1. apply app_inv_head in U1. injection U1 as <-.
  destruct U4 as [[sz0 [ch0 La]]|[sz0 [w0 La]]]; [exfalso; eapply node_not_pointer; [exact La|eapply points_info; exact Pa]|].
  destruct (mr_ptr _ _ _ _ _ _ MR _ _ _ _ _ _ U3 La) as [NZ NLa].
  split; [|rewrite Q; exact NZ].
  assert (Ln : length (firstn (length pre) anc') = length pre) by (apply firstn_length_le; apply beside_length in B; rewrite app_length in B; cbn in B; lia).
  exists (firstn (length pre) anc'), a', up', ta. split; [exact U2|]. split; [rewrite Ln; reflexivity|]. split.
  - split; [|exact Q]. exact (type_info _ _ _ _ (beside_type _ _ _ _ U3) (points_info _ _ _ _ _ Pa)).
  - intros b' t' Ib Pb. apply In_nth_error in Ib. destruct Ib as [j Jb].
    assert (Jl : (j < length pre)%nat) by (rewrite <- Ln; apply nth_error_Some; rewrite Jb; discriminate).
    assert (Jb' : nth_error anc' j = Some b') by (rewrite U2, nth_error_app1 by lia; exact Jb).
    destruct (nth_error pre j) as [b|] eqn:Jp; [|apply nth_error_None in Jp; lia].
    assert (Jp' : nth_error (pre ++ a :: post) j = Some b) by (rewrite nth_error_app1 by lia; exact Jp).
    destruct (beside_above _ _ _ _ B _ _ _ Jp' Jb') as [ub [ub' [W1 [W2 [W3 W4]]]]].
    pose proof (type_info_back _ _ _ _ (beside_type _ _ _ _ W3) (points_info _ _ _ _ _ Pb)) as Hb.
    destruct W4 as [[sz1 [ch1 Lb]]|[sz1 [w1 Lb]]]; [exact (node_not_pointer _ _ _ _ _ _ Lb Hb)|].
    destruct (mr_ptr _ _ _ _ _ _ MR _ _ _ _ _ _ W3 Lb) as [_ NLb]. apply (NLb a' ta).
    + assert (nth_error (b' :: ub') (length pre - j) = Some a').
      { rewrite W2 in A'. rewrite nth_error_app2 in A' by (rewrite firstn_length; lia). rewrite firstn_length_le in A' by (apply beside_length in B; rewrite app_length in B; cbn in B; lia). exact A'. }
      destruct (length pre - j)%nat as [|q] eqn:Jq; [lia|]. cbn in H. eapply nth_error_In; exact H.
    + destruct Pb as [_ Pb]. rewrite <- Pb. split; [|exact Q]. exact (type_info _ _ _ _ (beside_type _ _ _ _ U3) (points_info _ _ _ _ _ Pa)).
Qed.

Definition view_twin (x x' : value) (w w' : view) : Prop :=
  match w with
  | VFail => False
  | VLeaf sz => w' = VLeaf sz
  | VLoop sz l => w' = VLoop sz l
  | VNode sz ch => w' = VNode sz (map (fun y => rebase y (v_addr x) (v_addr x')) ch)
  | VPtr sz t => w' = VPtr sz (rebase t (number_at m (v_addr x) 8) (number_at m' (v_addr x') 8))
  | VCall _ => False
  end.
Lemma looks_twin : forall anc x anc' x' w, beside anc x anc' x' -> looks E M m anc x w ->
  (forall sz ch, w = VNode sz ch -> forall y, In y ch -> 0 < v_addr y + (v_addr x' - v_addr x) < 2 ^ 64) ->
  exists w', looks E M m' anc' x' w' /\ view_twin x x' w w'.
Proof.
  intros anc x anc' x' w B L SH. pose proof (beside_type _ _ _ _ B) as T. pose proof (beside_reaches _ _ _ _ B) as S.
  destruct (mr_answers _ _ _ _ _ _ MR _ _ _ _ B) as [HN [HS HP]].
  pose proof (fun i => type_info d x x' i T) as TI. pose proof (fun i z => type_size d x x' i z T) as TS.
  assert (PP : forall t p, points d m x t p -> points d m' x' t (number_at m' (v_addr x') 8)).
  { intros t p P. split; [|reflexivity]. apply TI. eapply points_info; exact P. }
  pose proof L as L0.
  inversion L as [sz i I K Sz|sz t P Sz|sz t p P NZ NL O HD U Sz|sz t p l P NZ LA Sz|sz p w2 TG NL Sz|sz l z ch I FM Sz|sz l z ch I K Sz|sz t c ch w2 I K EA Sz|t c w2 I C HD NA|i l I K C H]; subst.
  - exists (VLeaf sz). split; [|reflexivity]. eapply lk_scalar; eauto.
  - exists (VLeaf sz). split; [|reflexivity]. eapply lk_null; [|eapply TS; [eapply points_info; exact P|exact Sz]].
    pose proof (PP _ _ P) as P'. rewrite (mr_null _ _ _ _ _ _ MR _ _ _ _ _ B P) in P'. exact P'.
  - exists (VLeaf sz). split; [|reflexivity]. destruct (Z.eq_dec (number_at m' (v_addr x') 8) 0) as [Q|NZ'].
    + eapply lk_null; [|eapply TS; [eapply points_info; exact P|exact Sz]]. pose proof (PP _ _ P) as P'. rewrite Q in P'. exact P'.
    + destruct (mr_opaque _ _ _ _ _ _ MR _ _ _ _ _ _ _ B P NZ L0) as [Q|NL']; [contradiction|].
      eapply lk_opaque; [exact (PP _ _ P)|exact NZ'|exact NL'|exact O|apply HN; exact HD|exact U|eapply TS; [eapply points_info; exact P|exact Sz]].
  - exists (VLoop sz l). split; [|reflexivity]. destruct (beside_loop _ _ _ _ _ _ _ _ B P L0 LA) as [LA' NZ'].
    eapply lk_loop; [exact (PP _ _ P)|exact NZ'|exact LA'|eapply TS; [eapply points_info; exact P|exact Sz]].
  - destruct (target_points _ _ _ _ _ _ _ TG) as [NZ [t P]]. destruct (mr_ptr _ _ _ _ _ _ MR _ _ _ _ _ _ B L0) as [NZ' NL'].
    eexists. split; [|reflexivity]. pose proof (PP _ _ P) as P'. pose proof P as [_ P0]. rewrite <- P0.
    rewrite <- P0 in HP. set (p' := number_at m' (v_addr x') 8) in *. clearbody p'. clear P0.
    eapply lk_target; [|exact NL'|eapply TS; [eapply points_info; exact P|exact Sz]].
    inversion TG as [t' w3 P2 _ HD IA|t' P2 _ HD O|t' P2 _ HD O U]; destruct (points_fun _ _ _ _ _ _ _ P P2) as [Qt _]; subst.
    + eapply tg_handled; [exact P'|exact NZ'| |]; [|exact IA]. exact (HP _ HD).
    + replace (rebase (array_at t' 1 p) p p') with (array_at t' 1 p') by (unfold rebase, array_at; cbn; f_equal; lia). eapply tg_typed; [exact P'|exact NZ'|apply HN; exact HD|exact O].
    + replace (rebase (array_at (en_uchar E) 1 p) p p') with (array_at (en_uchar E) 1 p') by (unfold rebase, array_at; cbn; f_equal; lia). eapply tg_byte; [exact P'|exact NZ'|apply HN; exact HD|exact O|exact U].
  - eexists. split; [|reflexivity]. eapply lk_struct; [apply TI; exact I| |eapply TS; [exact I|exact Sz]].
    specialize (SH _ _ eq_refl). clear - FM SH. induction FM as [|a y l ch MI FM IH]; cbn; constructor; [|apply IH; intros; apply SH; right; assumption].
    destruct MI as [mi [I1 [-> I3]]]. exists mi. split; [exact I1|]. specialize (SH _ (or_introl eq_refl)). cbn [v_addr] in SH. unfold rebase. cbn [v_addr v_entry]. split; [|lia].
    f_equal. replace (v_addr x' + m_byte_offset mi) with (v_addr x + (v_addr x' - v_addr x) + m_byte_offset mi) by lia. rewrite (mod_shift _ _ _ _ eq_refl) by lia. lia.
  - eexists. split; [|reflexivity]. eapply lk_union; [apply TI; exact I| |eapply TS; [exact I|exact Sz]].
    destruct K as [[-> [-> |[HD U]]]|[w [-> [NE HD]]]].
    + left. auto.
    + left. split; [reflexivity|]. right. split; [apply HN; exact HD|exact U].
    + right. eexists. split; [reflexivity|]. split; [exact NE|]. apply HS; [discriminate|exact HD].
  - eexists. split; [|reflexivity]. pose proof EA as [t2 [c2 [I2 [EL EE]]]]. specialize (SH _ _ eq_refl).
    assert (W : exists w', (int_of c <> -1 /\ w' = x' \/ int_of c = -1 /\ (en_handler E m' RQVST_flex_array_count (x' :: anc') = Ret (0, Some w')
                         \/ en_handler E m' RQVST_flex_array_count (x' :: anc') = Ret (0, None) /\ mo_flx M = FLXARR_ignore /\
                            exists r, t = Some r /\ w' = array_at r 0 (v_addr x'))) /\ same_type d w2 w' /\ v_addr w' = v_addr w2 + (v_addr x' - v_addr x)).
    { destruct K as [[C ->]|[C [HD|[HD [MF [r0 [-> ->]]]]]]].
      - exists x'. split; [left; split; [exact C|reflexivity]|]. split; [exact T|lia].
      - exists (rebase w2 (v_addr x) (v_addr x')). split; [|split; [apply type_rebase|cbn; lia]]. right. split; [exact C|]. left. apply HS; [discriminate|exact HD].
      - exists (array_at r0 0 (v_addr x')). split; [|split; [split; [intro; reflexivity|intro X; exact X]|cbn; lia]]. right. split; [exact C|]. right. split; [apply HN; exact HD|]. split; [exact MF|]. exists r0. auto. }
    destruct W as [w' [W1 [W2 W3]]]. eapply lk_array; [apply TI; exact I|exact W1| |].
    + exists t2, c2. split; [eapply type_info; eassumption|]. split; [rewrite map_length; exact EL|]. intros NE. destruct EE as [r0 [z [E1 [E2 E3]]]]; [intros ->; apply NE; reflexivity|].
      exists r0, z. split; [exact E1|]. split; [exact E2|]. intros i y Y. rewrite nth_error_map in Y. destruct (nth_error ch i) as [y0|] eqn:Y0; [|discriminate]. cbn in Y. injection Y as <-.
      pose proof (E3 _ _ Y0) as [Q NZ]. specialize (SH _ (nth_error_In _ _ Y0)). split; [|unfold rebase; cbn; lia].
      unfold rebase. rewrite Q in SH |- *. cbn [v_addr v_entry] in *. f_equal. rewrite W3. rewrite (mod_shift _ _ _ _ eq_refl) by lia. lia.
    + destruct ch as [|y ch]; [exact Sz|]. cbn [map]. eapply type_size; [exact W2|exact I2|exact Sz].
  - eexists. split; [|reflexivity]. eapply lk_flex_other; [apply TI; exact I|exact C|apply HS; [discriminate|exact HD]|]. exact NA.
  - destruct (tv_data _ _ _ _ TV _ _ _ S I K).
Qed.
End Twin.
