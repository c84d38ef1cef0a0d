(** Allocations of deep copy. *)
From Coq Require Import ZArith String List Bool Permutation Lia.
From Verif Require Import Base BaseProof EntryModel EntrySpec EntryProof ValueModel ValueSpec ValueProof2 DeepModel DeepSpec DeepProof DeepProof2 DeepProof3 DeepProof4 DeepProof5 DeepProof6.
Import ListNotations.
Open Scope Z_scope.
Local Open Scope res_scope.

Lemma live_app : forall l1 l2 l, live_from l (l1 ++ l2) = match live_from l l1 with Some l' => live_from l' l2 | None => None end.
Proof.
  induction l1 as [|[a z|a|a] l1 IH]; intros l2 l; cbn [live_from app]; [reflexivity|apply IH| |reflexivity].
  destruct (remove_one a l); [apply IH|reflexivity].
Qed.
Lemma remove_one_in : forall a l, In a l -> exists l', remove_one a l = Some l' /\ forall b, In b l' -> In b l.
Proof.
  intros a l. induction l as [|b l IH]; intros []; cbn.
  - subst. rewrite Z.eqb_refl. exists l. auto.
  - destruct (a =? b) eqn:Q; [exists l; auto|]. destruct (IH H) as [l' [-> K]]. exists (b :: l'). cbn. split; [reflexivity|]. intros x [->|X]; auto.
Qed.

Section A.
Variable E : env.
Variable M : mode.
Variable cal : nat -> Z -> Z.
Hypothesis Dag : mo_tree M = false.
Lemma child_block_log : forall off tab c s a s', child_block M cal off tab c s = (a, s') -> s' = s.
Proof. intros off tab c s a s'. unfold child_block. rewrite Dag. cbv zeta. destruct (negb _); congruence. Qed.
Lemma copy_here_log : forall off tab anc e dst s h s', copy_here E M cal off tab anc e dst s = Ret (h, s') -> c_log s' = c_log s.
Proof.
  intros off tab anc e dst s h s' H. unfold copy_here in H. apply bind_ret in H. destruct H as [f [_ H]]. cbv zeta in H.
  assert (K : forall (x : res (bool * mem)), (do r <- x; Ret (if fst r then Some None else None : option (option Z), with_mem s (snd r))) = Ret (h, s') -> c_log s' = c_log s).
  { intros x X. apply bind_ret in X. destruct X as [r [_ X]]. injection X as <- <-. reflexivity. }
  assert (Q : forall (x : option (option Z)), Ret (x, s) = Ret (h, s') -> c_log s' = c_log s) by (intros x X; congruence).
  destruct f as [[ | | | | | | | |[]| | | | | ]|]; try (exact (Q _ H)); try (exact (K _ H)).
  - destruct (me_ch e) as [|c r].
    + destruct (0 <? me_loop e).
      * destruct (nth_error _ _); [|exact (Q _ H)]. apply bind_ret in H. destruct H as [[|] [_ H]]; [exact (K _ H)|discriminate].
      * destruct (mo_uptr M); try (exact (Q _ H)); [|exact (K _ H)]. apply bind_ret in H. destruct H as [r [_ H]]. injection H as <- <-. reflexivity.
    + destruct (child_block M cal off tab c s) as [a s1] eqn:Cb. apply child_block_log in Cb. subst s1.
      destruct (a =? 0); [exact (Q _ H)|]. apply bind_ret in H. destruct H as [[x|p] [_ H]]; [discriminate|].
      destruct (p =? 0); [discriminate|]. apply bind_ret in H. destruct H as [r' [_ H]]. injection H as <- <-. reflexivity.
  - destruct (me_ch e); [|exact (Q _ H)]. destruct (mo_union M); try (exact (Q _ H));
      (destruct (0 <? me_size e); [injection H as <- <-; reflexivity|exact (Q _ H)]).
Qed.
Lemma storage_log : forall e dst s s', storage_copy E e dst s = Ret s' -> c_log s' = c_log s.
Proof.
  intro e. induction e as [i v sz l ch F] using ment_ind2. intros dst s s' H. rewrite storage_copy_eq in H. cbn [me_ch] in H. revert s H.
  induction F as [|a ch P F IH]; intros s H; [cbn in H; congruence|]. cbn [store_list] in H. cbv zeta in H.
  assert (K : bind (byte_size (en_fuel E) (en_db E) (Some (v_entry (me_val a)))) (fun z => match z with
        | inr _ => Abort
        | inl sz => if sz =? 0 then Abort else store_list E dst ch (append_item E s dst (v_entry (me_val a)) (copy_bytes (c_mem s) (v_addr (me_val a)) (zero_fill (c_mem s) (en_buf E (c_bufs s)) sz) (en_buf E (c_bufs s)) sz))
        end) = Ret s' -> c_log s' = c_log s).
  { intro K. apply bind_ret in K. destruct K as [[z|z] [_ K]]; [|discriminate]. destruct (z =? 0); [discriminate|]. apply IH in K. exact K. }
  destruct (e_info _) as [ | | | | | | | | | |[|] ?| | | ]; try exact (K H). apply bind_ret in H. destruct H as [s1 [H1 H]].
  apply P in H1. apply IH in H. rewrite H, H1. reflexivity.
Qed.
Lemma copy_tree_log : forall off tab e anc dst s b s', copy_tree E M cal off tab anc e dst s = Ret (b, s') -> c_log s' = c_log s.
Proof.
  intros off tab e. induction e as [i v sz l ch F] using ment_ind2. intros anc dst s b s' H. rewrite copy_tree_eq in H.
  apply bind_ret in H. destruct H as [f [_ H]].
  destruct (match f with Some i => is_call_info i | None => false end).
  { destruct (c_items s (v_addr dst)); [|congruence]. apply bind_ret in H. destruct H as [s1 [H1 H]]. apply storage_log in H1. rewrite <- H1. clear H1.
    cbn [me_ch] in H. revert H. generalize (c_items s1 (v_addr dst)) as ds. revert s1 b s'. induction F as [|a ch P F IH]; intros s1 b s' ds H; [cbn in H; destruct ds; congruence|].
    destruct ds as [|w ds]; [discriminate|]. cbn [copy_args] in H. destruct (v_addr w =? 0); [discriminate|].
    apply bind_ret in H. destruct H as [[b1 s2] [H1 H]]. apply bind_ret in H. destruct H as [[b2 s3] [H2 H]]. apply P in H1. apply IH in H2. congruence. }
  apply bind_ret in H. destruct H as [[h s1] [Hh H]]. apply copy_here_log in Hh. destruct h as [over|]; [|congruence].
  cbv zeta in H. cbn [me_ch] in H. revert H. generalize (ME i v sz l ch) as e0. intro e0.
  generalize (match f with Some (IPointer _) => true | _ => false end) as ptr. intro ptr. clear f.
  rewrite <- Hh. clear Hh s. revert s1 b s'. induction F as [|a ch P F IH]; intros s1 b s' H; [cbn in H; congruence|].
  cbn [copy_list] in H. cbv zeta in H. destruct (_ =? 0); [discriminate|].
  apply bind_ret in H. destruct H as [[b1 s2] [H1 H]]. apply bind_ret in H. destruct H as [[b2 s3] [H2 H]]. apply P in H1. apply IH in H2.
  rewrite Dag, andb_false_r in H. congruence.
Qed.
Lemma preallocate_log : forall off l s tab ok s' tab', preallocate cal off l s tab = (ok, s', tab') ->
  exists new sizes, tab' = tab ++ new /\ length sizes = length new /\ c_log s' = rev (map (fun p => EvCalloc (snd (fst p)) (snd p)) (combine new sizes)) ++ c_log s.
Proof.
  intros off l. induction l as [|h l IH]; intros s tab ok s' tab' H; cbn [preallocate] in H.
  - injection H as <- <- <-. exists [], []. rewrite app_nil_r. auto.
  - destruct (_ =? 0); [|apply (IH _ _ _ _ _ H)]. destruct (calloc cal s (h_size h)) as [a s1] eqn:C. destruct (a =? 0) eqn:A.
    + injection H as <- <- <-. exists [], []. rewrite app_nil_r. repeat split. cbn. unfold calloc in C. injection C as C1 <-. rewrite C1, A. reflexivity.
    + apply IH in H. destruct H as [new [sizes [-> [L H]]]]. exists ((h_addr h, a) :: new), (h_size h :: sizes). split; [rewrite <- app_assoc; reflexivity|].
      split; [cbn; congruence|]. cbn. rewrite H. rewrite <- app_assoc. cbn. unfold calloc in C. injection C as C1 <-. cbn [c_log]. rewrite C1, A. reflexivity.
Qed.
Lemma free_all_log : forall tab s, c_log (free_all tab s) = rev (map (fun p => EvFree (snd p)) tab) ++ c_log s.
Proof.
  intros tab. unfold free_all. induction tab as [|p tab IH]; intro s; [reflexivity|]. cbn [fold_left map rev]. rewrite IH. rewrite <- app_assoc. reflexivity.
Qed.
Lemma live_callocs : forall (new : list (Z * Z)) sizes l, length sizes = length new ->
  live_from l (map (fun p => EvCalloc (snd (fst p)) (snd p)) (combine new sizes)) = Some (rev (map snd new) ++ l).
Proof.
  induction new as [|p new IH]; intros [|z sizes] l L; try discriminate; [reflexivity|]. cbn. rewrite IH by (cbn in L; lia).
  rewrite <- app_assoc. reflexivity.
Qed.
Lemma remove_one_perm : forall a l, In a l -> exists l', remove_one a l = Some l' /\ Permutation l (a :: l').
Proof.
  intros a l. induction l as [|b l IH]; intros []; cbn.
  - subst. rewrite Z.eqb_refl. exists l. auto.
  - destruct (a =? b) eqn:Q; [apply Z.eqb_eq in Q; subst; exists l; auto|]. destruct (IH H) as [l' [-> K]]. exists (b :: l'). split; [reflexivity|].
    rewrite K. apply perm_swap.
Qed.
Lemma live_frees : forall (tab : list (Z * Z)) l, Permutation l (map snd tab) -> live_from l (map (fun p => EvFree (snd p)) tab) = Some [].
Proof.
  induction tab as [|p tab IH]; intros l P; cbn in *; [apply Permutation_sym, Permutation_nil in P; subst; reflexivity|].
  destruct (remove_one_perm (snd p) l) as [l' [-> K]].
  - eapply Permutation_in; [apply Permutation_sym; exact P|]. left. reflexivity.
  - apply IH. rewrite K in P. apply Permutation_cons_inv in P. exact P.
Qed.
Variable ord : list hent -> list hent.
Variable same_decl : option eptr -> option eptr -> res bool.
(** failure: everything released; success: nothing released *)
Lemma copy_allocations : forall k src dst s b s', copy_ex E M ord cal same_decl k src dst s = Ret (b, s') ->
  exists evs, calls s s' evs /\
    if b then forall e, In e evs -> exists a z, e = EvCalloc a z else live_from [] evs = Some [].
Proof.
  intros k src dst s b s' H. unfold copy_ex in H.
  assert (Zz : forall x, Ret (false, s) = Ret (x, s') -> x = b -> exists evs, calls s s' evs /\ if b then forall e, In e evs -> exists a z, e = EvCalloc a z else live_from [] evs = Some []).
  { intros x X <-. injection X as <- <-. exists []. split; reflexivity. }
  apply bind_ret in H. destruct H as [f1 [_ H]]. apply bind_ret in H. destruct H as [f2 [_ H]].
  destruct f1; [|eapply Zz; [exact H|congruence]]. destruct f2; [|eapply Zz; [exact H|congruence]]. apply bind_ret in H. destruct H as [sm [_ H]].
  destruct sm; cbn [negb] in H; [|eapply Zz; [exact H|congruence]]. apply bind_ret in H. destruct H as [mm [_ H]].
  destruct mm as [mm|]; [|eapply Zz; [exact H|congruence]]. rewrite Dag in H.
  destruct (preallocate _ _ _ _ _) as [[ok s1] tab] eqn:Pr. apply preallocate_log in Pr. destruct Pr as [new [sizes [Tab [L Lg]]]]. cbn in Tab. subst tab.
  set (cs := map (fun p : Z * Z * Z => EvCalloc (snd (fst p)) (snd p)) (combine new sizes)) in *.
  assert (Fr : forall s2, c_log s2 = c_log s1 -> exists evs, calls s (free_all new s2) evs /\ live_from [] evs = Some []).
  { intros s2 S2. exists (cs ++ map (fun p => EvFree (snd p)) new). split.
    - unfold calls. rewrite free_all_log, S2, Lg, rev_app_distr, <- app_assoc. reflexivity.
    - rewrite live_app. unfold cs. rewrite live_callocs by exact L. apply live_frees. rewrite app_nil_r. apply Permutation_sym, Permutation_rev. }
  destruct ok; cbn [negb] in H.
  - apply bind_ret in H. destruct H as [[b1 s2] [H1 H]]. apply copy_tree_log in H1. injection H as <- <-. destruct b1; [|apply Fr; exact H1].
    exists cs. split; [unfold calls; rewrite H1; exact Lg|]. intros ev X. unfold cs in X. apply in_map_iff in X. destruct X as [p [<- _]]. eauto.
  - injection H as <- <-. apply Fr. reflexivity.
Qed.
End A.
