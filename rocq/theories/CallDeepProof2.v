(** Copies of captured calls with variable arguments. *)
From Coq Require Import ZArith String List Bool Lia Permutation.
From Coq Require Import ZifyBool.
From Verif Require Import Base BaseProof EntryModel EntrySpec EntryProof ValueModel ValueSpec ValueProof ValueProof2
  DeepModel DeepSpec DeepProof DeepProof2 DeepProof3 DeepProof4 DeepProof5 DeepProof6 DeepProof7 DeepProof8 CopySpec CopyProof CopyProof2 CopyProof3 CopyProof4 EqualSpec EqualProof CallDeepSpec CallDeepProof.
Import ListNotations.
Open Scope Z_scope.
Local Open Scope res_scope.

Definition variadic (d : db) (w : value) : Prop := exists t, e_info (deref d (v_entry w)) = IParam true t.
Lemma variadic_info : forall d w, variadic d w -> exists i, has_info d w i /\ callable i.
Proof.
  intros d w [t Q]. exists (IParam true t). split; [|exact I]. exists (v_entry w). split; [|exact Q]. exists []. apply res_stop.
  intros t' q X. rewrite Q in X. inversion X.
Qed.
Lemma call_looks : forall E M m anc e i, built_ok E M m anc e -> has_info (en_db E) (me_val e) i -> callable i ->
  looks E M m anc (me_val e) (VCall (en_items E (v_addr (me_val e)))).
Proof.
  intros E M m anc e i Bu HI KI. destruct (built_looks _ _ _ _ _ Bu) as [w [_ [Lw K]]].
  assert (NI : forall i', has_info (en_db E) (me_val e) i' -> ~ callable i' -> False) by (intros i' A1 A2; pose proof (has_info_fun _ _ _ _ HI A1) as <-; contradiction).
  destruct w as [|sz1|sz1 lv|sz1 chs|sz1 t1|ca]; [contradiction| | | | |].
  - exfalso. inversion Lw as [sz' i' I1 K1' S1|sz' t' P' S1|sz' t' p' P' N1 N2 O Hh U' S1| | | | | | |]; subst.
    + eapply NI; [exact I1|]. destruct i'; cbn; auto.
    + eapply NI; [exact (points_info _ _ _ _ _ P')|]. cbn. auto.
    + eapply NI; [exact (points_info _ _ _ _ _ P')|]. cbn. auto.
  - exfalso. inversion Lw as [| | |sz' t' p' l' P' N1 LA S1| | | | | |]; subst. eapply NI; [exact (points_info _ _ _ _ _ P')|]. cbn. auto.
  - exfalso. eapply node_not_call; eassumption.
  - exfalso. inversion Lw as [| | | |sz' p' w' T' NL' S'| | | | |]; subst. destruct (target_points _ _ _ _ _ _ _ T') as [_ [t' P']]. eapply NI; [exact (points_info _ _ _ _ _ P')|]. cbn. auto.
  - inversion Lw; subst. exact Lw.
Qed.

Section Variadic.
Variable E : env.
Notation d := (en_db E).
(** storages once filled stay filled, unless they are made anew *)
Definition later (k : nat) (x : Z) : Prop := forall i, (k <= i)%nat -> en_buf E i <> x.
Definition fills (s s' : cst) : Prop := (c_bufs s <= c_bufs s')%nat /\ forall x, later (c_bufs s) x -> c_items s x <> [] -> c_items s' x <> [].
Lemma fills_refl : forall s, fills s s.
Proof. intro s. split; auto. Qed.
Lemma fills_same : forall s s', c_items s' = c_items s -> c_bufs s' = c_bufs s -> fills s s'.
Proof. intros s s' A B. split; [rewrite B; auto|]. intros x _. rewrite A. auto. Qed.
Lemma later_mono : forall k k' x, (k <= k')%nat -> later k x -> later k' x.
Proof. intros k k' x K L i H. apply L. lia. Qed.
Lemma fills_trans : forall a b c, fills a b -> fills b c -> fills a c.
Proof.
  intros a b c [A1 A2] [B1 B2]. split; [lia|]. intros x L N. apply B2; [exact (later_mono _ _ _ A1 L)|]. apply A2; assumption.
Qed.
Lemma append_fills : forall s dst e m, fills s (append_item E s dst e m).
Proof.
  intros s dst e m. split; [cbn; lia|]. intros x L N. cbn. destruct (x =? dst) eqn:Q.
  - destruct (c_items s dst); discriminate.
  - pose proof (L (c_bufs s) (le_n _)). replace (x =? en_buf E (c_bufs s)) with false by lia. exact N.
Qed.
Lemma storage_fills : forall e dst s s', storage_copy E e dst s = Ret s' -> fills s s' /\
  (forall x, later (c_bufs s) x -> x <> dst -> c_items s' x = c_items s x).
Proof.
  intro e. induction e as [i v sz l ch F] using ment_ind2. intros dst s s' H. rewrite storage_copy_eq in H. cbn [me_ch] in H. revert s H.
  induction F as [|a ch P F IH]; intros s H; [cbn in H; injection H as <-; split; [apply fills_refl|auto]|]. cbn [store_list] in H. cbv zeta in H.
  assert (App : forall m x, later (c_bufs s) x -> x <> dst -> c_items (append_item E s dst (v_entry (me_val a)) m) x = c_items s x).
  { intros m x L N. cbn. pose proof (L (c_bufs s) (le_n _)). replace (x =? dst) with false by lia. replace (x =? en_buf E (c_bufs s)) with false by lia. reflexivity. }
  assert (K : bind (byte_size (en_fuel E) (en_db E) (Some (v_entry (me_val a)))) (fun z => match z with
        | inr _ => Abort
        | inl sz => if sz =? 0 then Abort else store_list E dst ch (append_item E s dst (v_entry (me_val a)) (copy_bytes (c_mem s) (v_addr (me_val a)) (zero_fill (c_mem s) (en_buf E (c_bufs s)) sz) (en_buf E (c_bufs s)) sz))
        end) = Ret s' -> fills s s' /\ (forall x, later (c_bufs s) x -> x <> dst -> c_items s' x = c_items s x)).
  { intro K. apply bind_ret in K. destruct K as [[z|z] [_ K]]; [|discriminate]. destruct (z =? 0); [discriminate|]. apply IH in K. destruct K as [K1 K2].
    split; [eapply fills_trans; [apply append_fills|exact K1]|]. intros x L N. rewrite K2; [apply App; assumption| |exact N]. eapply later_mono; [|exact L]. cbn. lia. }
  destruct (e_info _) as [ | | | | | | | | | |[|] ?| | | ]; try exact (K H). apply bind_ret in H. destruct H as [s1 [H1 H]].
  apply P in H1. destruct H1 as [P1 P2]. apply IH in H. destruct H as [K1 K2]. pose proof P1 as [P1a _]. cbn in P1a.
  split; [eapply fills_trans; [|exact K1]; eapply fills_trans; [apply append_fills|exact P1]|].
  intros x L N. rewrite K2; [|eapply later_mono; [|exact L]; lia|exact N]. rewrite P2; [apply App; assumption| |].
  - eapply later_mono; [|exact L]. cbn. lia.
  - intro Q. exact (L (c_bufs s) (le_n _) (eq_sym Q)).
Qed.
Hypothesis Inj : forall i j, en_buf E i = en_buf E j -> i = j.
(** the storages of the variable arguments *)
Lemma storage_nested : forall dst l s s', later (c_bufs s) dst -> store_list E dst l s = Ret s' ->
  exists news, c_items s' dst = c_items s dst ++ news /\
    Forall2 (fun c w => (exists i, (i < c_bufs s')%nat /\ v_addr w = en_buf E i) /\ (variadic d (me_val c) -> me_ch c <> [] -> c_items s' (v_addr w) <> [])) l news.
Proof.
  intros dst l. induction l as [|c l IH]; intros s s' Ld H.
  - cbn in H. injection H as <-. exists []. rewrite app_nil_r. split; [reflexivity|constructor].
  - cbn [store_list] in H. cbv zeta in H. set (a := en_buf E (c_bufs s)) in *.
    assert (La : forall s1, (S (c_bufs s) <= c_bufs s1)%nat -> later (c_bufs s1) a) by (intros s1 L i J Q; apply Inj in Q; lia).
    assert (Step : forall s1, fills (append_item E s dst (v_entry (me_val c)) (c_mem s1)) s1 -> c_items s1 dst = c_items s dst ++ [Build_value (v_entry (me_val c)) a] ->
      (variadic d (me_val c) -> me_ch c <> [] -> c_items s1 a <> []) -> store_list E dst l s1 = Ret s' -> exists news, c_items s' dst = c_items s dst ++ news /\
      Forall2 (fun c w => (exists i, (i < c_bufs s')%nat /\ v_addr w = en_buf E i) /\ (variadic d (me_val c) -> me_ch c <> [] -> c_items s' (v_addr w) <> [])) (c :: l) news).
    { intros s1 [F1 _] Q1 V1 H1. cbn in F1. destruct (IH s1 s') as [news [N1 N2]]; [eapply later_mono; [|exact Ld]; lia|exact H1|].
      pose proof (storage_fills (ME 0%nat (Build_value (v_entry (me_val c)) 0) 0 0 l) dst s1 s') as SF. rewrite storage_copy_eq in SF. cbn [me_ch] in SF. destruct (SF H1) as [[F2 F3] _].
      exists (Build_value (v_entry (me_val c)) a :: news). split; [rewrite N1, Q1, <- app_assoc; reflexivity|]. constructor; [|exact N2]. cbn [v_addr].
      split; [exists (c_bufs s); split; [lia|reflexivity]|]. intros A B. apply F3; [apply La; lia|]. apply V1; assumption. }
    assert (App : forall m, c_items (append_item E s dst (v_entry (me_val c)) m) dst = c_items s dst ++ [Build_value (v_entry (me_val c)) a]).
    { intro m. cbn. rewrite Z.eqb_refl. reflexivity. }
    assert (K : (forall t, e_info (deref d (v_entry (me_val c))) <> IParam true t) -> bind (byte_size (en_fuel E) d (Some (v_entry (me_val c)))) (fun z => match z with
        | inr _ => Abort
        | inl sz => if sz =? 0 then Abort else store_list E dst l (append_item E s dst (v_entry (me_val c)) (copy_bytes (c_mem s) (v_addr (me_val c)) (zero_fill (c_mem s) a sz) a sz))
        end) = Ret s' -> exists news, c_items s' dst = c_items s dst ++ news /\
      Forall2 (fun c w => (exists i, (i < c_bufs s')%nat /\ v_addr w = en_buf E i) /\ (variadic d (me_val c) -> me_ch c <> [] -> c_items s' (v_addr w) <> [])) (c :: l) news).
    { intros NV K. apply bind_ret in K. destruct K as [[z|z] [_ K]]; [|discriminate]. destruct (z =? 0); [discriminate|]. eapply Step; [|apply App| |exact K].
      - apply fills_same; reflexivity.
      - intros [t V] _. exfalso. exact (NV _ V). }
    destruct (e_info (deref d (v_entry (me_val c)))) as [ | | | | | | | | | |[|] tv| | | ] eqn:Ei; try (apply K; [intros; discriminate|exact H]).
    clear K. apply bind_ret in H. destruct H as [s1 [H1 H]]. pose proof H1 as H1'. apply storage_fills in H1'. destruct H1' as [F1 F2].
    assert (Ad : dst <> a) by (intro Q; exact (Ld (c_bufs s) (le_n _) (eq_sym Q))).
    eapply Step; [| | |exact H].
    + destruct F1 as [F1 F3]. split; [exact F1|exact F3].
    + rewrite F2; [apply App| |exact Ad]. eapply later_mono; [|exact Ld]. cbn. lia.
    + intros _ N. rewrite storage_copy_eq in H1. destruct (me_ch c) as [|c0 r]; [congruence|]. cbn [store_list] in H1. cbv zeta in H1.
      set (s0 := append_item E s dst (v_entry (me_val c)) (c_mem s)) in *.
      assert (L0 : later (c_bufs s0) a) by (apply La; cbn; lia).
      assert (G : forall s2, fills (append_item E s0 a (v_entry (me_val c0)) (c_mem s0)) s2 -> store_list E a r s2 = Ret s1 -> c_items s1 a <> []).
      { intros s2 F4 R2. pose proof (storage_fills (ME 0%nat (Build_value (v_entry (me_val c)) 0) 0 0 r) a s2 s1) as SF. rewrite storage_copy_eq in SF. cbn [me_ch] in SF. destruct (SF R2) as [F5 _].
        apply (fills_trans _ _ _ F4 F5).
        - apply La. cbn. lia.
        - cbn [append_item c_items]. rewrite Z.eqb_refl. destruct (c_items s0 a); discriminate. }
      assert (K : bind (byte_size (en_fuel E) d (Some (v_entry (me_val c0)))) (fun z => match z with
        | inr _ => Abort
        | inl sz => if sz =? 0 then Abort else store_list E a r (append_item E s0 a (v_entry (me_val c0)) (copy_bytes (c_mem s0) (v_addr (me_val c0)) (zero_fill (c_mem s0) (en_buf E (c_bufs s0)) sz) (en_buf E (c_bufs s0)) sz))
        end) = Ret s1 -> c_items s1 a <> []).
      { intro K. apply bind_ret in K. destruct K as [[z|z] [_ K]]; [|discriminate]. destruct (z =? 0); [discriminate|]. eapply G; [|exact K]. apply fills_same; reflexivity. }
      destruct (e_info (deref d (v_entry (me_val c0)))) as [ | | | | | | | | | |[|] tv0| | | ]; try (exact (K H1)).
      apply bind_ret in H1. destruct H1 as [s2 [H2 H3]]. apply storage_fills in H2. eapply G; [exact (proj1 H2)|exact H3].
Qed.

Variable M : mode.
Variable cal : nat -> Z -> Z.
Lemma copy_here_state : forall off tab anc e dst s h s', copy_here E M cal off tab anc e dst s = Ret (h, s') -> c_items s' = c_items s /\ c_bufs s' = c_bufs s.
Proof.
  intros off tab anc e dst s h s' H. unfold copy_here in H. apply bind_ret in H. destruct H as [f [_ H]]. cbv zeta in H.
  assert (K : forall s0 (x : res (bool * mem)), (do r <- x; Ret (if fst r then Some None else None : option (option Z), with_mem s0 (snd r))) = Ret (h, s') -> c_items s' = c_items s0 /\ c_bufs s' = c_bufs s0).
  { intros s0 x X. apply bind_ret in X. destruct X as [r [_ X]]. injection X as <- <-. auto. }
  assert (Q : forall (x : option (option Z)), Ret (x, s) = Ret (h, s') -> c_items s' = c_items s /\ c_bufs s' = c_bufs s) by (intros x X; injection X as <- <-; auto).
  destruct f as [[ | | | | | | | |[]| | | | | ]|]; try (exact (Q _ H)); try (exact (K _ _ H)).
  - destruct (me_ch e) as [|c r].
    + destruct (0 <? me_loop e).
      * destruct (nth_error _ _); [|exact (Q _ H)]. apply bind_ret in H. destruct H as [[|] [_ H]]; [exact (K _ _ H)|discriminate].
      * destruct (mo_uptr M); try (exact (Q _ H)); [|exact (K _ _ H)]. apply bind_ret in H. destruct H as [r [_ H]]. injection H as <- <-. auto.
    + destruct (child_block M cal off tab c s) as [a s1] eqn:Cb.
      assert (Cs : c_items s1 = c_items s /\ c_bufs s1 = c_bufs s).
      { unfold child_block in Cb. destruct (mo_tree M); [unfold calloc in Cb; injection Cb as _ <-; auto|]. cbv zeta in Cb. destruct (negb _); injection Cb as _ <-; auto. }
      destruct Cs as [Cs1 Cs2]. rewrite <- Cs1, <- Cs2.
      destruct (a =? 0); [injection H as <- <-; auto|]. apply bind_ret in H. destruct H as [[x|p] [_ H]]; [discriminate|].
      destruct (p =? 0); [discriminate|]. apply bind_ret in H. destruct H as [r' [_ H]]. injection H as <- <-. auto.
  - destruct (me_ch e); [|exact (Q _ H)]. destruct (mo_union M); try (exact (Q _ H));
      (destruct (0 <? me_size e); [injection H as <- <-; auto|exact (Q _ H)]).
Qed.
Lemma copy_tree_fills : forall off tab e anc dst s b s', copy_tree E M cal off tab anc e dst s = Ret (b, s') -> fills s s'.
Proof.
  intros off tab e. induction e as [i v sz l ch F] using ment_ind2. intros anc dst s b s' H. rewrite copy_tree_eq in H.
  apply bind_ret in H. destruct H as [f [_ H]].
  destruct (match f with Some i => is_call_info i | None => false end).
  { destruct (c_items s (v_addr dst)); [|injection H as <- <-; apply fills_refl]. apply bind_ret in H. destruct H as [s1 [H1 H]]. apply storage_fills in H1.
    eapply fills_trans; [exact (proj1 H1)|]. clear H1.
    cbn [me_ch] in H. revert H. generalize (c_items s1 (v_addr dst)) as ds. revert s1 b s'. induction F as [|a ch P F IH]; intros s1 b s' ds H; [cbn in H; destruct ds; injection H as <- <-; apply fills_refl|].
    destruct ds as [|w ds]; [discriminate|]. cbn [copy_args] in H. destruct (v_addr w =? 0); [discriminate|].
    apply bind_ret in H. destruct H as [[b1 s2] [H1 H]]. apply bind_ret in H. destruct H as [[b2 s3] [H2 H]]. apply P in H1. apply IH in H2. injection H as <- <-. eapply fills_trans; eassumption. }
  apply bind_ret in H. destruct H as [[h s1] [Hh H]]. apply copy_here_state in Hh. destruct Hh as [Hh1 Hh2]. eapply fills_trans; [apply (fills_same s s1 Hh1 Hh2)|].
  destruct h as [over|]; [|injection H as <- <-; apply fills_refl].
  cbv zeta in H. cbn [me_ch] in H. revert H. generalize (ME i v sz l ch) as e0. intro e0.
  generalize (match f with Some (IPointer _) => true | _ => false end) as ptr. intro ptr. clear f.
  clear Hh1 Hh2 s. revert s1 b s'. induction F as [|a ch P F IH]; intros s1 b s' H; [cbn in H; injection H as <- <-; apply fills_refl|].
  cbn [copy_list] in H. cbv zeta in H. destruct (_ =? 0); [discriminate|].
  apply bind_ret in H. destruct H as [[b1 s2] [H1 H]]. apply bind_ret in H. destruct H as [[b2 s3] [H2 H]]. apply P in H1. apply IH in H2.
  injection H as _ <-. eapply fills_trans; [exact H1|]. eapply fills_trans; [exact H2|]. destruct (negb b1 && ptr && mo_tree M); [apply fills_same; reflexivity|apply fills_refl].
Qed.
Lemma args_fail : forall off tab anc dst l ws s b s' c, In c l -> (exists i, final_info E (me_val c) = Ret (Some i) /\ is_call_info i = true) ->
  Forall2 (fun c w => (exists i, (i < c_bufs s)%nat /\ v_addr w = en_buf E i) /\ (variadic d (me_val c) -> me_ch c <> [] -> c_items s (v_addr w) <> [])) l ws ->
  variadic d (me_val c) -> me_ch c <> [] -> copy_args E M cal off tab anc dst l ws s = Ret (b, s') -> b = false.
Proof.
  intros off tab anc dst l. induction l as [|c0 l IH]; intros ws s b s' c I Fi F V N H; [destruct I|].
  inversion F as [|c0' w l' wr [[i [Li Qi]] Fw] F']; subst. cbn [copy_args] in H. destruct (v_addr w =? 0); [discriminate|].
  apply bind_ret in H. destruct H as [[b1 s2] [H1 H]]. apply bind_ret in H. destruct H as [[b2 s3] [H2 H]]. injection H as <- <-.
  destruct I as [->|I].
  - rewrite copy_tree_eq in H1. destruct Fi as [j [Fi Cj]]. rewrite Fi in H1. cbn [bind] in H1. rewrite Cj in H1.
    destruct (c_items s (v_addr w)) eqn:Q; [exfalso; exact (Fw V N eq_refl)|]. injection H1 as <- <-. reflexivity.
  - assert (b2 = false); [|subst; apply andb_false_r]. apply copy_tree_fills in H1. destruct H1 as [K1 K2]. eapply IH; [exact I|exact Fi| |exact V|exact N|exact H2].
    clear - F' K1 K2 Inj. induction F' as [|x y l l' [[i [L Q]] P] F IH]; constructor; [|exact IH]. split; [exists i; split; [lia|exact Q]|].
    intros A B. apply K2; [|apply P; assumption]. intros j J R. rewrite Q in R. apply Inj in R. lia.
Qed.

Variable ord : list hent -> list hent.
Variable sd : option eptr -> option eptr -> res bool.
Lemma variadic_fails : forall k src dst s s' b args w, captures E src args -> In w args -> variadic d w -> en_items E (v_addr w) <> [] ->
  (forall i, (c_bufs s <= i)%nat -> en_buf E i <> v_addr dst) ->
  copy_ex E M ord cal sd k src dst s = Ret (b, s') -> b = false.
Proof.
  intros k src dst s s' b args w [[ii [HI KI]] Ea] Iw V Nw Ld H.
  unfold copy_ex in H. apply bind_ret in H. destruct H as [[f1|] [_ H]]; [|apply bind_ret in H; destruct H as [f2 [_ H]]; injection H as <- _; reflexivity].
  apply bind_ret in H. destruct H as [[f2|] [_ H]]; [|injection H as <- _; reflexivity]. apply bind_ret in H. destruct H as [sm [_ H]].
  destruct sm; [cbn [negb] in H|injection H as <- _; reflexivity].
  apply bind_ret in H. destruct H as [[mm|] [N H]]; [|injection H as <- _; reflexivity].
  set (top := mm_top mm) in *.
  apply map_built in N. destruct N as [Bu Vt _ _ _ _ _ _]. fold top in Bu, Vt.
  rewrite <- Vt in HI. pose proof (call_looks _ _ _ _ _ _ Bu HI KI) as Lk. destruct (built_call _ _ _ _ _ _ Bu Lk) as [Ag Fb]. rewrite Vt, <- Ea in Ag. rewrite Forall_forall in Fb.
  rewrite Ag in Iw. apply in_map_iff in Iw. destruct Iw as [c [Qc Ic]]. subst w.
  assert (Nc : me_ch c <> []).
  { destruct (variadic_info _ _ V) as [j [Hj Kj]]. pose proof (call_looks _ _ _ _ _ _ (Fb c Ic) Hj Kj) as Lc. destruct (built_call _ _ _ _ _ _ (Fb c Ic) Lc) as [Q _]. intro Z0. rewrite Z0 in Q. exact (Nw Q). }
  assert (Fi : exists i, final_info E (me_val c) = Ret (Some i) /\ is_call_info i = true).
  { destruct (built_info _ _ _ _ _ (Fb c Ic)) as [j [Fj _]]. exists j. split; [exact Fj|]. apply final_info_some in Fj. destruct (variadic_info _ _ V) as [j' [Hj Kj]].
    pose proof (has_info_fun _ _ _ _ Fj Hj) as <-. destruct j as [ | | | | | | | | | |[|] ?| | | ]; try contradiction; reflexivity. }
  assert (Ft : exists i, final_info E (me_val top) = Ret (Some i) /\ is_call_info i = true).
  { destruct (built_info _ _ _ _ _ Bu) as [j [Fj _]]. exists j. split; [exact Fj|]. apply final_info_some in Fj.
    pose proof (has_info_fun _ _ _ _ Fj HI) as <-. destruct j as [ | | | | | | | | | |[|] ?| | | ]; try contradiction; reflexivity. }
  destruct (if mo_tree M then (true, s, []) else preallocate cal (mm_off mm) (ord (hash_of mm)) s []) as [[ok s1] tab] eqn:Pr.
  assert (S1 : c_items s1 = c_items s /\ c_bufs s1 = c_bufs s). { destruct (mo_tree M); [injection Pr as <- <- <-; auto|exact (preallocate_items _ _ _ _ _ _ _ _ Pr)]. }
  destruct S1 as [Si Sb]. destruct ok; cbn [negb] in H; [|injection H as <- _; reflexivity].
  apply bind_ret in H. destruct H as [[b2 s2] [H1 H]]. injection H as <- _.
  rewrite copy_tree_eq in H1. destruct Ft as [j [Fj Cj]]. fold top in H1. rewrite Fj in H1. cbn [bind] in H1. rewrite Cj in H1.
  destruct (c_items s1 (v_addr dst)) eqn:Emp; [|injection H1 as <- _; reflexivity].
  apply bind_ret in H1. destruct H1 as [s3 [H3 H1]]. rewrite storage_copy_eq in H3.
  destruct (storage_nested (v_addr dst) (me_ch top) s1 s3) as [news [N1 N2]]; [rewrite Sb; exact Ld|exact H3|]. rewrite Emp in N1. cbn [app] in N1. rewrite N1 in H1.
  eapply args_fail; [exact Ic|exact Fi|exact N2|exact V|exact Nc|exact H1].
Qed.
End Variadic.

Lemma equal_calls : forall E M feq k m c1 c2 args1 args2, bytes_ok m -> local E m -> steady E M m c1 -> steady E M m c2 ->
  captures E c1 args1 -> captures E c2 args2 -> equal_ex E M feq k m c1 c2 = Ret 1 ->
  length args1 = length args2 /\
  (forall i w1 w2, nth_error args1 i = Some w1 -> nth_error args2 i = Some w2 -> both E M m c1 c2 [c1] w1 [c2] w2) /\
  (forall a1 x1 a2 x2, both E M m c1 c2 a1 x1 a2 x2 -> alike E M feq m a1 x1 a2 x2).
Proof.
  intros E M feq k m c1 c2 args1 args2 BO LO S1 S2 [[i1 [H1 K1]] ->] [[i2 [H2 K2]] ->] H.
  assert (Al : forall a1 x1 a2 x2, both E M m c1 c2 a1 x1 a2 x2 -> alike E M feq m a1 x1 a2 x2).
  { intros a1 x1 a2 x2 B. exact (proj1 (equal_sound E M feq k m c1 c2 BO LO S1 S2 H _ _ _ _ B)). }
  destruct (equal_ex_inv _ _ _ _ _ _ _ _ H) as [Q|[m1 [m2 [A1 [A2 _]]]]]; [discriminate|].
  destruct (map_built _ _ _ _ _ _ A1) as [B1 V1 _ _ _ _ _ _]. destruct (map_built _ _ _ _ _ _ A2) as [B2 V2 _ _ _ _ _ _].
  rewrite <- V1 in H1. rewrite <- V2 in H2. pose proof (call_looks _ _ _ _ _ _ B1 H1 K1) as L1. pose proof (call_looks _ _ _ _ _ _ B2 H2 K2) as L2. rewrite V1 in L1. rewrite V2 in L2.
  split; [|split; [|exact Al]].
  - destruct (al_args _ _ _ _ _ _ _ _ (Al _ _ _ _ (bt_here _ _ _ _ _)) _ L1) as [c3 [L3 Q]]. rewrite (call_fun _ _ _ _ _ _ _ _ L2 L3). exact Q.
  - intros i w1 w2 N1 N2. eapply bt_arg; [apply bt_here|exact L1|exact L2|exact N1|exact N2].
Qed.
