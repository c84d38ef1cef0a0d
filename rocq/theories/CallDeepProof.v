(** Copies of captured calls. *)
From Coq Require Import ZArith String List Bool Lia Permutation.
From Coq Require Import ZifyBool.
From Verif Require Import Base BaseProof EntryModel EntrySpec EntryProof ValueModel ValueSpec ValueProof ValueProof2
  DeepModel DeepSpec DeepProof DeepProof2 DeepProof3 DeepProof4 DeepProof5 DeepProof6 DeepProof7 DeepProof8 CopySpec CopyProof CopyProof2 CopyProof3 CopyProof4 CallDeepSpec.
Import ListNotations.
Open Scope Z_scope.
Local Open Scope res_scope.

Lemma number_shift : forall k m m' a b, (forall i, 0 <= i < Z.of_nat k -> m' (b + i) = m (a + i)) -> number_at m' b k = number_at m a k.
Proof.
  induction k as [|k IH]; intros m m' a b H; [reflexivity|]. cbn [number_at]. f_equal.
  - pose proof (H 0 ltac:(lia)) as Q. rewrite !Z.add_0_r in Q. exact Q.
  - f_equal. apply IH. intros i Hi. replace (b + 1 + i) with (b + (1 + i)) by lia. replace (a + 1 + i) with (a + (1 + i)) by lia. apply H. lia.
Qed.

(** the buffers of the arguments *)
Definition hits (x : Z) (r : region) : bool := (r_dst r <=? x) && (x <? r_dst r + r_size r).
Lemma hits_iff : forall x r, hits x r = true <-> r_dst r <= x < r_dst r + r_size r.
Proof. intros x r. unfold hits. lia. Qed.

Section Items.
Variable E : env.
Variable M : mode.
Variable cal : nat -> Z -> Z.
Notation d := (en_db E).
Hypothesis Dag : mo_tree M = false.
Lemma copy_here_items : forall off tab anc e dst s h s', copy_here E M cal off tab anc e dst s = Ret (h, s') -> c_items s' = c_items s.
Proof.
  intros off tab anc e dst s h s' H. unfold copy_here in H. apply bind_ret in H. destruct H as [f [_ H]]. cbv zeta in H.
  assert (K : forall (x : res (bool * mem)), (do r <- x; Ret (if fst r then Some None else None : option (option Z), with_mem s (snd r))) = Ret (h, s') -> c_items s' = c_items s).
  { intros x X. apply bind_ret in X. destruct X as [r [_ X]]. injection X as <- <-. reflexivity. }
  assert (Q : forall (x : option (option Z)), Ret (x, s) = Ret (h, s') -> c_items s' = c_items s) by (intros x X; congruence).
  destruct f as [[ | | | | | | | |[]| | | | | ]|]; try (exact (Q _ H)); try (exact (K _ H)).
  - destruct (me_ch e) as [|c r].
    + destruct (0 <? me_loop e).
      * destruct (nth_error _ _); [|exact (Q _ H)]. apply bind_ret in H. destruct H as [[|] [_ H]]; [exact (K _ H)|discriminate].
      * destruct (mo_uptr M); try (exact (Q _ H)); [|exact (K _ H)]. apply bind_ret in H. destruct H as [r [_ H]]. injection H as <- <-. reflexivity.
    + destruct (child_block M cal off tab c s) as [a s1] eqn:Cb. apply child_block_log in Cb; [|exact Dag]. subst s1.
      destruct (a =? 0); [exact (Q _ H)|]. apply bind_ret in H. destruct H as [[x|p] [_ H]]; [discriminate|].
      destruct (p =? 0); [discriminate|]. apply bind_ret in H. destruct H as [r' [_ H]]. injection H as <- <-. reflexivity.
  - destruct (me_ch e); [|exact (Q _ H)]. destruct (mo_union M); try (exact (Q _ H));
      (destruct (0 <? me_size e); [injection H as <- <-; reflexivity|exact (Q _ H)]).
Qed.
Lemma copy_tree_items : forall off tab e, (forall x i, in_tree x e -> has_info d (me_val x) i -> ~ callable i) ->
  forall anc dst s b s', copy_tree E M cal off tab anc e dst s = Ret (b, s') -> c_items s' = c_items s.
Proof.
  intros off tab e. induction e as [i v sz l ch F] using ment_ind2. intros ND anc dst s b s' H. rewrite copy_tree_eq in H.
  apply bind_ret in H. destruct H as [f [Hf H]].
  assert (NC : match f with Some i => is_call_info i | None => false end = false).
  { destruct f as [j|]; [|reflexivity]. apply final_info_some in Hf. pose proof (ND _ _ (it_here _) Hf) as K.
    destruct j as [ | | | | | | | | | |[|] ?| | | ]; try reflexivity; destruct (K Logic.I). }
  rewrite NC in H. clear NC.
  apply bind_ret in H. destruct H as [[h s1] [Hh H]]. apply copy_here_items in Hh. destruct h as [over|]; [|congruence].
  cbv zeta in H. cbn [me_ch] in H.
  assert (ND2 : forall c, In c ch -> forall x i, in_tree x c -> has_info d (me_val x) i -> ~ callable i).
  { intros c C x j T. apply ND. eapply it_child; [exact C|exact T]. }
  revert H. clear ND Hf. generalize (ME i v sz l ch) as e0. intro e0.
  generalize (match f with Some (IPointer _) => true | _ => false end) as ptr. intro ptr. clear f.
  rewrite <- Hh. clear Hh s. revert s1 b s'. induction F as [|a ch P F IH]; intros s1 b s' H; [cbn in H; congruence|].
  cbn [copy_list] in H. cbv zeta in H. destruct (_ =? 0); [discriminate|].
  apply bind_ret in H. destruct H as [[b1 s2] [H1 H]]. apply bind_ret in H. destruct H as [[b2 s3] [H2 H]].
  apply P in H1; [|apply ND2; left; reflexivity]. apply IH in H2; [|intros c C; apply ND2; right; exact C].
  rewrite Dag, andb_false_r in H. congruence.
Qed.
Lemma preallocate_items : forall off l s tab ok s' tab', preallocate cal off l s tab = (ok, s', tab') -> c_items s' = c_items s /\ c_bufs s' = c_bufs s.
Proof.
  intros off l. induction l as [|h l IH]; intros s tab ok s' tab' H; cbn [preallocate] in H.
  - injection H as <- <- <-. auto.
  - destruct (_ =? 0); [|apply (IH _ _ _ _ _ H)]. destruct (calloc cal s (h_size h)) as [a s1] eqn:C. unfold calloc in C. injection C as C1 C2.
    destruct (a =? 0).
    + injection H as <- <- <-. subst s1. auto.
    + apply IH in H. subst s1. exact H.
Qed.

Lemma stored : forall dst l zs s s',
  Forall2 (fun c z => size_of d (me_val c) z /\ (match e_info (deref d (v_entry (me_val c))) with IParam true _ => False | _ => True end)) l zs ->
  let Rs := arg_regions E (c_bufs s) (map me_val l) zs in
  (forall r, In r Rs -> r_dst r <> dst) ->
  (forall r r', In r Rs -> In r' Rs -> r = r' \/ apart (r_dst r) (r_size r) (r_dst r') (r_size r')) ->
  (forall r r', In r Rs -> In r' Rs -> apart (r_src r) (r_size r) (r_dst r') (r_size r')) ->
  store_list E dst l s = Ret s' ->
  c_items s' dst = c_items s dst ++ new_args E (c_bufs s) (map me_val l) /\
  (forall a, a <> dst -> (forall r, In r Rs -> r_dst r <> a) -> c_items s' a = c_items s a) /\
  Forall (fun z => 0 < z) zs /\
  (forall r x, In r Rs -> r_dst r <= x < r_dst r + r_size r -> c_mem s' x = c_mem s (r_src r + (x - r_dst r))) /\
  (forall x, (forall r, In r Rs -> ~ (r_dst r <= x < r_dst r + r_size r)) -> c_mem s' x = c_mem s x).
Proof.
  intros dst l. induction l as [|c l IH]; intros zs s s' F Rs ND RD RX H; inversion F as [|c0 z l0 zs' [Sz NP] F']; subst.
  - cbn in H. injection H as <-. cbn. rewrite app_nil_r. split; [reflexivity|]. split; [auto|]. split; [constructor|]. split; [intros r x []|auto].
  - cbn [map arg_regions] in Rs. cbn [store_list] in H. cbv zeta in H.
    assert (H' : (do z <- byte_size (en_fuel E) d (Some (v_entry (me_val c)));
        match z with
        | inr _ => Abort
        | inl sz => if sz =? 0 then Abort else store_list E dst l (append_item E s dst (v_entry (me_val c)) (copy_bytes (c_mem s) (v_addr (me_val c)) (zero_fill (c_mem s) (en_buf E (c_bufs s)) sz) (en_buf E (c_bufs s)) sz))
        end) = Ret s').
    { destruct (e_info _) as [ | | | | | | | | | |[|] ?| | | ]; try exact H. contradiction. }
    clear H NP. apply bind_ret in H'. destruct H' as [[sz|er] [BS H]]; [|discriminate]. apply byte_size_spec in BS. destruct BS as [z1 [Hs Ez]].
    destruct Sz as [z2 [Hs2 ->]]. assert (z2 = z1) by (eapply has_size_fun; eassumption). subst z2. change (uwrap 64 z1) with (z1 mod 2 ^ 64) in Ez. subst sz.
    set (z := z1 mod 2 ^ 64) in *. destruct (z =? 0) eqn:Z0; [discriminate|]. assert (Zp : 0 < z) by (pose proof (Z.mod_pos_bound z1 (2 ^ 64)); lia).
    set (r0 := Build_region (v_addr (me_val c)) z (en_buf E (c_bufs s))) in *.
    set (s1 := append_item _ _ _ _ _) in H. set (Rr := arg_regions E (S (c_bufs s)) (map me_val l) zs') in *.
    assert (Cb : c_bufs s1 = S (c_bufs s)) by reflexivity.
    specialize (IH zs' s1 s' F'). rewrite Cb in IH. fold Rr in IH. cbv zeta in IH. destruct IH as [I1 [I2 [I3 [I4 I5]]]]; try assumption.
    { intros r I. apply ND. right. exact I. }
    { intros r r' I I'. apply RD; right; assumption. }
    { intros r r' I I'. apply RX; right; assumption. }
    assert (D0 : en_buf E (c_bufs s) <> dst) by (apply (ND r0); left; reflexivity).
    assert (M1 : forall x, ~ (r_dst r0 <= x < r_dst r0 + r_size r0) -> c_mem s1 x = c_mem s x).
    { intros x X. cbn in X. cbn [s1 append_item c_mem]. rewrite copy_bytes_out by exact X. unfold zero_fill. replace (_ && _) with false by lia. reflexivity. }
    assert (M2 : forall x, r_dst r0 <= x < r_dst r0 + r_size r0 -> c_mem s1 x = c_mem s (r_src r0 + (x - r_dst r0))).
    { intros x X. cbn in X. cbn [s1 append_item c_mem]. rewrite copy_bytes_in by exact X. reflexivity. }
    split; [|split; [|split; [|split]]].
    + rewrite I1. cbn [s1 append_item c_items]. rewrite Z.eqb_refl. rewrite <- app_assoc. reflexivity.
    + intros a Na Nr. rewrite I2; [|exact Na|intros r I; apply Nr; right; exact I]. cbn [s1 append_item c_items].
      assert (en_buf E (c_bufs s) <> a) by (apply (Nr r0); left; reflexivity). replace (a =? dst) with false by lia. replace (a =? _) with false by lia. reflexivity.
    + constructor; assumption.
    + assert (Rest : forall r x, In r Rr -> r_dst r <= x < r_dst r + r_size r -> c_mem s' x = c_mem s (r_src r + (x - r_dst r))).
      { intros r x I X. rewrite (I4 r x I X). apply M1. pose proof (RX r r0 (or_intror I) (or_introl eq_refl)) as Q. unfold apart in Q. lia. }
      intros r x [<-|I] X; [|apply Rest; assumption].
      destruct (existsb (hits x) Rr) eqn:Ex.
      * apply existsb_exists in Ex. destruct Ex as [r' [I' Hx]]. apply hits_iff in Hx.
        destruct (RD r0 r' (or_introl eq_refl) (or_intror I')) as [Q|Q]; [rewrite Q; apply Rest; [exact I'|exact Hx]|]. unfold apart in Q. lia.
      * rewrite I5; [apply M2; exact X|]. intros r' I' Hx. apply hits_iff in Hx. assert (existsb (hits x) Rr = true) by (apply existsb_exists; exists r'; auto). congruence.
    + intros x Nx. rewrite I5; [apply M1; apply (Nx r0); left; reflexivity|]. intros r I. apply Nx. right. exact I.
Qed.
End Items.

Section Sound.
Variable E : env.
Variable M : mode.
Notation d := (en_db E).
Variable ord : list hent -> list hent.
Variable cal : nat -> Z -> Z.
Variable sd : option eptr -> option eptr -> res bool.
Hypothesis Dag : mo_tree M = false.
Hypothesis UI : mo_union M <> UNION_ignore.
Hypothesis PO : forall x, Permutation (ord x) x.

Lemma region_in : forall k l zs r, In r (arg_regions E k l zs) -> exists w, In w l /\ r_src r = v_addr w /\ In (w, r_size r) (combine l zs).
Proof.
  intros k l. revert k. induction l as [|w l IH]; intros k zs r I; destruct zs as [|z zs]; cbn in I; try destruct I as [<-|I]; try contradiction.
  - exists w. cbn. auto.
  - destruct (IH _ _ _ I) as [w' [A [B C]]]. exists w'. cbn. auto.
Qed.
Lemma combine_forall : forall {A B} (P : A -> B -> Prop) l l' x y, Forall2 P l l' -> In (x, y) (combine l l') -> P x y.
Proof. intros A B P l l' x y F. induction F as [|a b l l' H F IH]; intro I; [destruct I|]. destruct I as [I|I]; [injection I as -> ->; exact H|apply IH; exact I]. Qed.

Lemma f2_cons : forall {A B} (P : A -> B -> Prop) a l l', Forall2 P (a :: l) l' -> exists b r, l' = b :: r /\ P a b /\ Forall2 P l r.
Proof. intros A B P a l l' H. inversion H; subst. eauto. Qed.
Lemma tree_case : forall x e, in_tree x e -> x = e \/ exists c, In c (me_ch e) /\ in_tree x c.
Proof. intros x e T. inversion T; subst; eauto. Qed.
Lemma below : forall m0 src x c, in_tree x c -> forall anc, sees E M m0 src anc (me_val c) -> built_ok E M m0 anc c -> anc <> [] ->
  exists anc', sees E M m0 src anc' (me_val x) /\ anc' <> [].
Proof.
  intros m0 src x c T. induction T as [|e cc I T IH]; intros anc S0 B0 NE; [exists anc; auto|]. destruct (built_looks _ _ _ _ _ B0) as [w [_ [Lw K]]].
            destruct w as [|sz1|sz1 lv|sz1 chs|sz1 t1|ca]; [contradiction| | | | |].
            - destruct K as [_ [_ K]]. rewrite K in I. destruct I.
            - destruct K as [_ [_ K]]. rewrite K in I. destruct I.
            - destruct K as [_ [-> [F _]]]. rewrite Forall_forall in F. eapply IH; [eapply se_node; [exact S0|exact Lw|apply in_map; exact I]|apply F; exact I|discriminate].
            - destruct K as [_ [_ [c' [K1 [K2 K3]]]]]. rewrite K1 in I. destruct I as [<-|[]]. subst t1. inversion Lw as [| | | |sz' p' w' T' NL' S'| | | | |]; subst.
              eapply IH; [eapply se_ptr; eassumption|exact K3|discriminate].
            - destruct (built_call _ _ _ _ _ _ B0 Lw) as [-> F]. rewrite Forall_forall in F. eapply IH; [eapply se_call; [exact S0|exact Lw|apply in_map; exact I]|apply F; exact I|discriminate].
Qed.
Lemma call_sound : forall k src dst s s' evs zs args B,
  copy_ex E M ord cal sd k src dst s = Ret (true, s') -> calls s s' evs ->
  captures E src args -> orderly E M (c_mem s) src -> only_call E M (c_mem s) src -> sizes_are E M (c_mem s) src args zs ->
  let roots := arg_regions E (c_bufs s) args zs in
  blocks_ok B -> held E M (c_mem s) src B -> roomy roots (v_addr dst) B -> fresh_blocks (allocs evs) (taken roots B) ->
  c_items s' (v_addr dst) = new_args E (c_bufs s) args /\
  (forall a, a <> v_addr dst -> (forall r, In r roots -> r_dst r <> a) -> c_items s' a = c_items s a) /\
  exists R, spread E M (c_mem s) (c_mem s') src roots (allocs evs) R.
Proof.
  intros k src dst s s' evs zs args B H Cl [[ii [HI KI]] Ea] CP CD SZ roots OK Hd RM Fr.
  unfold copy_ex in H. apply bind_ret in H. destruct H as [[f1|] [_ H]]; [|apply bind_ret in H; destruct H as [f2 [_ H]]; discriminate].
  apply bind_ret in H. destruct H as [[f2|] [_ H]]; [|discriminate]. apply bind_ret in H. destruct H as [sm [_ H]]. destruct sm; [cbn [negb] in H|discriminate].
  apply bind_ret in H. destruct H as [[mm|] [N H]]; [|discriminate]. rewrite Dag in H.
  destruct (preallocate _ _ _ _ _) as [[ok s1] tab] eqn:Pr in H. destruct ok; cbn [negb] in H; [|discriminate].
  apply bind_ret in H. destruct H as [[b s2] [H1 H]]. injection H as -> <-.
  set (m0 := c_mem s) in *. set (top := mm_top mm) in *.
  pose proof N as N0. apply map_built in N0. destruct N0 as [Bu V _ _ _ _ _ _]. fold top in Bu, V.
  (* the call and its arguments in the memory map *)
  assert (Lk : looks E M m0 [] src (VCall args)).
  { destruct (built_looks _ _ _ _ _ Bu) as [w [_ [Lw K]]]. rewrite V in Lw.
    assert (NI : forall i', has_info d src i' -> ~ callable i' -> False) by (intros i' A1 A2; pose proof (has_info_fun _ _ _ _ HI A1) as <-; contradiction).
    destruct w as [|sz1|sz1 lv|sz1 chs|sz1 t1|ca]; [contradiction| | | | |].
    - exfalso. inversion Lw as [sz' i' I1 K1' S1|sz' t' P' S1|sz' t' p' P' N1 N2 O Hh U' S1| | | | | | |]; subst.
      + eapply NI; [exact I1|]. destruct i'; cbn; auto.
      + eapply NI; [exact (points_info _ _ _ _ _ P')|]. cbn. auto.
      + eapply NI; [exact (points_info _ _ _ _ _ P')|]. cbn. auto.
    - exfalso. inversion Lw as [| | |sz' t' p' l' P' N1 LA S1| | | | | |]; subst. eapply NI; [exact (points_info _ _ _ _ _ P')|]. cbn. auto.
    - exfalso. eapply node_not_call; eassumption.
    - exfalso. inversion Lw as [| | | |sz' p' w' T' NL' S'| | | | |]; subst. destruct (target_points _ _ _ _ _ _ _ T') as [_ [t' P']]. eapply NI; [exact (points_info _ _ _ _ _ P')|]. cbn. auto.
    - inversion Lw; subst. exact Lw. }
  assert (Lk' : looks E M m0 [] (me_val top) (VCall args)) by (rewrite V; exact Lk).
  destruct (built_call _ _ _ _ _ _ Bu Lk') as [Ag Fb]. rewrite Forall_forall in Fb. rewrite V in Fb.
  assert (St : sees E M m0 src [] (me_val top)) by (rewrite V; apply se_here).
  assert (Sc : forall c, In c (me_ch top) -> sees E M m0 src [src] (me_val c)).
  { intros c C. eapply se_call; [apply se_here|exact Lk|]. rewrite Ag. apply in_map. exact C. }
  assert (NCc : forall c i, In c (me_ch top) -> has_info d (me_val c) i -> ~ callable i).
  { intros c i C Hi Ki. pose proof (CD _ _ _ (Sc c C) Hi Ki). discriminate. }
  assert (Tc : forall c, In c (me_ch top) -> in_tree c top) by (intros c C; eapply it_child; [exact C|apply it_here]).
  (* the regions of the arguments *)
  assert (Pos : forall w z, In (w, z) (combine args zs) -> 0 < v_addr w /\ 0 <= z /\ v_addr w + z < 2 ^ 64).
  { intros w z I. destruct (combine_forall _ _ _ _ _ SZ I) as [Ex _]. assert (Iw : In w args) by (eapply in_combine_l; exact I).
    assert (Sw : sees E M m0 src [src] w) by (eapply se_call; [apply se_here|exact Lk|exact Iw]).
    pose proof (extent_nonneg _ _ _ _ _ _ Ex). destruct (cp_fits _ _ _ _ CP _ _ _ Sw Ex). lia. }
  destruct RM as [m1 m2 m3 m4 m5 m6].
  destruct (prepared E M ord cal Dag PO m0 src k mm N CP roots B OK Hd) with (s := s) (s1 := s1) (tab := tab) as [ps [P3 RDY]]; try assumption; try reflexivity.
  { intros r I. destruct (m1 r I). destruct (region_in _ _ _ _ I) as [w [_ [Qw Iw]]]. rewrite Qw. specialize (Pos _ _ Iw). lia. }
  { intros r b w I J. apply (m5 r b w I J). }
  { intros r b w I J. apply (m5 r b w I J). }
  assert (Al : allocs evs = map nb ps).
  { pose proof (copy_tree_log E M cal Dag _ _ _ _ _ _ _ _ H1) as Lg. unfold calls in Cl. rewrite Lg, P3 in Cl. apply app_inv_tail in Cl.
    rewrite <- (rev_involutive evs), <- Cl, rev_involutive. apply allocs_pairs. }
  rewrite Al in *. specialize (RDY Fr). set (R := roots ++ map rp ps) in *.
  destruct (preallocate_items _ _ _ _ _ _ _ _ Pr) as [It1 Bf1].
  (* the storage is filled *)
  rewrite copy_tree_eq in H1. apply bind_ret in H1. destruct H1 as [f [Hf H1]]. destruct f as [fi|].
  2:{ exfalso. destruct (built_info _ _ _ _ _ Bu) as [f0 [F0 _]]. fold top in Hf. rewrite Hf in F0. discriminate. }
  fold top in Hf. apply final_info_some in Hf. rewrite V in Hf. pose proof (has_info_fun _ _ _ _ HI Hf) as <-.
  assert (IC : is_call_info ii = true) by (destruct ii as [ | | | | | | | | | |[|] ?| | | ]; try contradiction; reflexivity).
  rewrite IC in H1. fold top in H1. destruct (c_items s1 (v_addr dst)) eqn:Emp; [|discriminate]. apply bind_ret in H1. destruct H1 as [s3 [H3 H1]].
  rewrite storage_copy_eq in H3.
  assert (SZ2 : Forall2 (fun c z => extent E M m0 [src] (me_val c) z /\ size_of d (me_val c) z) (me_ch top) zs).
  { clear - SZ Ag. revert zs SZ. unfold sizes_are. rewrite Ag. clear Ag. induction (me_ch top) as [|c l IH]; intros zs SZ; inversion SZ; subst; constructor; [assumption|apply IH; assumption]. }
  assert (FS : Forall2 (fun c z => size_of d (me_val c) z /\ (match e_info (deref d (v_entry (me_val c))) with IParam true _ => False | _ => True end)) (me_ch top) zs).
  { assert (G : forall c, In c (me_ch top) -> match e_info (deref d (v_entry (me_val c))) with IParam true _ => False | _ => True end).
    { intros c C. destruct (e_info (deref d (v_entry (me_val c)))) as [ | | | | | | | | | |[|] pt| | | ] eqn:Qi; try exact Logic.I.
      apply (NCc c (IParam true pt) C); [|exact Logic.I]. exists (v_entry (me_val c)). split; [|exact Qi].
      exists []. apply res_stop. intros t q X. rewrite Qi in X. inversion X. }
    clear - SZ2 G. induction SZ2 as [|c z l zs [_ H] F IH]; constructor; [split; [exact H|apply G; left; reflexivity]|apply IH; intros c' C; apply G; right; exact C]. }
  assert (Rq : arg_regions E (c_bufs s1) (map me_val (me_ch top)) zs = roots) by (rewrite Bf1, <- Ag; reflexivity).
  destruct (stored E M Dag (v_addr dst) (me_ch top) zs s1 s3 FS) as [T1 [T2 [T3 [T4 T5]]]]; try (rewrite Rq; assumption); [exact H3|].
  rewrite Rq in T2, T4, T5. rewrite Emp in T1. cbn [app] in T1. rewrite Bf1, <- Ag in T1.
  (* the invariant holds then *)
  pose proof RDY as RDY0. destruct RDY0 as [RF RS RD RX RR RC CB CZ RK RB RU]. fold top in CB.
  assert (Keep : forall r x, In r R -> r_src r <= x < r_src r + r_size r -> c_mem s1 x = m0 x).
  { intros r x I X. apply RK. intros a z J Y. apply in_map_iff in J. destruct J as [p [Q J]]. injection Q as <- <-.
    specialize (RX r (rp p) I ltac:(apply in_or_app; right; apply in_map; exact J)). cbn in RX. lia. }
  assert (Root : forall r i, In r roots -> 0 <= i < r_size r -> c_mem s3 (r_dst r + i) = m0 (r_src r + i)).
  { intros r i I Hi. rewrite (T4 r _ I) by lia. replace (r_src r + (r_dst r + i - r_dst r)) with (r_src r + i) by lia. apply (Keep r); [apply RR; exact I|lia]. }
  assert (Hit : forall x, (exists r, In r roots /\ r_dst r <= x < r_dst r + r_size r) \/ (forall r, In r roots -> ~ (r_dst r <= x < r_dst r + r_size r))).
  { intro x. destruct (existsb (hits x) roots) eqn:Ex.
    - left. apply existsb_exists in Ex. destruct Ex as [r [I X]]. apply hits_iff in X. exists r. auto.
    - right. intros r I X. apply hits_iff in X. assert (existsb (hits x) roots = true) by (apply existsb_exists; exists r; auto). congruence. }
  assert (I0 : Inv E M m0 top R (fun _ _ _ => False) (c_mem s3)).
  { constructor.
    - intro x. destruct (Hit x) as [[r [I X]]|X]; [|rewrite T5 by exact X; apply RB]. replace x with (r_dst r + (x - r_dst r)) by lia. rewrite Root by (try exact I; lia). apply (cp_bytes _ _ _ _ CP).
    - intros x Nx. rewrite T5.
      + apply RK. intros a w I X. apply in_map_iff in I. destruct I as [p [Q I]]. injection Q as <- <-. apply Nx. exists (rp p). split; [apply in_or_app; right; apply in_map; exact I|exact X].
      + intros r I X. apply Nx. exists r. split; [apply RR; exact I|exact X].
    - intros NL a It Na r Ir Ar. cbn [image]. rewrite Na. cbn [Z.eqb].
      assert (Rt : In r roots -> number_at (c_mem s3) (moved r a) 8 = 0).
      { intro J. rewrite (number_shift 8 m0 _ a); [exact Na|]. intros i Hi. unfold in_region, moved in *. replace (r_dst r + (a - r_src r) + i) with (r_dst r + (a - r_src r + i)) by lia.
        rewrite Root by (try exact J; lia). f_equal. lia. }
      destruct (RC r Ir) as [J|[_ [_ J]]]; [exact (Rt J)|]. apply number_zero. intros x X. unfold in_region, moved in *.
      assert (XR : r_dst r <= x < r_dst r + r_size r) by lia. destruct (Hit x) as [[r' [I' X']]|X']; [|rewrite T5 by exact X'; apply J; exact XR].
      destruct (RD r r' Ir (RR _ I')) as [Q|Q]; [|lia]. subst r'. pose proof (Rt I') as Z0.
      replace x with (r_dst r + (x - r_dst r)) by lia. rewrite Root by (try exact I'; lia).
      (* the bytes of a null pointer *)
      assert (NB : forall k m a, (forall x, 0 <= m x < 256) -> number_at m a k = 0 -> forall i, 0 <= i < Z.of_nat k -> m (a + i) = 0).
      { clear. induction k as [|k IH]; intros m a Bo Q i Hi; [lia|]. cbn [number_at] in Q. pose proof (Bo a). pose proof (number_range m (a + 1) k Bo) as NR.
        destruct (Z.eq_dec i 0) as [->|Ni]; [rewrite Z.add_0_r; lia|]. replace (a + i) with (a + 1 + (i - 1)) by lia. apply IH; [exact Bo|lia|lia]. }
      replace (r_src r + (x - r_dst r)) with (a + (x - (r_dst r + (a - r_src r)))) by lia. apply (NB 8%nat m0 a (cp_bytes _ _ _ _ CP) Na). lia.
    - intros a z0 b [] . }
  (* the arguments one after the other *)
  assert (An : forall W, ancs E m0 R W [src] [dst]).
  { intro W. constructor; [|constructor]. intros t p P. exfalso. pose proof (has_info_fun _ _ _ _ HI (points_info _ _ _ _ _ P)) as ->. exact KI. }
  rewrite T1 in H1.
  assert (G : forall l zl kk, incl l (me_ch top) -> Forall2 (fun c z => extent E M m0 [src] (me_val c) z /\ size_of d (me_val c) z) l zl ->
     incl (arg_regions E kk (map me_val l) zl) roots -> forall W s4 s5, Inv E M m0 top R W (c_mem s4) ->
     copy_args E M cal (mm_off mm) tab [] dst l (new_args E kk (map me_val l)) s4 = Ret (true, s5) ->
     c_items s5 = c_items s4 /\ exists W', Inv E M m0 top R W' (c_mem s5) /\ (forall a z b, W a z b -> W' a z b) /\
       (forall c x b, In c l -> in_tree x c -> msc E M x b -> W' (v_addr (me_val x)) (me_size x) b)).
  { induction l as [|c l IH]; intros zl kk Inc FZ IR W s4 s5 I4 Hl.
    - cbn in Hl. injection Hl as <-. split; [reflexivity|]. exists W. split; [exact I4|]. split; [auto|]. intros c x b [].
    - destruct (f2_cons _ _ _ _ FZ) as [z [zl' [-> [[Ez Sz] FZ']]]]. cbn [map new_args copy_args] in Hl. cbn [v_addr] in Hl.
      destruct (en_buf E kk =? 0) eqn:Bz; [discriminate|]. apply bind_ret in Hl. destruct Hl as [[b1 s6] [H6 Hl]]. apply bind_ret in Hl. destruct Hl as [[b2 s7] [H7 Hl]].
      injection Hl as Q <-. apply andb_true_iff in Q. destruct Q as [-> ->].
      assert (C : In c (me_ch top)) by (apply Inc; left; reflexivity).
      assert (Zc : z = me_size c). { eapply extent_fun; [exact (cp_local _ _ _ _ CP)|exact Ez|apply same_ctx_refl|apply built_extent; apply Fb; exact C]. }
      set (r := Build_region (v_addr (me_val c)) z (en_buf E kk)).
      assert (Ir : In r R) by (apply RR, IR; left; reflexivity).
      destruct (tree_inv E M cal m0 src top Bu V CP UI R RF RS RD RX (mm_off mm) tab CB Dag CD c W s4 (Build_value (v_entry (me_val c)) (en_buf E kk)) r [src] [dst] s6) as [W1 [I6 [Sub1 All1]]].
      + intros i Hi. apply (NCc c i C Hi).
      + exact I4.
      + apply Tc. exact C.
      + apply Sc. exact C.
      + apply Fb. exact C.
      + exact Ir.
      + unfold in_region, r. cbn. lia.
      + unfold moved, r. cbn. lia.
      + apply twin_self.
      + apply An.
      + exact H6.
      + assert (It6 : c_items s6 = c_items s4).
        { eapply copy_tree_items; [exact Dag| |exact H6]. intros x i T Hi Ki.
          assert (exists anc, sees E M m0 src anc (me_val x) /\ anc <> []) as [anc [Sx Nx]].
          { eapply below; [exact T|apply Sc; exact C|apply Fb; exact C|discriminate]. }
          apply Nx. exact (CD _ _ _ Sx Hi Ki). }
        destruct (IH zl' (S kk) (fun x X => Inc x (or_intror X)) FZ' (fun x X => IR x (or_intror X)) W1 s6 s7 I6 H7) as [It7 [W2 [I7 [Sub2 All2]]]].
        split; [congruence|]. exists W2. split; [exact I7|]. split; [auto|]. intros c' x b [<-|C'] Tx Mx; [apply Sub2; eapply All1; eassumption|eapply All2; eassumption]. }
  rewrite Ag in H1. destruct (G (me_ch top) zs (c_bufs s) (fun x X => X) SZ2) with (W := fun (_ _ : Z) (_ : bool) => False) (s4 := s3) (s5 := s2) as [It2 [W [IW [_ All2]]]].
  { unfold roots. rewrite Ag. intros x X. exact X. }
  { exact I0. }
  { exact H1. }
  split; [rewrite It2; exact T1|]. split.
  { intros a Na Nr. rewrite It2, T2 by assumption. rewrite It1. reflexivity. }
  exists R. eapply (finish E M cal Dag m0 src k mm N CP CD roots B tab s s1 R (map nb ps) (c_mem s2) W RDY eq_refl IW).
  - intros x b Tx Mx. destruct (tree_case _ _ Tx) as [->|[c [C T]]]; [|eapply All2; eassumption].
    exfalso. destruct Mx as [i [Hi Ki]]. fold top in Hi. rewrite V in Hi. pose proof (has_info_fun _ _ _ _ HI Hi) as <-. destruct ii as [ | | | | | | | | | |[|] ?| | | ]; contradiction.
  - intros e Te NCe. destruct (tree_case _ _ Te) as [->|[c [C T]]]; [exfalso; fold top in NCe; rewrite V in NCe; exact (NCe _ HI KI)|].
    assert (CR : forall e c t, in_tree e top -> In c (me_ch e) -> has_info d (me_val e) (IPointer t) -> exists rc, In rc R /\ in_region rc (v_addr (me_val c)) (me_size c)).
    { intros e' c' t Q1 Q2 Q3. destruct (CB e' c' t Q1 Q2 Q3) as [rc [C1 [C2 _]]]. exists rc. auto. }
    eapply (tree_region E M m0 src top V CP CD R CR e c T [src]); [apply Tc; exact C|apply Sc; exact C|apply Fb; exact C|intros i; apply NCc; exact C|].
    assert (exists z kk, In (Build_region (v_addr (me_val c)) z (en_buf E kk)) roots /\ z = me_size c) as [z [kk [Ik Zc]]].
    { assert (Gz : forall l zl kk, incl l (me_ch top) -> Forall2 (fun c z => extent E M m0 [src] (me_val c) z /\ size_of d (me_val c) z) l zl -> In c l ->
        exists z kk', In (Build_region (v_addr (me_val c)) z (en_buf E kk')) (arg_regions E kk (map me_val l) zl) /\ z = me_size c).
      { induction l as [|c0 l IH]; intros zl kk Inc FZ Ic; [destruct Ic|]. destruct (f2_cons _ _ _ _ FZ) as [z [zl' [-> [[Ez Sz] FZ']]]]. cbn [map arg_regions].
        destruct Ic as [->|Ic].
        - exists z, kk. split; [left; reflexivity|]. eapply extent_fun; [exact (cp_local _ _ _ _ CP)|exact Ez|apply same_ctx_refl|apply built_extent; apply Fb; exact C].
        - destruct (IH zl' (S kk) (fun x X => Inc x (or_intror X)) FZ' Ic) as [z' [kk' [A1 A2]]]. exists z', kk'. split; [right; exact A1|exact A2]. }
      destruct (Gz (me_ch top) zs (c_bufs s) (fun x X => X) SZ2 C) as [z [kk [A1 A2]]]. exists z, kk. split; [|exact A2]. unfold roots. rewrite Ag. exact A1. }
    eexists. split; [apply RR; exact Ik|]. unfold in_region. cbn. lia.
Qed.
End Sound.
