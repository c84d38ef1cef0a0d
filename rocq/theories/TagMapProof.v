(** Proofs about tag maps. *)
From Coq Require Import ZArith String List Bool Lia ZifyBool Permutation.
From Verif Require Import Base EntryModel EntrySpec EntryProof TagMapModel TagMapSpec.
Import ListNotations.
Open Scope Z_scope.

Lemma land_bit : forall mask b, 0 <= b -> (Z.land mask (Z.shiftl 1 b) =? 0) = negb (Z.testbit mask b).
Proof.
  intros mask b B. rewrite Z.shiftl_1_l. destruct (Z.testbit mask b) eqn:T; cbn [negb].
  - apply Z.eqb_neq. intros E. assert (X : Z.testbit (Z.land mask (2 ^ b)) b = false) by (rewrite E; apply Z.bits_0).
    rewrite Z.land_spec, T, Z.pow2_bits_true in X by auto. discriminate.
  - apply Z.eqb_eq. apply Z.bits_inj'. intros i I. rewrite Z.land_spec, Z.bits_0, Z.pow2_bits_eqb by auto. destruct (Z.eqb_spec b i); [subst; rewrite T; auto|apply andb_false_r].
Qed.
Lemma admits_mask : forall d mask e, kind_ok d e -> (Z.land mask (kind_mask d (Some e)) =? 0) = false <-> admits d mask e.
Proof.
  intros d mask e K. unfold kind_mask, entry_kind, admits.
  assert (G : forall b, 0 <= b -> (forall b', bit_of d e b' <-> b' = b) ->
    (Z.land mask (Z.shiftl 1 b) =? 0) = false <-> exists b0, bit_of d e b0 /\ Z.testbit mask b0 = true).
  { intros b B U. rewrite land_bit by auto. rewrite negb_false_iff. split. - intros T. exists b. split; auto. apply U. auto. - intros (b0 & X & T). apply U in X. congruence. }
  assert (N : (forall b, ~ bit_of d e b) -> (Z.land mask 0 =? 0) = false <-> exists b0, bit_of d e b0 /\ Z.testbit mask b0 = true).
  { intros NB. rewrite Z.land_0_r. split. discriminate. intros (b0 & X & _). exfalso. eapply NB; eauto. }
  destruct (e_info (deref d e)) as [t|q t|z c|t|rb z t|z l|t c|mi|ak z l|t|u t|t l|t l|k] eqn:I.
  all: try (apply N; intros b0 X; inversion X; congruence).
  all: try (destruct q; apply N; intros b0 X; inversion X; congruence).
  all: try (destruct rb; apply N; intros b0 X; inversion X; congruence).
  all: try (destruct ak; apply N; intros b0 X; inversion X; congruence).
  - apply (G 2); [lia|]. intros b'. split; [intros X; inversion X; congruence|intros ->; econstructor; eauto].
  - apply (G 0); [lia|]. intros b'. split; [intros X; inversion X; congruence|intros ->; econstructor; eauto].
  - apply (G 1); [lia|]. intros b'. split; [intros X; inversion X; congruence|intros ->; econstructor; eauto].
  - destruct (K k I) as (K1 & K2 & K3). cbn [kind_of]. destruct (Z.eqb_spec k KND_member); [congruence|]. destruct (Z.eqb_spec k KND_variable); [congruence|].
    destruct (Z.eqb_spec k KND_func_parameter); [congruence|]. apply N. intros b0 X. inversion X; congruence.
Qed.
Lemma admits_not : forall d mask e, kind_ok d e -> (Z.land mask (kind_mask d (Some e)) =? 0) = true <-> ~ admits d mask e.
Proof. intros d mask e K. rewrite <- (admits_mask d mask e K). destruct (_ =? 0); split; intros; congruence. Qed.

(** bindings *)
Lemma same_entry_iff : forall a b, same_entry a b = true <-> exists r, a = St r /\ b = St r.
Proof.
  intros a b. destruct a as [x|x], b as [y|y]; cbn; try (split; [discriminate|intros (r & A & B); discriminate]).
  rewrite Nat.eqb_eq. split. - intros ->. eauto. - intros (r & A & B). congruence.
Qed.
Lemma get_some : forall l e t, get l e = Some t -> bound l e t.
Proof.
  induction l as [|(k, u) l IH]; intros e t H; cbn in H; [discriminate|]. destruct (same_entry k e) eqn:S.
  - apply same_entry_iff in S. destruct S as (r & -> & ->). injection H as <-. exists r. split; auto. left; auto.
  - destruct (IH _ _ H) as (r & -> & I). exists r. split; auto. right; auto.
Qed.
Lemma get_none : forall l e, get l e = None -> unbound l e.
Proof.
  induction l as [|(k, u) l IH]; intros e H t (r & -> & I); cbn in H; [destruct I|]. destruct (same_entry k (St r)) eqn:S; [discriminate|].
  destruct I as [I|I]. - injection I as -> ->. cbn in S. rewrite Nat.eqb_refl in S. discriminate. - apply (IH (St r) H t). exists r. auto.
Qed.
Lemma bound_get : forall l e t, map_ok l -> bound l e t -> get l e = Some t.
Proof.
  intros l e t (ND & _) (r & -> & I). induction l as [|(k, u) l IH]; [destruct I|]. cbn [get]. inversion ND as [|? ? NI ND']; subst. destruct I as [I|I].
  - injection I as -> ->. cbn. rewrite Nat.eqb_refl. reflexivity.
  - destruct (same_entry k (St r)) eqn:S; auto. apply same_entry_iff in S. destruct S as (r' & -> & E). injection E as <-. exfalso. apply NI. apply (in_map fst) in I. exact I.
Qed.
Lemma get_bound : forall l e t, map_ok l -> get l e = Some t <-> bound l e t.
Proof. split; [apply get_some|apply bound_get; auto]. Qed.
Lemma unbound_get : forall l e, map_ok l -> get l e = None <-> unbound l e.
Proof. intros l e M. split; [apply get_none|]. intros U. destruct (get l e) eqn:G; auto. exfalso. eapply U. apply get_some. eauto. Qed.

Lemma own_lookup_spec : forall n d mask l e o, map_ok l -> own_lookup n d mask l e = Ret o ->
  match o with Some t => own_tag d mask l e t | None => forall t, ~ own_tag d mask l e t end.
Proof.
  intros n d mask l e o M H. unfold own_lookup in H. destruct (get l e) as [t|] eqn:G.
  - injection H as <-. left. apply get_some. auto.
  - apply unbound_get in G; auto. unfold mask_of, TEC_final in H. rewrite land_bit in H by lia.
    destruct (Z.testbit mask 3) eqn:T; cbn [negb] in H.
    + destruct (final_entry n d (Some e) no_quals) as [[f q]| | |] eqn:F; try discriminate. cbn [bind fst] in H. injection H as <-.
      destruct (final_entry_inv _ _ _ _ _ _ F) as (qs & R). destruct f as [f|].
      * destruct (get l f) as [t|] eqn:GF.
        -- right. split; auto. split; auto. exists f. split. exists qs; auto. apply get_some. auto.
        -- intros t [B|(_ & _ & f' & FT & B)]. eapply G; eauto. assert (Some f' = Some f) by (eapply final_type_fun; eauto; exists qs; auto). assert (f' = f) by congruence. subst.
           apply unbound_get in GF; auto. eapply GF; eauto.
      * intros t [B|(_ & _ & f' & FT & B)]. eapply G; eauto. assert (Some f' = None) by (eapply final_type_fun; eauto; exists qs; auto). discriminate.
    + injection H as <-. intros t [B|(_ & C & _)]. eapply G; eauto. unfold covers_final in C. congruence.
Qed.
Lemma own_lookup_total : forall d n mask l e, acyclic d n -> exists o, own_lookup (n + 3) d mask l e = Ret o.
Proof.
  intros d n mask l e A. unfold own_lookup. destruct (get l e); eauto. destruct (_ =? 0); eauto. destruct (final_entry_total d n (Some e) no_quals A) as (x & ->). cbn [bind]. eauto.
Qed.

(** induction over maps *)
Section Ind.
Variable P : tmap -> Prop.
Hypothesis H0 : forall df, P (TMap [] df).
Hypothesis HE : forall mask x r df, P x -> P (TMap r df) -> P (TMap (Ext mask x :: r) df).
Hypothesis HO : forall mask l r df, P (TMap r df) -> P (TMap (Own mask l :: r) df).
Fixpoint tmap_ind2 (m : tmap) : P m :=
  match m with
  | TMap cats df =>
    (fix go (l : list cat) : P (TMap l df) :=
       match l with
       | [] => H0 df
       | Ext mask x :: r => HE mask x r df (tmap_ind2 x) (go r)
       | Own mask b :: r => HO mask b r df (go r)
       end) cats
  end.
End Ind.

Lemma tag_map_tag_ext : forall nd n d mask x r df e, tag_map_tag nd n d (TMap (Ext mask x :: r) df) e =
  if Z.land mask (kind_mask d (Some e)) =? 0 then tag_map_tag nd n d (TMap r df) e
  else bind (tag_map_tag nd n d x e) (fun t => match t with Some t => Ret (Some t) | None => if nd then tag_map_tag nd n d (TMap r df) e else Abort end).
Proof. reflexivity. Qed.
Lemma tag_map_tag_own : forall nd n d mask l r df e, tag_map_tag nd n d (TMap (Own mask l :: r) df) e =
  if Z.land mask (kind_mask d (Some e)) =? 0 then tag_map_tag nd n d (TMap r df) e
  else bind (own_lookup n d mask l e) (fun t => match t with Some t => Ret (Some t) | None => tag_map_tag nd n d (TMap r df) e end).
Proof. reflexivity. Qed.

Lemma lookup_sound : forall nd n d e, kind_ok d e -> forall m o, wf m -> tag_map_tag nd n d m e = Ret o -> answer d e m o.
Proof.
  intros nd n d e K m. induction m as [df|mask x r df IHx IH|mask l r df IH] using tmap_ind2; intros o W H.
  - injection H as <-. constructor.
  - rewrite tag_map_tag_ext in H. destruct W as (WX & W). destruct (Z.land mask (kind_mask d (Some e)) =? 0) eqn:A.
    + apply admits_not in A; auto. apply ans_skip_ext; auto.
    + apply admits_mask in A; auto. destruct (tag_map_tag nd n d x e) as [[t|]| | |] eqn:X; try discriminate; cbn [bind] in H.
      * injection H as <-. apply ans_ext; auto.
      * destruct nd; [|discriminate]. apply ans_ext_none; auto.
  - rewrite tag_map_tag_own in H. destruct W as (WX & W). destruct (Z.land mask (kind_mask d (Some e)) =? 0) eqn:A.
    + apply admits_not in A; auto. apply ans_skip_own; auto.
    + apply admits_mask in A; auto. destruct (own_lookup n d mask l e) as [[t|]| | |] eqn:X; try discriminate; cbn [bind] in H; apply own_lookup_spec in X; auto.
      * injection H as <-. apply ans_own; auto.
      * apply ans_own_none; auto.
Qed.
Lemma own_tag_fun : forall d mask l e t t', map_ok l -> own_tag d mask l e t -> own_tag d mask l e t' -> t = t'.
Proof.
  intros d mask l e t t' M [B|(U & C & f & F & B)] [B'|(U' & C' & f' & F' & B')].
  - apply get_bound in B, B'; auto. congruence.
  - exfalso. eapply U'; eauto.
  - exfalso. eapply U; eauto.
  - assert (Some f = Some f') by (eapply final_type_fun; eauto). assert (f = f') by congruence. subst. apply get_bound in B, B'; auto. congruence.
Qed.
Lemma answer_fun : forall d e m o, answer d e m o -> wf m -> forall o', answer d e m o' -> o = o'.
Proof.
  intros d e m o H. induction H as [df|mask x r df o NA H IH|mask l r df o NA H IH|mask x r df t A H IH|mask x r df o A H1 IH1 H IH|mask l r df t A T|mask l r df o A T H IH];
    intros W o' H'; inversion H'; subst; try contradiction; auto; cbn in W; try (apply IH; auto; tauto).
  - assert (Some t = None) by (apply IH; auto; tauto). discriminate.
  - assert (None = Some t) by (apply IH1; auto; tauto). discriminate.
  - f_equal. eapply own_tag_fun; eauto. tauto.
  - exfalso. eapply H5; eauto.
  - exfalso. eapply T; eauto.
Qed.
Lemma lookup_total : forall d n e nd m, acyclic d n -> nd = true \/ own_only m -> exists o, tag_map_tag nd (n + 3) d m e = Ret o.
Proof.
  intros d n e nd m A. induction m as [df|mask x r df IHx IH|mask l r df IH] using tmap_ind2; intros O.
  - eexists. reflexivity.
  - destruct O as [->|O]. 2:{ inversion O as [|? ? (m0 & l0 & C)]; discriminate. }
    rewrite tag_map_tag_ext. destruct (_ =? 0); auto. destruct (IHx (or_introl eq_refl)) as (o & ->). cbn [bind]. destruct o; eauto.
  - rewrite tag_map_tag_own. assert (O' : nd = true \/ own_only (TMap r df)). { destruct O as [->|O]; auto. right. inversion O; auto. }
    destruct (_ =? 0); auto. destruct (own_lookup_total d n mask l e A) as (o & ->). cbn [bind]. destruct o; eauto.
Qed.

(** setting tags *)
Lemma put_bound : forall l r t e u, map_ok l -> bound (put l (St r) t) e u <-> (e = St r /\ u = t) \/ (e <> St r /\ bound l e u).
Proof.
  intros l r t e u (ND & FA). induction l as [|(k, w) l IH]; cbn [put].
  - unfold bound. cbn. split.
    + intros (r' & -> & [I|[]]). injection I as -> ->. auto. + intros [(-> & ->)|(_ & r' & _ & [])]. exists r. auto.
  - inversion ND as [|? ? NI ND']; subst. inversion FA as [|? ? (kr & KR) FA']; subst. cbn in KR. subst k. specialize (IH ND' FA').
    destruct (same_entry (St kr) (St r)) eqn:S.
    + apply same_entry_iff in S. destruct S as (r' & E1 & E2). assert (kr = r) by congruence. subst kr. unfold bound. cbn. split.
      * intros (x & -> & [I|I]). -- injection I as -> ->. auto. -- right. split. intros E. apply NI. rewrite <- E. apply (in_map fst) in I. exact I. exists x. auto.
      * intros [(-> & ->)|(NE & x & -> & [I|I])]. -- exists r. auto. -- congruence. -- exists x. auto.
    + assert (kr <> r). { intros ->. cbn in S. rewrite Nat.eqb_refl in S. discriminate. }
      assert (B : forall x L, bound ((St kr, w) :: L) e x <-> (e = St kr /\ x = w) \/ bound L e x).
      { intros x L. unfold bound. cbn. split. - intros (y & -> & [I|I]). left. split; congruence. right. eauto. - intros [(-> & ->)|(y & -> & I)]; eauto. }
      rewrite !B, IH. assert (NK : St kr <> St r) by congruence. clear - NK. split.
      * intros [(-> & ->)|[(-> & ->)|(NE & X)]]; auto.
      * intros [(-> & ->)|(NE & [(-> & ->)|X])]; auto.
Qed.
Lemma put_keys : forall l r t, exists k, map fst (put l (St r) t) = map fst l ++ k /\ (k = [] \/ k = [St r]) /\ (k <> [] -> get l (St r) = None).
Proof.
  induction l as [|(k, w) l IH]; intros r t; cbn [put].
  - exists [St r]. auto.
  - cbn [get]. destruct (same_entry k (St r)) eqn:S. + exists []. rewrite app_nil_r. auto. intuition congruence.
    + destruct (IH r t) as (k' & E & K & G). exists k'. cbn. rewrite E. auto.
Qed.
Lemma put_ok : forall l r t, map_ok l -> map_ok (put l (St r) t).
Proof.
  intros l r t M. destruct (put_keys l r t) as (k & E & K & G). split.
  - rewrite E. destruct K as [->| ->]. rewrite app_nil_r. apply M. assert (GN := G ltac:(discriminate)). apply unbound_get in GN; auto.
    assert (NI : ~ In (St r) (map fst l)). { intros I. apply in_map_iff in I. destruct I as ((e & u) & EQ & I). cbn in EQ. subst e. apply (GN u). exists r. auto. }
    apply (Permutation_NoDup (l := St r :: map fst l)); [apply Permutation_cons_append|]. constructor; auto. apply M.
  - apply Forall_forall. intros (e & u) I. assert (IK : In e (map fst (put l (St r) t))) by (apply (in_map fst) in I; exact I). rewrite E in IK. apply in_app_iff in IK. destruct IK as [IK|IK].
    + apply in_map_iff in IK. destruct IK as ((e' & u') & EQ & I'). cbn in EQ. subst e'. destruct M as (_ & FA). rewrite Forall_forall in FA. apply (FA _ I').
    + destruct K as [->| ->]; [destruct IK|]. destruct IK as [<-|[]]. cbn. eauto.
Qed.

Lemma set_in_spec : forall l ov r t a s l' f, map_ok l -> set_tag_in l ov (St r) t a = Ret (s, l', f) ->
  (s = 0 -> l' = put l (St r) t /\ (get l (St r) = None \/ ov = true)) /\ (s <> 0 -> l' = l) /\ (ov = false -> get l (St r) <> None -> s = - EALREADY).
Proof.
  intros l ov r t a s l' f M H. unfold set_tag_in in H. destruct (get l (St r)) as [old|] eqn:G; destruct ov; cbn [negb andb] in H;
  repeat match type of H with context [if ?b then _ else _] => destruct b end; try discriminate; injection H as <- <- <-; repeat split; intros; auto; try discriminate; try congruence.
Qed.
Lemma set_in_total : forall l ov e t a, exists x, set_tag_in l ov e t a = Ret x.
Proof.
  intros l ov e t a. unfold set_tag_in. destruct (get l e); destruct ov; cbn [negb andb]; repeat match goal with |- context [if ?b then _ else _] => destruct b end; eauto.
Qed.
Lemma nth_upd : forall l i c j, nth_error (upd_cat l i c) j = if Nat.eqb i j then match nth_error l j with Some _ => Some c | None => None end else nth_error l j.
Proof.
  induction l as [|x l IH]; intros [|i] c [|j]; cbn; auto. - destruct (Nat.eqb i j); reflexivity.
Qed.
Lemma upd_same : forall l i c, nth_error l i = Some c -> upd_cat l i c = l.
Proof. induction l as [|x l IH]; intros [|i] c H; cbn in *; try congruence. f_equal. auto. Qed.
Lemma wf_nth : forall cats df, wf (TMap cats df) <-> forall i c, nth_error cats i = Some c -> match c with Ext _ x => wf x | Own _ l => map_ok l end.
Proof.
  induction cats as [|c cats IH]; intros df. - split; auto. intros _ [|i] c H; discriminate. intros _. exact I.
  - assert (E : wf (TMap (c :: cats) df) <-> (match c with Ext _ x => wf x | Own _ l => map_ok l end) /\ wf (TMap cats df)) by (destruct c; cbn; tauto).
    rewrite E, IH. split. + intros (H1 & H2) [|i] c' N; cbn in N; [assert (c' = c) by congruence; subst; auto|eapply H2; eauto]. + intros H. split. apply (H 0%nat); auto. intros i c' N. apply (H (S i)); auto.
Qed.
Lemma resolves_static : forall d p qs f, resolves d p qs f -> (forall e, p = Some e -> exists r, e = St r) -> forall e, f = Some e -> exists r, e = St r.
Proof.
  intros d p qs f H. induction H as [|e0 K|e0 t q qs f S R IH]; intros P e E; try discriminate; auto.
  apply IH; auto. intros e' L. destruct t as [t|]; [|discriminate]. injection L as <-. eauto.
Qed.
Lemma set_tag_spec : forall n d m c s m' f, wf m -> (forall e, k_entry c = Some e -> exists r, e = St r) ->
  set_tag n d m (k_category c) (k_override c) (k_entry c) (k_op c) (k_tag c) (k_allocs c) = Ret (s, m', f) ->
  wf m' /\ default_of m' = default_of m /\
  (forall j, Z.of_nat j <> k_category c -> cat_at m' j = cat_at m j) /\
  (s <> 0 -> m' = m) /\
  (s = 0 -> (k_op c = 1 \/ k_op c = 2) ->
     exists mask l r t, 0 <= k_category c /\ cat_at m (Z.to_nat (k_category c)) = Some (Own mask l) /\ k_tag c = Some t /\ target d c r /\
       cat_at m' (Z.to_nat (k_category c)) = Some (Own mask (put l (St r) t)) /\ (unbound l (St r) \/ k_override c = true)) /\
  (s = 0 -> k_op c <> 1 -> k_op c <> 2 -> m' = m /\ f = nothing) /\
  (forall mask l r, k_override c = false -> 0 <= k_category c -> cat_at m (Z.to_nat (k_category c)) = Some (Own mask l) -> target d c r -> ~ unbound l (St r) ->
     k_tag c <> None -> s = - EALREADY).
Proof.
  intros n d (cats, df) c s m' f W ST H. unfold set_tag in H. cbn [cat_at default_of].
  assert (BAD : s <> 0 -> m' = TMap cats df -> (s = - EINVAL \/ s = - EFAULT) -> wf m' /\ default_of m' = df /\ (forall j, Z.of_nat j <> k_category c -> cat_at m' j = nth_error cats j) /\ (s <> 0 -> m' = TMap cats df) /\ (s = 0 -> False)).
  { intros NZ -> _. repeat split; auto. }
  destruct (k_entry c) as [e|] eqn:KE; [|].
  2:{ injection H as <- <- <-. repeat split; auto; try discriminate. intros mask l r _ _ _ T. unfold target in T. rewrite KE in T. destruct T. }
  destruct (ST e eq_refl) as (re & ->).
  destruct (k_tag c) as [t|] eqn:KT. 2:{ injection H as <- <- <-. repeat split; auto; try discriminate. congruence. }
  destruct ((k_category c <? 0) || (Z.of_nat (Datatypes.length cats) <=? k_category c)) eqn:R.
  { injection H as <- <- <-. repeat split; auto; try discriminate. intros mask l r _ C0 N. exfalso. assert (nth_error cats (Z.to_nat (k_category c)) <> None) by congruence. apply nth_error_Some in H. lia. }
  destruct (nth_error cats (Z.to_nat (k_category c))) as [[mask x|mask l]|] eqn:N.
  1,3: injection H as <- <- <-; repeat split; auto; try discriminate; intros mask0 l0 r0 _ C0 N0; rewrite N in N0; discriminate.
  assert (ML : map_ok l). { rewrite wf_nth in W. apply (W _ _ N). }
  assert (STORE : forall r, (do r0 <- set_tag_in l (k_override c) (St r) t (k_allocs c); (let '(s0, l0, f0) := r0 in Ret (s0, TMap (upd_cat cats (Z.to_nat (k_category c)) (Own mask l0)) df, f0)))%res = Ret (s, m', f) ->
    wf m' /\ default_of m' = df /\ (forall j, Z.of_nat j <> k_category c -> cat_at m' j = nth_error cats j) /\ (s <> 0 -> m' = TMap cats df) /\
    (s = 0 -> cat_at m' (Z.to_nat (k_category c)) = Some (Own mask (put l (St r) t)) /\ (unbound l (St r) \/ k_override c = true)) /\
    (k_override c = false -> ~ unbound l (St r) -> s = - EALREADY)).
  { intros r HS. destruct (set_in_total l (k_override c) (St r) t (k_allocs c)) as (((s0, l0), f0) & X). rewrite X in HS. cbn [bind] in HS. injection HS as <- <- <-.
    destruct (set_in_spec _ _ _ _ _ _ _ _ ML X) as (S1 & S2 & S3).
    assert (OKL : map_ok l0). { destruct (Z.eq_dec s0 0) as [Z0|Z0]. destruct (S1 Z0) as (-> & _). apply put_ok; auto. rewrite (S2 Z0). auto. }
    split. { rewrite wf_nth in W |- *. intros i c0 NI. rewrite nth_upd in NI. destruct (Nat.eqb_spec (Z.to_nat (k_category c)) i). subst i. rewrite N in NI. injection NI as <-. exact OKL. apply (W i); auto. }
    split; [reflexivity|]. split. { intros j J. cbn. rewrite nth_upd. destruct (Nat.eqb_spec (Z.to_nat (k_category c)) j); auto. lia. }
    split. { intros NZ. rewrite (S2 NZ). rewrite upd_same; auto. }
    split. { intros Z0. destruct (S1 Z0) as (-> & U). cbn. rewrite nth_upd, Nat.eqb_refl, N. split; auto. destruct U as [U|U]; auto. left. apply unbound_get; auto. }
    intros OV NU. apply S3; auto. intros G. apply NU. apply unbound_get; auto. }
  assert (C0 : 0 <= k_category c) by lia.
  unfold TEO_entry, TEO_final_entry in H. destruct (Z.eqb_spec (k_op c) 1) as [O1|O1].
  { destruct (STORE re H) as (A1 & A2 & A3 & A4 & A5 & A6). split; auto. split; auto. split; auto. split; auto. assert (TG : target d c re). { unfold target. rewrite KE. auto. }
    split. { intros Z0 _. destruct (A5 Z0). exists mask, l, re, t. auto 8. } split. { intros; contradiction. }
    intros mask' l' r' OV _ N' TG' NU _. injection N' as <- <-. unfold target in TG'. rewrite KE in TG'. destruct TG' as [(_ & ->)|(O2 & _)]; [|lia]. auto. }
  destruct (Z.eqb_spec (k_op c) 2) as [O2|O2].
  { destruct (final_entry n d (Some (St re)) no_quals) as [[g q]| | |] eqn:F; try discriminate. cbn [bind fst] in H.
    destruct (final_entry_inv _ _ _ _ _ _ F) as (qs & RS). destruct g as [g|].
    - assert (SG : exists rg, g = St rg). { eapply resolves_static; [exact RS| |reflexivity]. intros e E. exists re. congruence. } destruct SG as (rg & ->).
      destruct (STORE rg H) as (A1 & A2 & A3 & A4 & A5 & A6). split; auto. split; auto. split; auto. split; auto.
      assert (TG : target d c rg). { unfold target. rewrite KE. right. split; auto. exists qs. auto. }
      split. { intros Z0 _. destruct (A5 Z0). exists mask, l, rg, t. auto 8. } split. { intros; contradiction. }
      intros mask' l' r' OV _ N' TG' NU _. injection N' as <- <-. unfold target in TG'. rewrite KE in TG'. destruct TG' as [(O3 & _)|(_ & FT)]; [lia|].
      assert (Some (St r') = Some (St rg)) by (eapply final_type_fun; eauto; exists qs; auto). assert (r' = rg) by congruence. subst. auto.
    - injection H as <- <- <-. repeat split; auto; try discriminate. intros mask' l' r' OV _ N' TG' NU _. unfold target in TG'. rewrite KE in TG'. destruct TG' as [(O3 & _)|(_ & FT)]; [lia|].
      assert (Some (St r') = None) by (eapply final_type_fun; eauto; exists qs; auto). discriminate. }
  injection H as <- <- <-. repeat split; auto; try contradiction.
  - intros _ [O|O]; lia.
  - intros mask' l' r' OV _ N' TG' NU _. unfold target in TG'. rewrite KE in TG'. destruct TG' as [(O3 & _)|(O3 & _)]; lia.
Qed.

(** ownership of contexts and blocks *)
Definition held (l : list (eptr * tag)) : list Z := flat_map (fun b => released (snd b)) l.
Definition size (l : list (eptr * tag)) : Z := fold_right Z.add 0 (map (fun b => blocks (snd b)) l).
Definition cat_held (c : cat) : list Z := match c with Ext _ _ => [] | Own _ l => held l end.
Definition cat_size (c : cat) : Z := match c with Ext _ _ => 0 | Own _ l => size l end.
Definition map_held (m : tmap) : list Z := match m with TMap cats df => flat_map cat_held cats ++ match df with Some t => released t | None => [] end end.
Definition map_size (m : tmap) : Z := match m with TMap cats df => fold_right Z.add 0 (map cat_size cats) + match df with Some t => blocks t | None => 0 end end.
Lemma delete_map_spec : forall m, f_released (delete_map m) = map_held m /\ f_blocks (delete_map m) = - map_size m.
Proof.
  intros (cats, df). unfold delete_map, map_held, map_size.
  assert (E : f_released (fold_right (fun c f => join (delete_cat c) f) nothing cats) = flat_map cat_held cats /\
              f_blocks (fold_right (fun c f => join (delete_cat c) f) nothing cats) = - fold_right Z.add 0 (map cat_size cats)).
  { induction cats as [|c cats (IH1 & IH2)]; [split; reflexivity|]. cbn [fold_right flat_map map join f_released f_blocks]. rewrite IH1, IH2.
    destruct c; cbn [delete_cat cat_held cat_size nothing f_released f_blocks delete_binds]; split; auto; unfold size; lia. }
  destruct E as (E1 & E2). cbn [join f_released f_blocks]. rewrite E1, E2. destruct df; cbn [nothing f_released f_blocks]; split; auto; lia.
Qed.
Lemma released_given : forall t, released t = given t.
Proof. intros t. unfold released, given. destruct (t_context t =? 0); cbn; destruct (t_free t); reflexivity. Qed.
Lemma put_held : forall l r t, Permutation (match get l (St r) with Some old => released old | None => [] end ++ held (put l (St r) t)) (held l ++ released t) /\
  size (put l (St r) t) = size l + blocks t - match get l (St r) with Some old => blocks old | None => 0 end.
Proof.
  induction l as [|(k, w) l IH]; intros r t; cbn [put get].
  - unfold held, size. cbn [flat_map map fold_right snd app]. rewrite app_nil_r. split; [auto|lia].
  - destruct (same_entry k (St r)).
    + unfold held, size. cbn [flat_map map fold_right snd]. split; [|lia]. rewrite <- app_assoc. apply Permutation_app_head. apply Permutation_app_comm.
    + destruct (IH r t) as (P & Z1). unfold size in *. unfold held in *. cbn [flat_map map fold_right snd]. split.
      * rewrite <- app_assoc. rewrite <- P. rewrite !app_assoc. apply Permutation_app_tail. apply Permutation_app_comm.
      * rewrite Z1. lia.
Qed.
Lemma set_in_owns : forall l ov r t a s l' f, set_tag_in l ov (St r) t a = Ret (s, l', f) ->
  Permutation (f_released f ++ held l') (held l ++ if s =? 0 then given t else []) /\ (a_put a = true -> f_blocks f = size l' - size l) /\ size l' - size l <= f_blocks f.
Proof.
  intros l ov r t a s l' f H. destruct (put_held l r t) as (P & SZ). rewrite <- released_given. unfold set_tag_in in H.
  destruct (negb ov && match get l (St r) with Some _ => true | None => false end). { injection H as <- <- <-. cbn. rewrite app_nil_r. split; auto. split; intros; lia. }
  destruct (negb (a_tag a)). { injection H as <- <- <-. cbn. rewrite app_nil_r. split; auto. split; intros; lia. }
  destruct (match t_string t with Some _ => _ | None => _ end). { injection H as <- <- <-. cbn. rewrite app_nil_r. split; auto. split; intros; lia. }
  destruct (get l (St r)) as [old|] eqn:G.
  - destruct ov; [|discriminate]. injection H as <- <- <-. cbn [f_released f_blocks Z.eqb]. split; auto. split; intros; lia.
  - destruct (a_put a) eqn:AP; injection H as <- <- <-; cbn [f_released f_blocks].
    + cbn [Z.eqb]. split; auto. split; intros; lia.
    + cbn. rewrite app_nil_r. split; auto. split; [discriminate|]. unfold blocks. destruct (t_string t); lia.
Qed.
Lemma upd_owns : forall cats i mask l l' rel g b, nth_error cats i = Some (Own mask l) -> Permutation (rel ++ held l') (held l ++ g) -> size l' - size l <= b ->
  Permutation (rel ++ flat_map cat_held (upd_cat cats i (Own mask l'))) (flat_map cat_held cats ++ g) /\
  fold_right Z.add 0 (map cat_size (upd_cat cats i (Own mask l'))) - fold_right Z.add 0 (map cat_size cats) = size l' - size l.
Proof.
  induction cats as [|c cats IH]; intros [|i] mask l l' rel g b N P B; cbn in N; try discriminate.
  - injection N as ->. cbn [upd_cat flat_map map fold_right cat_held cat_size]. split; [|lia]. rewrite app_assoc, P, <- !app_assoc. apply Permutation_app_head. apply Permutation_app_comm.
  - destruct (IH i mask l l' rel g b N P B) as (P' & S'). cbn [upd_cat flat_map map fold_right]. split; [|lia].
    rewrite <- app_assoc, <- P', !app_assoc. apply Permutation_app_tail. apply Permutation_app_comm.
Qed.
Definition stored (c : call) (s : Z) : list Z := if (s =? 0) && ((k_op c =? 1) || (k_op c =? 2)) then match k_tag c with Some t => given t | None => [] end else [].
Lemma set_tag_owns : forall n d m c s m' f, (forall e, k_entry c = Some e -> exists r, e = St r) ->
  set_tag n d m (k_category c) (k_override c) (k_entry c) (k_op c) (k_tag c) (k_allocs c) = Ret (s, m', f) ->
  Permutation (f_released f ++ map_held m') (map_held m ++ stored c s) /\ (a_put (k_allocs c) = true -> f_blocks f = map_size m' - map_size m) /\ map_size m' - map_size m <= f_blocks f.
Proof.
  intros n d (cats, df) c s m' f ST H. unfold set_tag in H.
  assert (SAME : forall s', s' <> 0 \/ (k_op c <> 1 /\ k_op c <> 2) -> Ret (s', TMap cats df, nothing) = Ret (s, m', f) ->
    Permutation (f_released f ++ map_held m') (map_held (TMap cats df) ++ stored c s) /\ (a_put (k_allocs c) = true -> f_blocks f = map_size m' - map_size (TMap cats df)) /\ map_size m' - map_size (TMap cats df) <= f_blocks f).
  { intros s' NZ E. injection E as <- <- <-. assert (stored c s' = []) as ->. { unfold stored. destruct (Z.eqb_spec s' 0); cbn [andb]; auto. destruct NZ as [NZ|(N1 & N2)]; [contradiction|].
      destruct (Z.eqb_spec (k_op c) 1); [contradiction|]. destruct (Z.eqb_spec (k_op c) 2); [contradiction|]. reflexivity. }
    rewrite app_nil_r. cbn [nothing f_released f_blocks app]. split; auto. split; intros; lia. }
  destruct (k_entry c) as [e|] eqn:KE. 2:{ apply (SAME (- EINVAL)); auto. left. discriminate. }
  destruct (ST e eq_refl) as (re & ->).
  destruct (k_tag c) as [t|] eqn:KT. 2:{ apply (SAME (- EINVAL)); auto. left. discriminate. }
  destruct (_ || _). { apply (SAME (- EINVAL)); auto. left. discriminate. }
  destruct (nth_error cats (Z.to_nat (k_category c))) as [[mask x|mask l]|] eqn:N; try (apply (SAME (- EINVAL)); auto; left; discriminate).
  assert (STORE : forall r, k_op c = 1 \/ k_op c = 2 -> (do r0 <- set_tag_in l (k_override c) (St r) t (k_allocs c); (let '(s0, l0, f0) := r0 in Ret (s0, TMap (upd_cat cats (Z.to_nat (k_category c)) (Own mask l0)) df, f0)))%res = Ret (s, m', f) ->
    Permutation (f_released f ++ map_held m') (map_held (TMap cats df) ++ stored c s) /\ (a_put (k_allocs c) = true -> f_blocks f = map_size m' - map_size (TMap cats df)) /\ map_size m' - map_size (TMap cats df) <= f_blocks f).
  { intros r O HS. destruct (set_in_total l (k_override c) (St r) t (k_allocs c)) as (((s0, l0), f0) & X). rewrite X in HS. cbn [bind] in HS. injection HS as <- <- <-.
    destruct (set_in_owns _ _ _ _ _ _ _ _ X) as (P & B & LE).
    assert (stored c s0 = if s0 =? 0 then given t else []) as ->. { unfold stored. rewrite KT. destruct (s0 =? 0); auto. destruct O as [->| ->]; reflexivity. }
    destruct (upd_owns cats _ mask l l0 _ _ _ N P LE) as (P' & S'). unfold map_held, map_size. split; [|split; [intros AP; specialize (B AP)|]; lia].
    rewrite app_assoc, P', <- !app_assoc. apply Permutation_app_head. apply Permutation_app_comm. }
  unfold TEO_entry, TEO_final_entry in H. destruct (Z.eqb_spec (k_op c) 1) as [O1|O1]. { eapply STORE; eauto. }
  destruct (Z.eqb_spec (k_op c) 2) as [O2|O2].
  { destruct (final_entry n d (Some (St re)) no_quals) as [[g q]| | |] eqn:F; try discriminate. cbn [bind fst] in H.
    destruct (final_entry_inv _ _ _ _ _ _ F) as (qs & RS). destruct g as [g|].
    - assert (SG : exists rg, g = St rg). { eapply resolves_static; [exact RS| |reflexivity]. intros e E. exists re. congruence. } destruct SG as (rg & ->). eapply STORE; eauto.
    - apply (SAME (- EFAULT)); auto. left. discriminate. }
  apply (SAME 0); auto.
Qed.
Lemma run_owns : forall n d l m ss m' f, Forall (fun c => forall e, k_entry c = Some e -> exists r, e = St r) l -> run_calls n d m l = Ret (ss, m', f) ->
  Permutation (f_released f ++ map_held m') (map_held m ++ taken l ss) /\ (Forall (fun c => a_put (k_allocs c) = true) l -> f_blocks f = map_size m' - map_size m) /\ map_size m' - map_size m <= f_blocks f.
Proof.
  induction l as [|c l IH]; intros m ss m' f FA H; cbn [run_calls] in H.
  - injection H as <- <- <-. cbn. rewrite app_nil_r. split; auto. split; intros; lia.
  - inversion FA; subst. destruct (set_tag n d m (k_category c) (k_override c) (k_entry c) (k_op c) (k_tag c) (k_allocs c)) as [[[s m1] f1]| | |] eqn:X; try discriminate. cbn [bind] in H.
    destruct (run_calls n d m1 l) as [[[q m2] g]| | |] eqn:Y; try discriminate. cbn [bind] in H. injection H as <- <- <-.
    destruct (set_tag_owns _ _ _ _ _ _ _ H2 X) as (P1 & B1 & L1). destruct (IH _ _ _ _ H3 Y) as (P2 & B2 & L2). cbn [join f_released f_blocks taken].
    split. { change (Permutation ((f_released f1 ++ f_released g) ++ map_held m2) (map_held m ++ stored c s ++ taken l q)). rewrite <- app_assoc, P2, !app_assoc, P1. reflexivity. }
    split. { intros AP. inversion AP; subst. rewrite B1, B2; auto. lia. } lia.
Qed.
Lemma new_held : forall cs, flat_map cat_held (map (fun c : Z * option tmap => match snd c with Some x => Ext (fst c) x | None => Own (fst c) [] end) cs) = [] /\
  fold_right Z.add 0 (map cat_size (map (fun c : Z * option tmap => match snd c with Some x => Ext (fst c) x | None => Own (fst c) [] end) cs)) = 0.
Proof. induction cs as [|(k, [x|]) cs (IH1 & IH2)]; cbn; auto. Qed.
Lemma life : forall n d cs df m0 f0 l ss m1 f1, new_tag_map_ex cs df true = Some (m0, f0) ->
  Forall (fun c => forall e, k_entry c = Some e -> exists r, e = St r) l -> run_calls n d m0 l = Ret (ss, m1, f1) ->
  Permutation (f_released f0 ++ f_released f1 ++ f_released (delete_map m1)) (match df with Some t => given t | None => [] end ++ taken l ss) /\
  0 <= f_blocks f0 + f_blocks f1 + f_blocks (delete_map m1) /\
  (Forall (fun c => a_put (k_allocs c) = true) l -> f_blocks f0 + f_blocks f1 + f_blocks (delete_map m1) = 0).
Proof.
  intros n d cs df m0 f0 l ss m1 f1 N FA R. destruct (run_owns _ _ _ _ _ _ _ FA R) as (P & B & L). destruct (delete_map_spec m1) as (-> & ->).
  unfold new_tag_map_ex in N. destruct cs as [|c0 cs0] eqn:EC; [discriminate|]. rewrite <- EC in N. injection N as <- <-. destruct (new_held cs) as (NH & NS).
  unfold map_held, map_size in P, B, L. rewrite NH in P. rewrite NS in B, L. fold (map_held m1) in P. fold (map_size m1) in B, L. cbn [f_blocks f_released app].
  split. { rewrite P. cbn [app]. destruct df; [rewrite released_given|]; reflexivity. }
  split. { destruct df; lia. } intros AP. specialize (B AP). destruct df; lia.
Qed.
Lemma run_wf : forall n d l m ss m' f, Forall (fun c => forall e, k_entry c = Some e -> exists r, e = St r) l -> wf m -> run_calls n d m l = Ret (ss, m', f) -> wf m' /\ default_of m' = default_of m.
Proof.
  induction l as [|c l IH]; intros m ss m' f FA W H; cbn [run_calls] in H. - injection H as <- <- <-. auto.
  - inversion FA; subst. destruct (set_tag n d m (k_category c) (k_override c) (k_entry c) (k_op c) (k_tag c) (k_allocs c)) as [[[s m1] f1]| | |] eqn:X; try discriminate. cbn [bind] in H.
    destruct (run_calls n d m1 l) as [[[q m2] g]| | |] eqn:Y; try discriminate. cbn [bind] in H. injection H as <- <- <-.
    destruct (set_tag_spec _ _ _ _ _ _ _ W H2 X) as (W1 & D1 & _). destruct (IH _ _ _ _ H3 W1 Y). split; auto. congruence.
Qed.
Lemma new_wf : forall cs df a m f, Forall (fun c => match snd c with Some x => wf x | None => True end) cs -> new_tag_map_ex cs df a = Some (m, f) -> wf m.
Proof.
  intros cs df a m f FA H. unfold new_tag_map_ex in H. destruct cs as [|c0 cs0] eqn:EC; [discriminate|]. rewrite <- EC in *. destruct a; [|discriminate]. injection H as <- <-.
  apply wf_nth. intros i c N. rewrite nth_error_map in N. destruct (nth_error cs i) as [x|] eqn:E; [|discriminate]. apply nth_error_In in E. rewrite Forall_forall in FA. specialize (FA _ E).
  assert (c = match snd x with Some x0 => Ext (fst x) x0 | None => Own (fst x) [] end) by (cbn in N; congruence). subst c. destruct (snd x); auto. split; constructor.
Qed.

Lemma set_then : forall n d m c s m' f, wf m -> (forall e, k_entry c = Some e -> exists r, e = St r) ->
  set_tag n d m (k_category c) (k_override c) (k_entry c) (k_op c) (k_tag c) (k_allocs c) = Ret (s, m', f) ->
  wf m' /\ default_of m' = default_of m /\
  (forall j, Z.of_nat j <> k_category c -> cat_at m' j = cat_at m j) /\
  (s <> 0 -> m' = m) /\
  (s = 0 -> (k_op c = 1 \/ k_op c = 2) ->
     exists i mask l l' r t, k_category c = Z.of_nat i /\ cat_at m i = Some (Own mask l) /\ cat_at m' i = Some (Own mask l') /\
       k_tag c = Some t /\ target d c r /\ bound l' (St r) t /\ (forall e u, e <> St r -> bound l' e u <-> bound l e u) /\
       (unbound l (St r) \/ k_override c = true)) /\
  (s = 0 -> k_op c <> 1 -> k_op c <> 2 -> m' = m /\ f = nothing) /\
  (forall mask l r, k_override c = false -> 0 <= k_category c -> cat_at m (Z.to_nat (k_category c)) = Some (Own mask l) -> target d c r -> ~ unbound l (St r) ->
     k_tag c <> None -> s = - EALREADY).
Proof.
  intros n d m c s m' f W ST H. destruct (set_tag_spec _ _ _ _ _ _ _ W ST H) as (A1 & A2 & A3 & A4 & A5 & A6 & A7). repeat (split; auto).
  intros Z0 O. destruct (A5 Z0 O) as (mask & l & r & t & C0 & N & KT & TG & N' & U).
  assert (ML : map_ok l). { destruct m as (cats, df). rewrite wf_nth in W. apply (W _ _ N). }
  exists (Z.to_nat (k_category c)), mask, l, (put l (St r) t), r, t. split; [lia|]. repeat (split; auto).
  - apply put_bound; auto.
  - intros B. apply put_bound in B; auto. tauto.
  - intros B. apply put_bound; auto.
Qed.
Lemma answer_at : forall d e mask l t i m, wf m -> cat_at m i = Some (Own mask l) -> admits d mask e -> bound l e t ->
  (forall j c, (j < i)%nat -> cat_at m j = Some c -> ~ admits d (match c with Ext k _ => k | Own k _ => k end) e) -> answer d e m (Some t).
Proof.
  intros d e mask l t i. induction i as [|i IH]; intros ([|c cats], df) W N A B F; cbn in N; try discriminate.
  - injection N as ->. apply ans_own; auto. left. auto.
  - assert (NA := F 0%nat c ltac:(lia) eq_refl). assert (R : answer d e (TMap cats df) (Some t)).
    { apply IH; auto. - destruct c; cbn in W; apply W. - intros j c' J N'. apply (F (S j) c'); auto. lia. }
    destruct c; [apply ans_skip_ext|apply ans_skip_own]; auto.
Qed.
Lemma found_after : forall n nd k d m c r m' f mask l o, wf m -> kind_ok d (St r) -> k_entry c = Some (St r) -> k_op c = TEO_entry ->
  set_tag n d m (k_category c) (k_override c) (k_entry c) (k_op c) (k_tag c) (k_allocs c) = Ret (0, m', f) ->
  cat_at m (Z.to_nat (k_category c)) = Some (Own mask l) -> admits d mask (St r) ->
  (forall j x, (Z.of_nat j < k_category c) -> cat_at m j = Some x -> ~ admits d (match x with Ext k _ => k | Own k _ => k end) (St r)) ->
  tag_map_tag nd k d m' (St r) = Ret o -> o = k_tag c.
Proof.
  intros n nd k d m c r m' f mask l o W K KE KO H N A F L.
  assert (ST : forall e, k_entry c = Some e -> exists r, e = St r) by (intros e E; exists r; congruence).
  destruct (set_then _ _ _ _ _ _ _ W ST H) as (W' & _ & OT & _ & S & _).
  destruct (S eq_refl (or_introl KO)) as (i & mask' & l0 & l' & r' & t & CI & N0 & N' & KT & TG & B & _). rewrite CI, Nat2Z.id in N. assert (mask' = mask) by congruence. subst mask'.
  unfold target in TG. rewrite KE in TG. destruct TG as [(_ & ->)|(O2 & _)]; [|unfold TEO_entry in KO; lia].
  rewrite KT. eapply answer_fun; [|exact W'|]. - eapply lookup_sound; eauto. - eapply answer_at; eauto.
  intros j x J NJ. apply (F j x). lia. rewrite <- OT; auto. lia.
Qed.
