(** Proofs about the parents of types. *)
From Coq Require Import ZArith String List Bool Lia.
From Verif Require Import Base MetadbModel MetadbSpec MetadbProof5 MetadbProof6 ParentModel ParentSpec.
Import ListNotations.
Local Open Scope list_scope.

Section Merge.
Variables (G : nat -> option object) (parent : nat -> nat) (P0 : nat -> list nat).
Notation member st r := (fun i => has G i && Nat.eqb (i_rep st i) r).

Record pinv (done : list nat) (st : index) (ps : nat -> list nat) : Prop := {
  pv_new : forall i, ~ In i done -> i_rep st i = i /\ ps i = P0 i;
  pv_in : forall i, In i done -> In (i_rep st i) done;
  pv_db : forall r, In r (i_db st) -> In r done /\ i_rep st r = r /\ ps r = flat_map P0 (filter (member st r) done);
  pv_headers : forall h f, In (h, f) (i_headers st) -> In f (i_db st);
  pv_sigs : forall h c f, In (h, c, f) (i_sigs st) -> In f (i_db st);
  pv_kept : forall i, In i done -> G i <> None -> In (i_rep st i) (i_db st) \/ i_dup st (parent i) = true;
  pv_dup : forall i, i_dup st i = true -> G i <> None }.

Lemma pinv0 : pinv [] index0 P0.
Proof. constructor; cbn; try tauto; try discriminate; auto. Qed.

Lemma found_db : forall fuel done st ps i f, pinv done st ps -> found_for fuel G parent st i = Some f -> In f (i_db st).
Proof.
  intros fuel done st ps i f I. unfold found_for. destruct (G i) as [o|]; [|discriminate]. destruct (i_dup st (parent i)); [discriminate|].
  destruct (signature fuel G (i_rep st) false i) as [hs| | |]; try discriminate. destruct (o_decl o).
  - intros F. apply find_header_some in F. exact (pv_headers _ _ _ I _ _ F).
  - destruct (signature fuel G (i_rep st) true i) as [cs| | |]; try discriminate. intros F. apply find_sig_some in F. exact (pv_sigs _ _ _ I _ _ _ F).
Qed.

Lemma filter_rep : forall (l : list nat) (p q : nat -> bool), (forall x, In x l -> p x = q x) -> filter p l = filter q l.
Proof. induction l as [|a l IH]; intros p q H; [reflexivity|]. cbn. rewrite (H a (or_introl eq_refl)), (IH p q (fun x X => H x (or_intror X))). reflexivity. Qed.

Lemma put_true : forall (f : nat -> bool) i x, put f i true x = true -> x = i \/ f x = true.
Proof. intros f i x. unfold put. destruct (Nat.eqb x i) eqn:E; [apply Nat.eqb_eq in E; auto|auto]. Qed.
Lemma put_keep : forall (f : nat -> bool) i x, f x = true -> put f i true x = true.
Proof. intros f i x. unfold put. destruct (Nat.eqb x i); auto. Qed.

Lemma none_step : forall done st ps i, pinv done st ps -> ~ In i done -> G i = None -> pinv (done ++ [i]) st ps.
Proof.
  intros done st ps i I N Gi. destruct I as [A B C D E F K]. constructor; auto.
  - intros k X. apply A. intros Y. apply X, in_or_app. auto.
  - intros k X. apply in_app_or in X. destruct X as [X|[<-|[]]]; [apply in_or_app; auto|]. rewrite (proj1 (A _ N)). apply in_or_app. cbn. auto.
  - intros r X. destruct (C _ X) as [Y [Z0 W]]. split; [apply in_or_app; auto|]. split; [exact Z0|]. rewrite W, filter_app, flat_map_app. cbn. unfold has at 3. rewrite Gi. cbn. rewrite app_nil_r. reflexivity.
  - intros k X Gk. apply in_app_or in X. destruct X as [X|[<-|[]]]; [auto|congruence].
Qed.

Lemma skip_step : forall done st ps i, pinv done st ps -> ~ In i done -> G i <> None -> i_dup st (parent i) = true ->
  pinv (done ++ [i]) {| i_rep := i_rep st; i_dup := put (i_dup st) i true; i_headers := i_headers st; i_sigs := i_sigs st; i_db := i_db st |} ps.
Proof.
  intros done st ps i I N Gi Du. destruct I as [A B C D E F K]. constructor; cbn [i_rep i_dup i_headers i_sigs i_db]; auto.
  - intros k X. apply A. intros Y. apply X, in_or_app. auto.
  - intros k X. apply in_app_or in X. destruct X as [X|[<-|[]]]; [apply in_or_app; auto|]. rewrite (proj1 (A _ N)). apply in_or_app. cbn. auto.
  - intros r X. destruct (C _ X) as [Y [Z0 W]]. split; [apply in_or_app; auto|]. split; [exact Z0|]. rewrite W, filter_app, flat_map_app. cbn [filter].
    rewrite (proj1 (A _ N)). destruct (Nat.eqb i r) eqn:Q; [apply Nat.eqb_eq in Q; subst; contradiction|]. rewrite andb_false_r. cbn. rewrite app_nil_r. reflexivity.
  - intros k X Gk. apply in_app_or in X. destruct X as [X|[<-|[]]]; [|right; apply put_keep; exact Du]. destruct (F _ X Gk); [auto|right; apply put_keep; assumption].
  - intros k X. apply put_true in X. destruct X as [-> |X]; auto.
Qed.

Lemma merge_step : forall done st ps i f, pinv done st ps -> ~ In i done -> G i <> None -> In f (i_db st) ->
  pinv (done ++ [i]) {| i_rep := put (i_rep st) i (i_rep st f); i_dup := put (i_dup st) i true; i_headers := i_headers st; i_sigs := i_sigs st; i_db := i_db st |}
    (put ps (i_rep st f) (ps (i_rep st f) ++ ps (i_rep st i))).
Proof.
  intros done st ps i f I N Gi Fd. destruct I as [A B C D E F K]. destruct (C _ Fd) as [Fi [Fr Fp]]. rewrite Fr. destruct (A _ N) as [Ri Pi]. rewrite Ri, Pi.
  assert (Nf : i <> f) by (intros ->; contradiction).
  constructor; cbn [i_rep i_dup i_headers i_sigs i_db]; auto.
  - intros k X. assert (X1 : ~ In k done) by (intros Y; apply X, in_or_app; auto). assert (X2 : k <> i) by (intros ->; apply X, in_or_app; cbn; auto).
    rewrite put_other by assumption. rewrite put_other by (intros ->; contradiction). apply A. exact X1.
  - intros k X. unfold put. destruct (Nat.eqb k i) eqn:Q; [apply in_or_app; auto|]. apply in_app_or in X. destruct X as [X|[X|[]]]; [apply in_or_app; auto|]. subst. rewrite Nat.eqb_refl in Q. discriminate.
  - intros r X. destruct (C _ X) as [Y [Z0 W]]. split; [apply in_or_app; auto|]. assert (Nr : r <> i) by (intros ->; contradiction). split; [rewrite put_other; assumption|].
    rewrite filter_app, flat_map_app. cbn [filter]. rewrite put_same.
    rewrite (filter_rep done (fun k => has G k && Nat.eqb (put (i_rep st) i f k) r) (fun k => has G k && Nat.eqb (i_rep st k) r)) by (intros x Xi; rewrite put_other; [reflexivity|intros ->; contradiction]).
    assert (Hi : has G i = true) by (unfold has; destruct (G i); congruence). rewrite Hi. cbn [andb]. unfold put. rewrite (Nat.eqb_sym f r). destruct (Nat.eqb r f) eqn:Q.
    + apply Nat.eqb_eq in Q. subst r. rewrite Fp. cbn. rewrite app_nil_r. reflexivity.
    + cbn. rewrite app_nil_r. exact W.
  - intros k X Gk. unfold put at 1. destruct (Nat.eqb k i) eqn:Q; [auto|]. apply in_app_or in X. destruct X as [X|[X|[]]]; [|subst; rewrite Nat.eqb_refl in Q; discriminate].
    destruct (F _ X Gk); [auto|right; apply put_keep; assumption].
  - intros k X. apply put_true in X. destruct X as [-> |X]; auto.
Qed.

Lemma append_step : forall done st ps i hd sgs, pinv done st ps -> ~ In i done -> G i <> None ->
  (forall h f, In (h, f) hd -> In (h, f) (i_headers st) \/ f = i) -> (forall h c f, In (h, c, f) sgs -> In (h, c, f) (i_sigs st) \/ f = i) ->
  pinv (done ++ [i]) {| i_rep := i_rep st; i_dup := i_dup st; i_headers := hd; i_sigs := sgs; i_db := i_db st ++ [i_rep st i] |} ps.
Proof.
  intros done st ps i hd sgs I N Gi Hh Hs. destruct I as [A B C D E F K]. destruct (A _ N) as [Ri Pi]. rewrite Ri.
  assert (Hi : has G i = true) by (unfold has; destruct (G i); congruence).
  constructor; cbn [i_rep i_dup i_headers i_sigs i_db]; auto.
  - intros k X. apply A. intros Y. apply X, in_or_app. auto.
  - intros k X. apply in_app_or in X. destruct X as [X|[<-|[]]]; [apply in_or_app; auto|]. rewrite Ri. apply in_or_app. cbn. auto.
  - intros r X. apply in_app_or in X. destruct X as [X|[<-|[]]].
    + destruct (C _ X) as [Y [Z0 W]]. split; [apply in_or_app; auto|]. split; [exact Z0|]. rewrite W, filter_app, flat_map_app. cbn [filter].
      rewrite Ri. destruct (Nat.eqb i r) eqn:Q; [apply Nat.eqb_eq in Q; subst; contradiction|]. rewrite andb_false_r. cbn. rewrite app_nil_r. reflexivity.
    + split; [apply in_or_app; cbn; auto|]. split; [exact Ri|]. rewrite filter_app. cbn [filter]. rewrite Ri, Hi, Nat.eqb_refl. cbn [andb].
      rewrite (filter_rep done _ (fun _ => false)); [replace (filter (fun _ : nat => false) done) with (@nil nat) by (clear; induction done; auto); cbn; rewrite app_nil_r; exact Pi|].
      intros x X. apply andb_false_intro2. apply Nat.eqb_neq. intros Q. apply N. rewrite <- Q. apply B. exact X.
  - intros h f X. apply in_or_app. destruct (Hh _ _ X) as [Y| ->]; [left; eauto|right; cbn; auto].
  - intros h c f X. apply in_or_app. destruct (Hs _ _ _ X) as [Y| ->]; [left; eauto|right; cbn; auto].
  - intros k X Gk. apply in_app_or in X. destruct X as [X|[<-|[]]]; [|left; rewrite Ri; apply in_or_app; cbn; auto]. destruct (F _ X Gk); [left; apply in_or_app; auto|auto].
Qed.

Lemma step : forall fuel done st ps i st', pinv done st ps -> ~ In i done -> dedup1 fuel G parent st i = Ok st' -> pinv (done ++ [i]) st' (parents1 fuel G parent st ps i).
Proof.
  intros fuel done st ps i st' I N H. pose proof (found_db fuel done st ps i) as FD. unfold parents1, found_for in *. unfold dedup1 in H. destruct (G i) as [o|] eqn:Gi; [|injection H as <-; apply none_step; assumption].
  assert (Gn : G i <> None) by congruence.
  destruct (i_dup st (parent i)) eqn:Du; [injection H as <-; apply skip_step; assumption|].
  destruct (signature fuel G (i_rep st) false i) as [hs| | |] eqn:S1; cbn [obind] in H; try discriminate. destruct (o_decl o).
  - destruct (find_header hs (i_headers st)) as [f|] eqn:Ff; injection H as <-; [apply merge_step; auto; eapply FD; eauto|].
    apply append_step; auto. intros h f [X|X]; [injection X as <- <-; auto|auto].
  - destruct (signature fuel G (i_rep st) true i) as [cs| | |] eqn:S2; cbn [obind] in H; try discriminate.
    destruct (find_sig hs cs (i_sigs st)) as [f|] eqn:Ff; injection H as <-; [apply merge_step; auto; eapply FD; eauto|].
    apply append_step; auto. intros h c f [X|X]; [injection X as <- <- <-; auto|auto].
Qed.

Lemma run_inv : forall fuel order done st ps st' ps', pinv done st ps -> NoDup order -> (forall i, In i order -> ~ In i done) ->
  dedup_parents fuel G parent st ps order = Ok (st', ps') -> pinv (done ++ order) st' ps'.
Proof.
  intros fuel order. induction order as [|i r IH]; intros done st ps st' ps' I N D H; cbn in H.
  - injection H as <- <-. rewrite app_nil_r. exact I.
  - destruct (dedup1 fuel G parent st i) as [s1| | |] eqn:S1; cbn [obind] in H; try discriminate. inversion N; subst.
    replace (done ++ i :: r) with ((done ++ [i]) ++ r) by (rewrite <- app_assoc; reflexivity).
    eapply IH; [eapply step; [exact I|apply D; cbn; auto|exact S1]|assumption| |exact H].
    intros k X Y. apply in_app_or in Y. destruct Y as [Y|[<-|[]]]; [exact (D k (or_intror X) Y)|contradiction].
Qed.

Lemma same_dedup : forall fuel order st ps, match dedup_parents fuel G parent st ps order with Ok (s, _) => dedup fuel G parent st order = Ok s | Err => dedup fuel G parent st order = Err | Panic => dedup fuel G parent st order = Panic | Nofuel => dedup fuel G parent st order = Nofuel end.
Proof. intros fuel order. induction order as [|i r IH]; intros st ps; cbn; [reflexivity|]. destruct (dedup1 fuel G parent st i); cbn [obind]; [apply IH|reflexivity|reflexivity|reflexivity]. Qed.
Lemma dedup_same : forall fuel order st ps s, dedup fuel G parent st order = Ok s -> exists ps', dedup_parents fuel G parent st ps order = Ok (s, ps').
Proof.
  intros fuel order st ps s H. pose proof (same_dedup fuel order st ps) as Q. destruct (dedup_parents fuel G parent st ps order) as [[s' p']| | |]; try congruence.
  rewrite H in Q. injection Q as ->. eexists. reflexivity.
Qed.

Lemma entry_nth : forall l k, parent_entry (Some l) k = if (0 <=? k)%Z then nth_error l (Z.to_nat k) else None.
Proof.
  intros l k. unfold parent_entry. destruct (Z.ltb_spec k 0); destruct (Z.leb_spec 0 k); try lia; cbn [orb]; [reflexivity|].
  destruct (k >=? Z.of_nat (List.length l))%Z eqn:Q; [|reflexivity]. apply Z.geb_le in Q. symmetry. apply nth_error_None. lia.
Qed.

Theorem parents_ok : forall fuel order st ps, NoDup order -> dedup_parents fuel G parent index0 P0 order = Ok (st, ps) -> dedup fuel G parent index0 order = Ok st /\
  forall r, In r (i_db st) -> parent_count (entry_parents st ps r) = Z.of_nat (List.length (scopes G P0 st order r)) /\
    forall k, parent_entry (entry_parents st ps r) k = if (0 <=? k)%Z then option_map (i_rep st) (nth_error (scopes G P0 st order r) (Z.to_nat k)) else None.
Proof.
  intros fuel order st ps N H. pose proof (same_dedup fuel order index0 P0) as Q. rewrite H in Q. split; [exact Q|]. intros r X.
  pose proof (run_inv fuel order [] index0 P0 st ps pinv0 N (fun _ _ Y => Y) H) as I. cbn [app] in I. destruct (pv_db _ _ _ I _ X) as [_ [_ W]].
  unfold entry_parents. replace (existsb (Nat.eqb r) (i_db st)) with true by (symmetry; apply existsb_exists; exists r; split; [exact X|apply Nat.eqb_refl]).
  fold (members G st order r) in W. fold (scopes G P0 st order r) in W. rewrite W. split; [cbn; rewrite map_length; reflexivity|].
  intros k. rewrite entry_nth, nth_error_map. reflexivity.
Qed.

Theorem parents_known : forall fuel order st ps, NoDup order -> (forall i, G i <> None -> In i order) -> dedup_parents fuel G parent index0 P0 order = Ok (st, ps) ->
  (forall i p, G i <> None -> In p (P0 i) -> G p <> None -> G (parent p) = None) ->
  forall r k q, parent_entry (entry_parents st ps r) k = Some q -> entry_parents st ps q <> None \/ (G q = None).
Proof.
  intros fuel order st ps N Cov H Ne r k q E. destruct (existsb (Nat.eqb r) (i_db st)) eqn:X; [|unfold entry_parents in E; rewrite X in E; discriminate].
  apply existsb_exists in X. destruct X as [r' [X Y]]. apply Nat.eqb_eq in Y. subst r'.
  pose proof (run_inv fuel order [] index0 P0 st ps pinv0 N (fun _ _ Y => Y) H) as I. cbn [app] in I.
  destruct (parents_ok fuel order st ps N H) as [_ W]. destruct (W r X) as [_ W']. rewrite W' in E. clear W W'. destruct (0 <=? k)%Z; [|discriminate].
  destruct (nth_error (scopes G P0 st order r) (Z.to_nat k)) as [p|] eqn:Np; [|discriminate]. cbn in E. injection E as <-.
  apply nth_error_In in Np. unfold scopes, members in Np. apply in_flat_map in Np. destruct Np as [i [Fi Ip]]. apply filter_In in Fi. destruct Fi as [Oi Fi]. apply andb_prop in Fi. destruct Fi as [Hi _].
  assert (Gi : G i <> None) by (unfold has in Hi; destruct (G i); congruence).
  destruct (G p) as [o|] eqn:Gp.
  - left. assert (Gp' : G p <> None) by congruence. destruct (pv_kept _ _ _ I p (Cov _ Gp') Gp') as [K|K].
    + unfold entry_parents. replace (existsb (Nat.eqb (i_rep st p)) (i_db st)) with true by (symmetry; apply existsb_exists; exists (i_rep st p); split; [exact K|apply Nat.eqb_refl]). discriminate.
    + exfalso. apply (pv_dup _ _ _ I) in K. rewrite (Ne i p Gi Ip Gp') in K. congruence.
  - right. destruct (in_dec Nat.eq_dec p order) as [Ino|No].
    + (* an entry without a type is never merged *)
      assert (Rp : i_rep st p = p); [|rewrite Rp; exact Gp].
      clear - H Gp. revert H. assert (R0 : i_rep index0 p = p) by reflexivity. revert R0. generalize index0, P0. induction order as [|i r IH]; intros s0 q0 R0 H; cbn in H; [injection H as <- _; exact R0|].
      destruct (dedup1 fuel G parent s0 i) as [s1| | |] eqn:S1; cbn [obind] in H; try discriminate. eapply IH; [|exact H].
      unfold dedup1 in S1. destruct (G i) as [o|] eqn:Gi; [|injection S1 as <-; exact R0]. assert (Np : p <> i) by congruence.
      destruct (i_dup s0 (parent i)); [injection S1 as <-; exact R0|]. destruct (signature fuel G (i_rep s0) false i); cbn [obind] in S1; try discriminate. destruct (o_decl o).
      * destruct (find_header a (i_headers s0)); injection S1 as <-; cbn; [rewrite put_other; assumption|exact R0].
      * destruct (signature fuel G (i_rep s0) true i); cbn [obind] in S1; try discriminate. destruct (find_sig a a0 (i_sigs s0)); injection S1 as <-; cbn; [rewrite put_other; assumption|exact R0].
    + rewrite (proj1 (pv_new _ _ _ I p No)). exact Gp.
Qed.
End Merge.

(** * Arrays *)
Lemma loop_parents : forall index ranges child t acc top stl prev, array_loop child t ranges acc = Some (top, stl) -> prev = None \/ prev = Some t ->
  let inn j i := (j = t /\ prev = None) \/ In (j, [i]) (array_parents_loop index prev ranges) in
  (forall i o, In (i, o) stl -> In (i, o) acc \/ exists j s l c v, o_body o = Array (Some j) s l c v /\ inn j i) /\
  (exists j s l c v, top = Array (Some j) s l c v /\ inn j index).
Proof.
  intros index ranges. induction ranges as [|s r IH]; intros child t acc top stl prev H Pv; cbn in H; [discriminate|].
  assert (Me : forall i, i = match r with [] => index | _ => s_index s end -> (t = t /\ prev = None) \/ In (t, [i]) (array_parents_loop index prev (s :: r))).
  { intros i ->. destruct Pv as [-> | ->]; [left; auto|right; cbn; auto]. }
  destruct r as [|s2 r].
  - injection H as <- <-. cbn zeta. split; [auto|]. exists t, None, (s_lower s), (range_count s), (Z.of_nat child). split; [reflexivity|apply Me; reflexivity].
  - apply (IH _ _ _ _ _ (Some (s_index s))) in H; [|auto]. cbn zeta in *. destruct H as [H1 H2].
    assert (Up : forall j i, j = s_index s /\ Some (s_index s) = None \/ In (j, [i]) (array_parents_loop index (Some (s_index s)) (s2 :: r)) -> j = t /\ prev = None \/ In (j, [i]) (array_parents_loop index prev (s :: s2 :: r))).
    { intros j i [[_ X]|X]; [discriminate|]. right. cbn [array_parents_loop]. apply in_or_app. right. exact X. }
    split.
    + intros i o X. destruct (H1 _ _ X) as [[Y|Y]|[j [a [b [c [d [Y1 Y2]]]]]]].
      * injection Y as <- <-. right. exists t, None, (s_lower s), (range_count s), (Z.of_nat child). split; [reflexivity|apply Me; reflexivity].
      * left. exact Y.
      * right. exists j, a, b, c, d. split; [exact Y1|apply Up; exact Y2].
    + destruct H2 as [j [a [b [c [d [Y1 Y2]]]]]]. exists j, a, b, c, d. split; [exact Y1|apply Up; exact Y2].
Qed.
Lemma loop_keys : forall ranges child t acc top stl, array_loop child t ranges acc = Some (top, stl) -> forall k, In k (map fst stl) <-> In k (map fst acc) \/ In k (map s_index (removelast ranges)).
Proof.
  induction ranges as [|s r IH]; intros child t acc top stl H k; cbn in H; [discriminate|]. destruct r as [|s2 r]; [injection H as <- <-; cbn; tauto|].
  rewrite (IH _ _ _ _ _ H k). cbn [map fst removelast In]. tauto.
Qed.
Lemma parents_keys : forall index ranges prev, map fst (array_parents_loop index prev ranges) = match ranges with [] => [] | _ => (match prev with None => [] | Some q => [q] end ++ map s_index (removelast ranges)) end.
Proof.
  intros index ranges. induction ranges as [|s r IH]; intros prev; [reflexivity|]. cbn [array_parents_loop]. rewrite map_app, IH. destruct prev; destruct r; reflexivity.
Qed.
Lemma in_removelast : forall A (l : list A) x, In x (removelast l) -> In x l.
Proof. induction l as [|a l IH]; cbn; [auto|]. destruct l; [intros x []|]. intros x [<-|X]; auto. Qed.
Lemma removelast_nodup : forall A (l : list A), NoDup l -> NoDup (removelast l).
Proof. induction l as [|a l IH]; intros N; cbn; [constructor|]. destruct l as [|b l]; [constructor|]. inversion N; subst. constructor; [|apply IH; assumption]. intros X. apply in_removelast in X. contradiction. Qed.
Lemma map_removelast : forall A B (f : A -> B) l, map f (removelast l) = removelast (map f l).
Proof. induction l as [|a l IH]; [reflexivity|]. cbn. destruct l; [reflexivity|]. cbn in *. rewrite IH. reflexivity. Qed.

Lemma loop_none : forall ranges child t acc, array_loop child t ranges acc = None -> ranges = [].
Proof. induction ranges as [|s r IH]; intros child t acc H; [reflexivity|]. exfalso. cbn in H. destruct r as [|s2 r]; [discriminate|]. apply IH in H. discriminate. Qed.

Theorem array_parents_ok : forall index parent name decl size align stride t children, NoDup (t :: index :: map s_index children) ->
  let G := stored (process_array index name decl size align stride t children) in let L := array_parents index parent children in
  NoDup (map fst L) /\ (forall k, In k (map fst L) <-> G k <> None) /\ In (index, [parent]) L /\
  (forall i j, element_of G i j -> G j <> None -> In (j, [i]) L).
Proof.
  intros index parent name decl size align stride t children N. cbn zeta. inversion N as [|? ? Nt N1]; subst. inversion N1 as [|? ? Ni N2]; subst.
  unfold process_array, array_parents.
  assert (Nr : NoDup (map s_index (removelast (List.rev children)))).
  { rewrite map_removelast, map_rev. apply removelast_nodup, NoDup_rev. exact N2. }
  assert (Sub : forall k, In k (map s_index (removelast (List.rev children))) -> In k (map s_index children)).
  { intros k X. rewrite map_removelast in X. apply in_removelast in X. rewrite map_rev in X. apply in_rev in X. exact X. }
  destruct (array_loop 0 t (List.rev children) []) as [[top stl]|] eqn:AL.
  - destruct (loop_parents index _ _ _ _ _ _ None AL (or_introl eq_refl)) as [H1 [j0 [s0 [l0 [c0 [v0 [-> H2]]]]]]]. pose proof (loop_keys _ _ _ _ _ _ AL) as Ks. cbn in Ks.
    assert (Ne : List.rev children <> []) by (intros Q; rewrite Q in AL; discriminate).
    assert (PK : map fst (array_parents_loop index None (List.rev children)) = map s_index (removelast (List.rev children))) by (rewrite parents_keys; destruct (List.rev children); [contradiction|reflexivity]).
    set (T := {| o_name := name; o_decl := decl; o_size := size; o_align := align; o_body := Array (Some j0) stride l0 c0 v0 |}).
    assert (GK : forall k, stored ((index, T) :: stl) k <> None <-> k = index \/ In k (map s_index (removelast (List.rev children)))).
    { intros k. unfold stored. cbn [List.find]. destruct (Nat.eqb_spec index k) as [-> |Q]; [cbn; split; [auto|intros _; discriminate]|].
      fold (stored stl k). split.
      - intros X. right. destruct (stored stl k) as [o|] eqn:S1; [|congruence]. apply stored_out in S1. destruct (proj1 (Ks k)) as [[]|Y]; [|exact Y]. apply in_map_iff. exists (k, o). auto.
      - intros [X|X]; [congruence|]. assert (Y : In k (map fst stl)) by (apply Ks; auto). apply in_map_iff in Y. destruct Y as [[k' o] [Y1 Y2]]. cbn in Y1. subst k'.
        intros Q'. unfold stored in Q'. destruct (List.find (fun '(j, _) => Nat.eqb j k) stl) eqn:Fd; [discriminate|]. apply (find_none _ _ Fd) in Y2. rewrite Nat.eqb_refl in Y2. discriminate. }
    split; [|split; [|split]].
    + cbn. rewrite PK. constructor; [intros X; apply Ni, Sub, X|exact Nr].
    + intros k. cbn [map fst In]. rewrite PK, GK. split; intros [X|X]; auto.
    + cbn. auto.
    + intros i j [o [s [l [c [v [Go Bo]]]]]] Gj. right. apply GK in Gj.
      assert (Nj : j <> t) by (intros ->; destruct Gj as [Gj|Gj]; [apply Nt; cbn; auto|apply Nt; cbn; right; apply Sub; exact Gj]).
      apply stored_out in Go. destruct Go as [Go|Go].
      * injection Go as <- <-. unfold T in Bo. cbn in Bo. injection Bo as <- _ _ _ _. destruct H2 as [[X _]|X]; [contradiction|exact X].
      * destruct (H1 _ _ Go) as [[]|[j' [a [b [d [e [Y1 Y2]]]]]]]. rewrite Bo in Y1. injection Y1 as <- _ _ _ _. destruct Y2 as [[X _]|X]; [contradiction|exact X].
  - assert (Q : children = []).
    { assert (R : List.rev children = []) by (apply (loop_none _ _ _ _ AL)). rewrite <- (rev_involutive children), R. reflexivity. }
    subst children. cbn. split; [constructor; [intros []|constructor]|]. split.
    + intros k. unfold stored. cbn. destruct (Nat.eqb_spec index k) as [-> |Q]; cbn.
      * split; [intros _; discriminate|auto].
      * split; [intros [X|[]]; congruence|intros X; congruence].
    + split; [auto|]. intros i j [o [s [l [c [v [Go Bo]]]]]] Gj. exfalso. apply stored_out in Go. destruct Go as [Go|[]]. injection Go as <- <-. cbn in Bo. injection Bo as <- _ _ _ _.
      unfold stored in Gj. cbn in Gj. destruct (Nat.eqb_spec index t) as [Q|Q]; [apply Nt; cbn; auto|]. cbn in Gj. congruence.
Qed.
