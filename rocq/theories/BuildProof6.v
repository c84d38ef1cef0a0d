(** Variables and functions at run time. *)
From Coq Require Import ZArith String List Bool Arith Lia Cantor.
From Verif Require Import Base MetadbModel MetadbSpec BuildModel.
From Verif Require Import EntryModel ValueModel.
From Verif Require Import BuildSpec BuildProof1 BuildProof2 BuildProof3 BuildProof4.
Import ListNotations.

Section S.
Variable data : nat -> option die.

(** ** What the walk finds *)
Lemma gather_in : forall f l W, gather f l = Ok W -> forall k v, In (k, v) W -> exists c w, In c l /\ f c = Ok w /\ In (k, v) w.
Proof.
  intros f. induction l as [|c r IH]; intros W E k v I; cbn in E; [injection E as <-; destruct I|]. un E a Ea. un E b Eb. injection E as <-. apply in_app_or in I. destruct I as [I|I].
  - exists c, a. split; [left; reflexivity|]. auto.
  - destruct (IH b Eb k v I) as [x [w [X [Y Z']]]]. exists x, w. split; [right; exact X|]. auto.
Qed.
Lemma gather_all : forall f l W, gather f l = Ok W -> forall c, In c l -> exists w, f c = Ok w /\ incl w W.
Proof.
  intros f. induction l as [|x r IH]; intros W E c I; cbn in E; [destruct I|]. un E a Ea. un E b Eb. injection E as <-. destruct I as [->|I].
  - exists a. split; [exact Ea|]. apply incl_appl, incl_refl.
  - destruct (IH b Eb c I) as [w [X Y]]. exists w. split; [exact X|]. apply incl_appr, Y.
Qed.
Lemma gather_ok : forall f l, (forall c, In c l -> exists w, f c = Ok w) -> exists W, gather f l = Ok W.
Proof.
  intros f. induction l as [|c r IH]; intros F; [exists []; reflexivity|]. destruct (F c (or_introl eq_refl)) as [a A]. destruct IH as [b B]; [intros x X; apply F; right; exact X|]. exists (a ++ b)%list. cbn. rewrite A. cbn. rewrite B. reflexivity.
Qed.
(** the object of an entry *)
Definition right_other (i : nat) (v : other) : Prop :=
  exists d, data i = Some d /\ (d_tag d = DVariable /\ variable data d = Ok v \/ d_tag d = DSubprogram /\ subprogram data d = Ok v).
Lemma others_tag : forall fuel c w k v d, others data fuel c = Ok w -> In (k, v) w -> data c = Some d -> d_tag d = DVariable \/ d_tag d = DSubprogram \/ d_tag d = DLexBlock \/ d_tag d = DNamespace \/ exists g, d_tag d = DStruct g.
Proof. intros [|fuel] c w k v d E I D; [discriminate|]. cbn in E. rewrite D in E. destruct (d_tag d) eqn:T; try (injection E as <-; destruct I); eauto 6. discriminate. Qed.
Lemma others_sound : forall fuel i l, others data fuel i = Ok l -> declared_in data i -> forall k v, In (k, v) l -> declared_in data k /\ right_other k v.
Proof.
  induction fuel as [|fuel IH]; intros i l E Di k v I; [discriminate|]. cbn [others] in E. destruct (data i) as [d|] eqn:D; [|discriminate].
  assert (Go : forall W, gather (others data fuel) (d_children d) = Ok W -> (d_tag d = DSubprogram \/ d_tag d = DLexBlock \/ d_tag d = DNamespace \/ exists g, d_tag d = DStruct g) -> In (k, v) W -> declared_in data k /\ right_other k v).
  { intros W G T J. destruct (gather_in _ _ _ G k v J) as [c [w [Ic [Ew Jw]]]]. refine (IH c w Ew _ k v Jw). destruct (data c) as [e|] eqn:De; [|destruct fuel; cbn in Ew; [discriminate|rewrite De in Ew; discriminate]].
    refine (di_more data i c d e Di D Ic De _). pose proof (others_tag _ _ _ _ _ _ Ew Jw De) as Te. destruct T as [T|[T|[T|[g T]]]]; rewrite T; cbn; intros P; destruct Te as [X|[X|[X|[X|[h X]]]]]; intuition congruence. }
  destruct (d_tag d) eqn:T; try (injection E as <-; destruct I); try (eapply Go; [exact E|eauto 6|exact I]).
  - un E x Ex. injection E as <-. destruct I as [I|[]]. injection I as <- <-. split; [exact Di|]. exists d. auto.
  - un E x Ex. un E w Ew. injection E as <-. destruct I as [I|I].
    + injection I as <- <-. split; [exact Di|]. exists d. auto.
    + eapply Go; [exact Ew|eauto|exact I].
  - discriminate.
Qed.
Lemma build_others_sound : forall fuel W, build_others data fuel = Ok W -> (forall u, child data 0 u -> kind_in data (eq DUnit) u) -> forall k v, In (k, v) W -> declared_in data k /\ right_other k v.
Proof.
  intros fuel W E U k v I. unfold build_others in E. destruct (data 0%nat) as [d|] eqn:D; [|discriminate]. destruct (gather_in _ _ _ E k v I) as [u [w [Iu [Eu J]]]]. cbn beta in Eu. destruct (data u) as [e|] eqn:De; [|discriminate].
  destruct (gather_in _ _ _ Eu k v J) as [c [x [Ic [Ex Jx]]]]. refine (others_sound fuel c x Ex _ k v Jx). destruct (data c) as [f|] eqn:Df; [|destruct fuel; cbn in Ex; [discriminate|rewrite Df in Ex; discriminate]].
  assert (Cu : child data 0 u) by (exists d; auto). refine (di_unit data u c e f Cu De Ic Df _). destruct (U u Cu) as [e' [De' Te]]. rewrite De in De'. injection De' as <-. rewrite <- Te. cbn.
  pose proof (others_tag _ _ _ _ _ _ Ex Jx Df) as Tf. destruct Tf as [X|[X|[X|[X|[h X]]]]]; rewrite X; discriminate.
Qed.
Lemma declared_walked : forall fuel W, build_others data fuel = Ok W -> forall i, declared_in data i -> exists f l, others data f i = Ok l /\ incl l W.
Proof.
  intros fuel W E i Di. induction Di as [u c d e Cu Du Ic De Np | i c d e Di IH D Ic De Np].
  - unfold build_others in E. destruct Cu as [d0 [D0 Iu]]. rewrite D0 in E. destruct (gather_all _ _ _ E u Iu) as [w [Ew Inc]]. cbn beta in Ew. rewrite Du in Ew. destruct (gather_all _ _ _ Ew c Ic) as [x [Ex Inx]]. exists fuel, x. split; [exact Ex|]. eapply incl_tran; eassumption.
  - destruct IH as [f [l [Ef Inc]]]. destruct f as [|f]; [discriminate|]. cbn [others] in Ef. rewrite D in Ef.
    assert (Go : forall l', gather (others data f) (d_children d) = Ok l' -> incl l' W -> exists f l, others data f c = Ok l /\ incl l W) by (intros l' G J; destruct (gather_all _ _ _ G c Ic) as [x [Ex Inx]]; exists f, x; split; [exact Ex|eapply incl_tran; eassumption]).
    destruct (d_tag d); try (destruct (Np Logic.I)); try (eapply Go; eassumption); try discriminate.
    un Ef x Ex. un Ef w Ew. injection Ef as <-. apply (Go w Ew). intros y Y. apply Inc. right. exact Y.
Qed.
Lemma walked_found : forall f i l d, others data f i = Ok l -> data i = Some d -> d_tag d = DVariable \/ d_tag d = DSubprogram -> exists v, In (i, v) l.
Proof.
  intros [|f] i l d E D T; [discriminate|]. cbn [others] in E. rewrite D in E. destruct T as [T|T]; rewrite T in E; un E v Ev; [|un E w Ew]; injection E as <-; exists v; left; reflexivity.
Qed.
Lemma other_at_in : forall W i v, other_at W i = Some v -> In (i, v) W.
Proof. intros W i v E. unfold other_at in E. destruct (List.find _ W) as [[j x]|] eqn:F; [|discriminate]. apply find_some in F. destruct F as [I J]. apply Nat.eqb_eq in J. subst j. injection E as <-. exact I. Qed.
Lemma in_other_at : forall W i v, In (i, v) W -> exists v', other_at W i = Some v'.
Proof.
  intros W i v I. unfold other_at. destruct (List.find _ W) as [[j x]|] eqn:F; [eexists; reflexivity|]. pose proof (find_none _ _ F _ I) as X. cbn in X. rewrite Nat.eqb_refl in X. discriminate.
Qed.

(** ** The walk succeeds when the builder does *)
Lemma func_walk : forall (f : nat -> list (nat * object) -> out (list (nat * object))) (g : nat -> out (list (nat * other))) l dots acc x, func_params data f dots l acc = Ok x ->
  (forall c d, In c l -> data c = Some d -> (d_tag d = DParameter \/ d_tag d = DUnspecifiedParameters \/ d_tag d = DTemplateType) \/ (exists a y, f c a = Ok y) -> exists w, g c = Ok w) ->
  (exists w, gather g l = Ok w) /\ exists z, func_params data (fun _ a => Ok a) dots l [] = Ok (fst x, z).
Proof.
  intros f g. induction l as [|c r IH]; intros dots acc x E Hg; cbn in E.
  - injection E as <-. split; [exists []; reflexivity|]. exists []. reflexivity.
  - destruct (data c) as [d|] eqn:D; [|discriminate].
    assert (Hr : forall c d, In c r -> data c = Some d -> (d_tag d = DParameter \/ d_tag d = DUnspecifiedParameters \/ d_tag d = DTemplateType) \/ (exists a y, f c a = Ok y) -> exists w, g c = Ok w) by (intros c' d' I; apply Hg; right; exact I).
    assert (Two : (exists w, g c = Ok w) -> (exists w, gather g r = Ok w) -> exists w, gather g (c :: r) = Ok w) by (intros [a A] [b B]; exists (a ++ b)%list; cbn; rewrite A; cbn; rewrite B; reflexivity).
    pose proof (Hg c d (or_introl eq_refl) D) as Hc. cbn [func_params]. rewrite D.
    destruct (d_tag d) eqn:T; try (un E a Ea; destruct (IH _ _ _ E Hr) as [G [z Z']]; split; [apply Two; [apply Hc; right; eauto|exact G]|]; exists z; cbn [obind]; exact Z').
    + destruct dots; [discriminate|]. un E t Et. un E y Ey. destruct y as [ps a]. injection E as <-. destruct (IH _ _ _ Ey Hr) as [G [z Z']]. split; [apply Two; [apply Hc; auto|exact G]|]. rewrite Et. cbn [obind]. exists z. cbn [fst] in *. rewrite Z'. reflexivity.
    + destruct dots; [discriminate|]. un E t Et. un E y Ey. destruct y as [ps a]. injection E as <-. destruct (IH _ _ _ Ey Hr) as [G [z Z']]. split; [apply Two; [apply Hc; auto|exact G]|]. rewrite Et. cbn [obind]. exists z. cbn [fst] in *. rewrite Z'. reflexivity.
    + destruct dots; [discriminate|]. destruct (IH _ _ _ E Hr) as [G Z']. split; [apply Two; [apply Hc; auto|exact G]|exact Z'].
Qed.
Lemma struct_walk : forall f (h : nat -> out (list (nat * other))) g l acc x, struct_children data f g l acc = Ok x ->
  (forall c d, In c l -> data c = Some d -> (d_tag d = DMember \/ d_tag d = DTemplateType) \/ (exists a y, f c a = Ok y) -> exists w, h c = Ok w) -> exists w, gather h l = Ok w.
Proof.
  intros f h g. induction l as [|c r IH]; intros acc x E Hh; [exists []; reflexivity|]. cbn in E. destruct (data c) as [d|] eqn:D; [|discriminate].
  assert (Hr : forall c d, In c r -> data c = Some d -> (d_tag d = DMember \/ d_tag d = DTemplateType) \/ (exists a y, f c a = Ok y) -> exists w, h c = Ok w) by (intros c' d' I; apply Hh; right; exact I).
  assert (Two : (exists w, h c = Ok w) -> (exists w, gather h r = Ok w) -> exists w, gather h (c :: r) = Ok w) by (intros [a A] [b B]; exists (a ++ b)%list; cbn; rewrite A; cbn; rewrite B; reflexivity).
  pose proof (Hh c d (or_introl eq_refl) D) as Hc.
  destruct (d_tag d) eqn:T; try (un E y Ey; destruct (fst y); [|discriminate]; un E z Ez; apply Two; [apply Hc; right; eauto|eapply IH; eassumption]).
  - un E m Em. un E z Ez. apply Two; [apply Hc; auto|eapply IH; eassumption].
  - apply Two; [apply Hc; auto|eapply IH; eassumption].
Qed.
Lemma scope_walk : forall f (h : nat -> out (list (nat * other))) b l acc x, scope data f b l acc = Ok x ->
  (forall c d, In c l -> data c = Some d -> d_tag d = DImported \/ (exists a y, f c a = Ok y) -> exists w, h c = Ok w) -> exists w, gather h l = Ok w.
Proof.
  intros f h b. induction l as [|c r IH]; intros acc x E Hh; [exists []; reflexivity|]. cbn in E. destruct (data c) as [d|] eqn:D; [|discriminate].
  assert (Hr : forall c d, In c r -> data c = Some d -> d_tag d = DImported \/ (exists a y, f c a = Ok y) -> exists w, h c = Ok w) by (intros c' d' I; apply Hh; right; exact I).
  assert (Two : (exists w, h c = Ok w) -> (exists w, gather h r = Ok w) -> exists w, gather h (c :: r) = Ok w) by (intros [a A] [b' B]; exists (a ++ b')%list; cbn; rewrite A; cbn; rewrite B; reflexivity).
  pose proof (Hh c d (or_introl eq_refl) D) as Hc.
  destruct (b && match d_tag d with DImported => true | _ => false end) eqn:Bi.
  - apply Two; [|eapply IH; eassumption]. apply Hc. left. apply andb_true_iff in Bi. destruct Bi as [_ Bi]. destruct (d_tag d); try discriminate. reflexivity.
  - un E y Ey. destruct (b && negb (fst y)); [discriminate|]. apply Two; [apply Hc; right; eauto|eapply IH; eassumption].
Qed.
Lemma process_walk : forall fuel i acc y, process data fuel i acc = Ok y -> exists w, others data (S fuel) i = Ok w.
Proof.
  induction fuel as [|fuel IH]; intros i acc y E; [discriminate|]. cbn [process] in E. remember (S fuel) as n eqn:N. cbn [others]. destruct (data i) as [d|] eqn:D; [|discriminate]. subst n.
  assert (Part : forall c e t, data c = Some e -> d_tag e = t -> t = DParameter \/ t = DUnspecifiedParameters \/ t = DTemplateType \/ t = DMember \/ t = DImported -> exists w, others data (S fuel) c = Ok w).
  { intros c e t De Te O. exists []. cbn [others]. rewrite De, Te. destruct O as [->|[->|[->|[->| ->]]]]; reflexivity. }
  destruct (d_tag d) eqn:T; try (eexists; reflexivity); try discriminate.
  - un E x Ex. eapply struct_walk; [exact Ex|]. intros c e I De [[O|O]|[a [z O]]]; [eapply Part; eauto|eapply Part; eauto 6|eapply IH; exact O].
  - un E t Et. unfold variable. rewrite Et. eexists. reflexivity.
  - un E x Ex. eapply scope_walk; [exact Ex|]. intros c e I De [O|[a [z O]]]; [eapply Part; eauto 8|eapply IH; exact O].
  - un E t Et. un E x Ex. destruct (func_walk _ (others data (S fuel)) _ _ _ _ Ex) as [[w Ew] [z Z']].
    + intros c e I De [[O|[O|O]]|[a [z O]]]; [eapply Part; eauto|eapply Part; eauto|eapply Part; eauto 6|]. destruct (process data fuel c a) as [r| | |] eqn:P; try discriminate. eapply IH; exact P.
    + unfold subprogram. rewrite Et. cbn [obind]. rewrite Z'. cbn [obind]. rewrite Ew. eexists. reflexivity.
  - un E x Ex. eapply scope_walk; [exact Ex|]. intros c e I De [O|[a [z O]]]; [eapply Part; eauto 8|eapply IH; exact O].
Qed.
Lemma units_walk : forall fuel l acc L, units data fuel l acc = Ok L -> (exists w, gather (fun u => match data u with Some e => gather (others data (S fuel)) (d_children e) | None => Err end) l = Ok w) /\ forall u, In u l -> kind_in data (eq DUnit) u.
Proof.
  intros fuel. induction l as [|u r IH]; intros acc L E; cbn in E; [split; [exists []; reflexivity|intros u []]|]. destruct (data u) as [d|] eqn:D; [|discriminate]. destruct (d_tag d) eqn:T; try discriminate. destruct (d_name d); [|discriminate]. un E a Ea.
  destruct (IH _ _ E) as [[w Ew] K]. split.
  - assert (exists v, gather (others data (S fuel)) (d_children d) = Ok v) as [v Ev].
    { eapply scope_walk; [exact Ea|]. intros c e I De [O|[a' [z O]]]; [exists []; cbn [others]; rewrite De, O; reflexivity|eapply process_walk; exact O]. }
    exists (v ++ w)%list. cbn [gather]. rewrite D, Ev. cbn [obind]. rewrite Ew. reflexivity.
  - intros x [<-|I]; [exists d; split; [exact D|symmetry; exact T]|apply K; exact I].
Qed.
Lemma build_walk : forall fuel L, build data fuel = Ok L -> (exists W, build_others data (S fuel) = Ok W) /\ forall u, child data 0 u -> kind_in data (eq DUnit) u.
Proof.
  intros fuel L E. unfold build in E. unfold build_others. destruct (data 0%nat) as [d|] eqn:D; [|discriminate]. destruct (units_walk _ _ _ _ E) as [A K]. split; [exact A|]. intros u [d' [D' I]]. rewrite D in D'. injection D' as <-. apply K. exact I.
Qed.
Lemma func_params_names : forall f l dots acc ps acc', func_params data f dots l acc = Ok (ps, acc') ->
  Forall2 (fun c p => exists x, data c = Some x /\ a_name p = d_name x /\ a_type p = d_type x /\ (forall j, a_type p = Some j -> kind_in data type_tag j) /\
    match a_unspec p with Some true => true | _ => false end = match d_tag x with DUnspecifiedParameters => true | _ => false end)
    (filter (fun c => match data c with Some x => match d_tag x with DParameter | DUnspecifiedParameters => true | _ => false end | None => false end) l) ps.
Proof.
  intros f. induction l as [|c r IH]; intros dots acc ps acc' H; cbn in H; [injection H as <- <-; constructor|]. cbn [filter]. destruct (data c) as [d|] eqn:D; [|discriminate].
  destruct (d_tag d) eqn:T; try (un H a1 E; eapply IH; exact H).
  - destruct dots; [discriminate|]. un H t E. un H x E2. destruct x as [ps' ac]. injection H as <- <-. destruct (link_of_in _ _ _ E) as [-> K]. constructor; [|eapply IH; exact E2]. exists d. cbn. rewrite T. auto 6.
  - destruct dots; [discriminate|]. un H t E. un H x E2. destruct x as [ps' ac]. injection H as <- <-. destruct (link_of_in _ _ _ E) as [-> K]. constructor; [|eapply IH; exact E2]. exists d. cbn. rewrite T. auto 6.
  - destruct dots; [discriminate|]. eapply IH; exact H.
Qed.
End S.

Theorem others_found : forall data fuel L, build data fuel = Ok L -> exists W, build_others data (S fuel) = Ok W /\
  forall i, In i (map fst W) <-> declared_in data i /\ (kind_in data (eq DVariable) i \/ kind_in data (eq DSubprogram) i).
Proof.
  intros data fuel L B. destruct (build_walk data _ _ B) as [[W E] U]. exists W. split; [exact E|]. intros i. split.
  - intros I. apply in_map_iff in I. destruct I as [[k v] [Ek I]]. cbn in Ek. subst k. destruct (build_others_sound data _ _ E U _ _ I) as [Di [d [D O]]]. split; [exact Di|]. destruct O as [[T _]|[T _]]; [left|right]; exists d; auto.
  - intros [Di O]. destruct (declared_walked data _ _ E i Di) as [f [l [El Inc]]]. assert (exists d, data i = Some d /\ (d_tag d = DVariable \/ d_tag d = DSubprogram)) as [d [D T]] by (destruct O as [[d [D T]]|[d [D T]]]; exists d; auto).
    destruct (walked_found data _ _ _ _ El D T) as [v Iv]. apply in_map_iff. exists (i, v). split; [reflexivity|apply Inc; exact Iv].
Qed.

(** ** Printed entries *)
Lemma printed_other : forall H V r v, H r = None -> V r = Some v -> printed H V (ty r) = other_entry_of r v.
Proof. intros H V r v E F. unfold printed, ty. rewrite Nat.mul_comm, Nat.mod_mul, Nat.div_mul by discriminate. rewrite E, F. reflexivity. Qed.
Lemma printed_param : forall H V r v ps k p, H r = None -> V r = Some v -> v_params v = Some ps -> nth_error ps k = Some p -> printed H V (pr r k) = param_entry_of p.
Proof.
  intros H V r v ps k p E F B N. unfold printed, pr. replace (3 * to_nat (r, k) + 2)%nat with (2 + to_nat (r, k) * 3)%nat by lia. rewrite Nat.mod_add, Nat.div_add by discriminate. cbn [Nat.modulo Nat.divmod fst snd Nat.sub Nat.div Nat.add].
  rewrite cancel_of_to, E, F, B, N. reflexivity.
Qed.

Theorem objects_ok : forall data parent L st, generated data parent L st -> forall W fuel, build_others data fuel = Ok W -> exists Q, faithful data (run_time L W st) Q /\
  (forall i, declared_in data i -> kind_in data type_tag i -> i_dup st (parent i) = false \/ In (i_rep st i) (i_db st) -> Q i (ty (i_rep st i))) /\
  forall i d, declared_in data i -> data i = Some d ->
    (d_tag d = DVariable -> variable_says (leads data parent st Q) d (run_time L W st (ty i))) /\
    (d_tag d = DSubprogram -> function_says data (run_time L W st) (leads data parent st Q) d (run_time L W st (ty i))).
Proof.
  intros data parent L st Ge W fuel EW. destruct (generated_faithful data parent L W st Ge) as [Q [F [_ X]]]. exists Q. split; [exact F|]. split; [exact X|].
  intros i d Di D. destruct Ge as [Tr [bf B] _ _ _ _ _ _]. destruct (build_ok data _ _ B) as [R _].
  assert (Lead : forall t, (forall j, t = Some j -> kind_in data type_tag j) -> leads data parent st Q t (link_to (option_map (i_rep st) t))).
  { intros [j|] Kj; [|exact Logic.I]. cbn. split; [apply Kj; reflexivity|]. intros Dj Or. apply X; [exact Dj|apply Kj; reflexivity|exact Or]. }
  assert (Hn : d_tag d = DVariable \/ d_tag d = DSubprogram -> db_graph (made L) st i = None).
  { intros T. destruct (db_graph (made L) st i) as [b|] eqn:H; [|reflexivity]. exfalso. destruct (db_graph_in _ _ _ _ H) as [o [Go _]]. pose proof (R _ _ (made_in _ _ _ Go)) as Ro.
    destruct (right_key data _ _ Ro) as [[d' [D' K]]|[a [_ [_ [d' [D' K]]]]]]; rewrite D in D'; injection D' as <-; [destruct T as [T|T]; rewrite T in K; exact K|destruct T as [T|T]; congruence]. }
  assert (Vi : d_tag d = DVariable \/ d_tag d = DSubprogram -> exists v, other_at W i = Some v /\ right_other data i v).
  { intros T. destruct (declared_walked data _ _ EW i Di) as [f [l [El Inc]]]. destruct (walked_found data _ _ _ _ El D T) as [v Iv]. destruct (in_other_at _ _ _ (Inc _ Iv)) as [v' Ev]. exists v'. split; [exact Ev|].
    exact (proj2 (build_others_sound data _ _ EW (proj2 (build_walk data _ _ B)) _ _ (other_at_in _ _ _ Ev))). }
  assert (Cs : forall v, v_name v = d_name d -> v_decl v = declared_die d -> common_says d (other_entry_of i (relink_other (i_rep st) v))).
  { intros v Nv Dv. split; [exact Nv|]. cbn. rewrite Dv. unfold declared_die, is_declaration. destruct (d_decl d) as [[|]|]; split; intros Y; try discriminate; try reflexivity; congruence. }
  split; intros T.
  - destruct (Vi (or_introl T)) as [v [Ev [d' [D' O]]]]. rewrite D in D'. injection D' as <-. destruct O as [[_ Rv]|[T' _]]; [|congruence]. unfold variable in Rv. un Rv t Et. destruct (link_of_in _ _ _ Et) as [-> Kt]. injection Rv as <-.
    set (V := fun i => option_map (relink_other (i_rep st)) (other_at W i)).
    assert (Vv : V i = Some (relink_other (i_rep st) {| v_name := d_name d; v_decl := declared_die d; v_type := d_type d; v_params := None |})) by (unfold V; rewrite Ev; reflexivity).
    unfold run_time. fold V. rewrite (printed_other _ V _ _ (Hn (or_introl T)) Vv). split; [apply Cs; reflexivity|]. eexists. split; [reflexivity|]. apply Lead. exact Kt.
  - destruct (Vi (or_intror T)) as [v [Ev [d' [D' O]]]]. rewrite D in D'. injection D' as <-. destruct O as [[T' _]|[_ Rv]]; [congruence|]. unfold subprogram in Rv. un Rv t Et. un Rv x Ex. destruct x as [ps z]. destruct (link_of_in _ _ _ Et) as [-> Kt]. injection Rv as <-.
    set (V := fun i => option_map (relink_other (i_rep st)) (other_at W i)).
    assert (Vv : V i = Some (relink_other (i_rep st) {| v_name := d_name d; v_decl := declared_die d; v_type := d_type d; v_params := Some ps |})) by (unfold V; rewrite Ev; reflexivity).
    unfold run_time. fold V. rewrite (printed_other _ V _ _ (Hn (or_intror T)) Vv). split; [apply Cs; reflexivity|]. eexists _, _. split; [reflexivity|]. split; [apply Lead; exact Kt|]. cbn [v_params relink_other option_map].
    pose proof (func_params_names data _ _ _ _ _ _ Ex) as N. unfold parameters_of.
    pose proof (forall2_seq _ _ _ (pr i) (printed (db_graph (made L) st) V) (fun p => param_entry_of (relink_param (i_rep st) p)) _ _ N 0%nat) as S. rewrite map_length. refine (forall2_imp _ _ _ _ _ _ _ (S _)).
    + intros c m _ _ [p [[y [Dy [Ny [Ty [Ky Uy]]]]] Ep]]. exists y. split; [exact Dy|]. rewrite Ep. split; [exact Ny|]. cbn. rewrite Uy. eexists. split; [reflexivity|]. rewrite <- Ty. apply Lead. exact Ky.
    + intros k p Np. apply (printed_param _ V i _ _ k _ (Hn (or_intror T)) Vv eq_refl). cbn. rewrite nth_error_map, Np. reflexivity.
Qed.

(** the link itself *)
Lemma variable_entry : forall data parent L st, generated data parent L st -> forall W fuel, build_others data fuel = Ok W -> forall i d, declared_in data i -> data i = Some d -> d_tag d = DVariable ->
  (forall j, d_type d = Some j -> kind_in data type_tag j) /\ e_info (run_time L W st (ty i)) = IVariable (link_to (option_map (i_rep st) (d_type d))).
Proof.
  intros data parent L st Ge W fuel EW i d Di D T. destruct Ge as [Tr [bf B] _ _ _ _ _ _]. destruct (build_ok data _ _ B) as [R _].
  assert (Hn : db_graph (made L) st i = None).
  { destruct (db_graph (made L) st i) as [b|] eqn:H; [|reflexivity]. exfalso. destruct (db_graph_in _ _ _ _ H) as [o [Go _]]. pose proof (R _ _ (made_in _ _ _ Go)) as Ro.
    destruct (right_key data _ _ Ro) as [[d' [D' K]]|[a [_ [_ [d' [D' K]]]]]]; rewrite D in D'; injection D' as <-; [rewrite T in K; exact K|congruence]. }
  destruct (declared_walked data _ _ EW i Di) as [f [l [El Inc]]]. destruct (walked_found data _ _ _ _ El D (or_introl T)) as [v0 Iv]. destruct (in_other_at _ _ _ (Inc _ Iv)) as [v Ev].
  destruct (build_others_sound data _ _ EW (proj2 (build_walk data _ _ B)) _ _ (other_at_in _ _ _ Ev)) as [_ [d' [D' O]]]. rewrite D in D'. injection D' as <-. destruct O as [[_ Rv]|[T' _]]; [|congruence]. unfold variable in Rv. un Rv t Et. destruct (link_of_in _ _ _ Et) as [-> Kt]. injection Rv as <-.
  split; [exact Kt|]. unfold run_time. rewrite (printed_other _ _ _ (relink_other (i_rep st) {| v_name := d_name d; v_decl := declared_die d; v_type := d_type d; v_params := None |}) Hn); [reflexivity|]. rewrite Ev. reflexivity.
Qed.

(** ** The functions of the run time *)
Theorem variable_size : forall data parent L st, generated data parent L st -> forall W fuel, build_others data fuel = Ok W -> forall i d j z, declared_in data i -> data i = Some d -> d_tag d = DVariable -> d_type d = Some j ->
  declared_in data j -> i_dup st (parent j) = false \/ In (i_rep st j) (i_db st) -> dw_size data j z -> (0 <= z < 2 ^ 64)%Z ->
  meets_declaration (run_time L W st) (ty (i_rep st j)) \/ exists n, forall fuel, (n <= fuel)%nat -> byte_size fuel (run_time L W st) (Some (St (ty i))) = Ret (inl z).
Proof.
  intros data parent L st Ge W fuel EW i d j z Di D T Ty Dj Or S B. destruct (variable_entry data parent L st Ge W fuel EW i d Di D T) as [Kj E]. rewrite Ty in E. cbn [option_map link_to] in E.
  destruct (generated_faithful data parent L W st Ge) as [Q [F [_ X]]]. assert (Qj : Q j (ty (i_rep st j))) by (apply X; [exact Dj|apply Kj; exact Ty|exact Or]).
  destruct (size_ok data _ Q F j _ z Qj S B) as [M|[n N]]; [left; exact M|right]. exists (Datatypes.S n). intros [|f] Lf; [lia|]. unfold byte_size in *. cbn [byte_size_loop deref]. rewrite E. apply N. lia.
Qed.
Theorem function_parameters : forall data R to d r, function_says data R to d (R r) -> forall fuel,
  parameters_count (S fuel) R (Some (St r)) = Ret (Z.of_nat (List.length (parameters_of data d))) /\
  forall k c, nth_error (parameters_of data d) k = Some c -> exists x q, data c = Some x /\ by_parameter_id (S fuel) R (Some (St r)) (Z.of_nat k) = Ret (Some (St q)) /\ parameter_says to x (R q).
Proof.
  intros data R to d r [_ [t [ps [E [_ F]]]]] fuel.
  assert (Fi : final_if (S fuel) R (Some (St r)) is_fun_info = Ret (Some (St r))) by (unfold final_if, final_entry; cbn; rewrite E; cbn; rewrite E; reflexivity).
  split.
  - unfold parameters_count. rewrite Fi. cbn [bind]. unfold params_of. cbn [deref]. rewrite E. f_equal. f_equal. symmetry. clear - F. induction F; cbn; congruence.
  - intros k c Nk. unfold by_parameter_id. rewrite Fi. cbn [bind]. unfold params_of. cbn [deref]. rewrite E. clear - F Nk.
    assert (exists p, nth_error ps k = Some p /\ exists x, data c = Some x /\ parameter_says to x (R p)) as [p [Np [x [Dx Mx]]]].
    { revert k Nk. induction F as [|c0 m0 cs l X F IH]; intros k Nk; [destruct k; discriminate|]. destruct k as [|k]; [injection Nk as <-; exists m0; split; [reflexivity|exact X]|]. exact (IH k Nk). }
    exists x, p. split; [exact Dx|]. split; [|exact Mx]. unfold nth_id. pose proof (nth_error_Some ps k) as [Lt _]. assert (k < List.length ps)%nat by (apply Lt; congruence).
    replace (Z.of_nat k <? 0)%Z with false by (symmetry; apply Z.ltb_ge; lia). replace (Z.of_nat (List.length ps) <=? Z.of_nat k)%Z with false by (symmetry; apply Z.leb_gt; lia). cbn [orb]. rewrite Nat2Z.id, Np. reflexivity.
Qed.
