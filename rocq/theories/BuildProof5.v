(** The builder takes all debugging data of the expected form. *)
From Coq Require Import ZArith String Ascii List Bool Arith Lia.
From Verif Require Import Base MetadbModel MetadbSpec BuildModel.
From Verif Require Import EntryModel ValueModel.
From Verif Require Import BuildSpec BuildProof4.
Import ListNotations.

Section Takes.
Variable data : nat -> option die.
Definition goes {A} (x : out A) : Prop := exists a, x = Ok a.
Lemma type_goes : forall j, kind_in data type_tag j -> type_entry data j = Ok tt.
Proof. intros j [d [D T]]. unfold type_entry. rewrite D. destruct (d_tag d); try destruct T; reflexivity. Qed.
Lemma link_goes : forall d, type_ok data d -> link_of data d = Ok (d_type d).
Proof. intros d T. unfold link_of, type_ok in *. destruct (d_type d) as [j|]; [|reflexivity]. rewrite (type_goes j T). reflexivity. Qed.
Lemma enum_goes : forall l, (forall c, In c l -> exists e, data c = Some e /\ d_tag e = DEnumerator /\ d_name e <> None /\ d_value e <> None) -> goes (enumerators data l).
Proof.
  induction l as [|c r IH]; intros H; [eexists; reflexivity|]. destruct IH as [x X]; [intros; apply H; right; assumption|]. destruct (H c (or_introl eq_refl)) as [e [E [T [N V]]]]. cbn. rewrite E, T.
  destruct (d_name e); [|contradiction]. destruct (d_value e); [|contradiction]. rewrite X. eexists. reflexivity.
Qed.
Lemma sub_goes : forall l, (forall c, In c l -> kind_in data (eq DSubrange) c) -> goes (subranges data l).
Proof.
  induction l as [|c r IH]; intros H; [eexists; reflexivity|]. destruct IH as [x X]; [intros; apply H; right; assumption|]. destruct (H c (or_introl eq_refl)) as [e [E T]]. cbn. rewrite E, <- T, X. eexists. reflexivity.
Qed.
Lemma func_goes : forall f l dots acc, params_ok data l -> (dots = true -> forall x, In x l -> ~ kind_in data is_parameter x) ->
  (forall c e a, In c l -> data c = Some e -> ~ is_parameter (d_tag e) -> goes (f c a)) -> goes (func_params data f dots l acc).
Proof.
  intros f. induction l as [|c r IH]; intros dots acc P Dt F; [eexists; reflexivity|]. pose proof P as [P1 P2]. destruct (P1 c (or_introl eq_refl)) as [e [E Te]].
  assert (Pr : params_ok data r) by (split; [intros x I; apply P1; right; exact I|]; intros l1 x l2 y Eq; apply (P2 (c :: l1) x l2 y); rewrite Eq; reflexivity).
  assert (Fr : forall c e a, In c r -> data c = Some e -> ~ is_parameter (d_tag e) -> goes (f c a)) by (intros; eapply F; eauto; right; assumption).
  assert (Nd : is_parameter (d_tag e) -> dots = false) by (intros T; destruct dots; [|reflexivity]; destruct (Dt eq_refl c (or_introl eq_refl)); exists e; auto).
  assert (Dr : forall b, (b = true -> dots = true \/ d_tag e = DUnspecifiedParameters) -> b = true -> forall x, In x r -> ~ kind_in data is_parameter x).
  { intros b Hb B x I. destruct (Hb B) as [D|D]; [apply Dt; [exact D|right; exact I]|]. apply (P2 [] c r x eq_refl); [exists e; auto|exact I]. }
  cbn [func_params]. rewrite E.
  assert (Other : ~ is_parameter (d_tag e) -> goes (obind (f c acc) (fun acc1 => func_params data f dots r acc1))).
  { intros N. destruct (F c e acc (or_introl eq_refl) E N) as [a A]. rewrite A. cbn [obind]. apply IH; [exact Pr|apply Dr; auto|exact Fr]. }
  destruct (d_tag e) eqn:T; try (apply Other; cbn; tauto).
  - rewrite (Nd Logic.I), (link_goes e (Te (or_introl eq_refl))). cbn [obind]. destruct (IH false acc Pr) as [[ps a] X]; [intros; discriminate|exact Fr|]. rewrite X. eexists. reflexivity.
  - rewrite (Nd Logic.I), (link_goes e (Te (or_intror eq_refl))). cbn [obind]. destruct (IH true acc Pr) as [[ps a] X]; [apply Dr; auto|exact Fr|]. rewrite X. eexists. reflexivity.
  - rewrite (Nd Logic.I). apply IH; [exact Pr|intros; discriminate|exact Fr].
Qed.
Lemma member_goes : forall g d, member_ok data g d -> goes (member data g d).
Proof.
  intros g d [[t [T K]] [B P]]. unfold member. rewrite T, (type_goes t K). cbn [obind]. destruct (d_bitoffset d) as [b|]; cbn [some andb].
  - destruct (d_size d) as [z|]; [|exfalso; apply B; [discriminate|reflexivity]]. cbn [some negb]. destruct P as [->|[P|P]].
    + rewrite andb_false_r. eexists. reflexivity.
    + destruct (d_location d); [|contradiction]. eexists. reflexivity.
    + destruct (d_databit d); [|contradiction]. cbn [some negb]. rewrite andb_false_r. eexists. reflexivity.
  - destruct P as [->|[P|P]].
    + rewrite andb_false_r. eexists. reflexivity.
    + destruct (d_location d); [|contradiction]. eexists. reflexivity.
    + destruct (d_databit d); [|contradiction]. cbn [some negb]. rewrite andb_false_r. eexists. reflexivity.
Qed.
Lemma struct_goes : forall f g l acc, (forall c, In c l -> exists e, data c = Some e /\ (d_tag e = DMember -> member_ok data g e) /\ d_tag e <> Skipped) ->
  (forall c e a, In c l -> data c = Some e -> d_tag e <> DMember -> d_tag e <> DTemplateType -> d_tag e <> Skipped -> exists a', f c a = Ok (true, a')) -> goes (struct_children data f g l acc).
Proof.
  intros f g. induction l as [|c r IH]; intros acc H F; [eexists; reflexivity|]. destruct (H c (or_introl eq_refl)) as [e [E [M N]]].
  assert (Hr : forall c, In c r -> exists e, data c = Some e /\ (d_tag e = DMember -> member_ok data g e) /\ d_tag e <> Skipped) by (intros; apply H; right; assumption).
  assert (Fr : forall c e a, In c r -> data c = Some e -> d_tag e <> DMember -> d_tag e <> DTemplateType -> d_tag e <> Skipped -> exists a', f c a = Ok (true, a')) by (intros; eapply F; eauto; right; assumption).
  cbn [struct_children]. rewrite E.
  assert (Other : d_tag e <> DMember -> d_tag e <> DTemplateType -> goes (try y <- f c acc; if fst y then try x <- struct_children data f g r (snd y); (let '(fs, hs, acc') := x in Ok (fs, Some c :: hs, acc')) else Panic)).
  { intros N1 N2. destruct (F c e acc (or_introl eq_refl) E N1 N2 N) as [a A]. rewrite A. cbn [obind fst snd]. destruct (IH a Hr Fr) as [[[fs hs] a'] X]. rewrite X. eexists. reflexivity. }
  destruct (d_tag e) eqn:T; try (apply Other; discriminate).
  - destruct (member_goes g e (M eq_refl)) as [m X]. rewrite X. cbn [obind]. destruct (IH acc Hr Fr) as [[[fs hs] a'] Y]. rewrite Y. eexists. reflexivity.
  - apply IH; assumption.
Qed.
Lemma scope_goes : forall f b l acc, (forall c, In c l -> exists e, data c = Some e /\ (b = true -> d_tag e <> Skipped)) ->
  (forall c e a, In c l -> data c = Some e -> (b = true -> d_tag e <> DImported) -> exists y, f c a = Ok y /\ (d_tag e <> Skipped -> fst y = true)) -> goes (scope data f b l acc).
Proof.
  intros f b. induction l as [|c r IH]; intros acc H F; [eexists; reflexivity|]. destruct (H c (or_introl eq_refl)) as [e [E N]].
  assert (Hr : forall c, In c r -> exists e, data c = Some e /\ (b = true -> d_tag e <> Skipped)) by (intros; apply H; right; assumption).
  assert (Fr : forall c e a, In c r -> data c = Some e -> (b = true -> d_tag e <> DImported) -> exists y, f c a = Ok y /\ (d_tag e <> Skipped -> fst y = true)) by (intros; eapply F; eauto; right; assumption).
  cbn [scope]. rewrite E. destruct (b && match d_tag e with DImported => true | _ => false end) eqn:B; [apply IH; assumption|].
  destruct (F c e acc (or_introl eq_refl) E) as [y [Y T]]; [intros -> X; rewrite X in B; discriminate|]. rewrite Y. cbn [obind]. destruct b; [|apply IH; assumption]. rewrite (T (N eq_refl)). cbn. apply IH; assumption.
Qed.
Hypothesis Ac : accepted data.
Variable rank : nat -> nat.
Hypothesis Rk : forall i c, child data i c -> (rank c < rank i)%nat.
Lemma process_goes : forall fuel i d acc, (rank i < fuel)%nat -> declared_in data i -> data i = Some d -> exists y, process data fuel i acc = Ok y /\ (d_tag d <> Skipped -> fst y = true).
Proof.
  induction fuel as [|fuel IH]; intros i d acc Lt Di D; [lia|]. destruct (ac_entries _ Ac i d Di D) as [Nu Eo]. cbn [process]. rewrite D.
  assert (F : forall c e a, In c (d_children d) -> data c = Some e -> ~ part_of (d_tag d) (d_tag e) -> exists y, process data fuel c a = Ok y /\ (d_tag e <> Skipped -> fst y = true)).
  { intros c e a I E N. apply IH; [|eapply di_more; eauto|exact E]. specialize (Rk i c (ex_intro _ d (conj D I))). lia. }
  assert (One : forall x : out object, goes x -> exists y, (try o <- x; Ok (true, (i, o) :: acc)) = Ok y /\ (d_tag d <> Skipped -> fst y = true)) by (intros x [o ->]; eexists; split; reflexivity).
  unfold entry_ok in Eo. destruct (d_tag d) eqn:T; try (destruct Eo; fail).
  - apply One. destruct Eo as [[n [N C]] [B1 [B2 B3]]]. unfold base_type. rewrite N, B1, B2, B3. cbn [some orb]. unfold base_name.
    destruct (String.eqb_spec (de_synonym n) "complex") as [E|E]; [|eexists; reflexivity].
    assert (n = "complex"%string) as X.
    { destruct (find_syn n) as [[v [X I]]|X]; [|congruence]. exfalso. rewrite E in X. subst v. assert (A : forallb (fun p => negb (String.eqb (snd p) "complex")) synonyms = true) by (vm_compute; reflexivity). rewrite forallb_forall in A. specialize (A _ I). discriminate. }
    destruct (C X) as [->|[->| ->]]; eexists; reflexivity.
  - apply One. destruct (enum_goes _ Eo) as [l L]. rewrite L. eexists. reflexivity.
  - destruct Eo as [[t [Ty K]] Ch]. destruct (sub_goes _ Ch) as [rs R]. rewrite R, Ty. cbn [obind]. rewrite (type_goes t K). eexists. split; reflexivity.
  - apply One. rewrite (link_goes d Eo). eexists. reflexivity.
  - apply One. rewrite (link_goes d Eo). eexists. reflexivity.
  - apply One. eexists. reflexivity.
  - apply One. destruct Eo as [Ty P]. rewrite (link_goes d Ty). cbn [obind]. destruct (func_goes (fun _ a => Ok a) (d_children d) false [] P) as [x X]; [intros; discriminate|intros; eexists; reflexivity|]. rewrite X. eexists. reflexivity.
  - apply One. destruct Eo as [N Ty]. destruct (d_name d); [|contradiction]. rewrite (link_goes d Ty). eexists. reflexivity.
  - apply One. rewrite (link_goes d Eo). eexists. reflexivity.
  - destruct (struct_goes (process data fuel) g (d_children d) acc Eo) as [[[fs hs] a] X].
    + intros c e a I E N1 N2 N3. destruct (F c e a I E) as [[b y] [Y B]]; [cbn; tauto|]. specialize (B N3). cbn in B. subst b. exists y. exact Y.
    + rewrite X. eexists. split; reflexivity.
  - rewrite (link_goes d Eo). eexists. split; reflexivity.
  - destruct (scope_goes (process data fuel) false (d_children d) acc) as [a X].
    + intros c I. specialize (Eo c I). destruct (data c) as [e|] eqn:E; [|contradiction]. exists e. split; [reflexivity|discriminate].
    + intros c e a I E _. apply (F c e a I E). cbn. tauto.
    + rewrite X. eexists. split; reflexivity.
  - destruct Eo as [Ty P]. rewrite (link_goes d Ty). cbn [obind].
    destruct (func_goes (fun c a => try y <- process data fuel c a; Ok (snd y)) (d_children d) false acc P) as [x X]; [intros; discriminate| |rewrite X; eexists; split; reflexivity].
    intros c e a I E N. destruct (F c e a I E) as [y [Y _]]; [cbn; intros [X|[X|X]]; rewrite X in N; apply N; exact Logic.I|]. rewrite Y. eexists. reflexivity.
  - destruct (scope_goes (process data fuel) true (d_children d) acc) as [a X].
    + intros c I. destruct (Eo c I) as [e [E N]]. exists e. auto.
    + intros c e a I E N. apply (F c e a I E). cbn. apply N. reflexivity.
    + rewrite X. eexists. split; reflexivity.
  - eexists. split; [reflexivity|congruence].
  - contradiction Nu. reflexivity.
Qed.
Lemma units_goes : forall fuel l acc, (forall u, In u l -> child data 0 u /\ (rank u <= fuel)%nat) -> goes (units data fuel l acc).
Proof.
  intros fuel. induction l as [|u r IH]; intros acc H; [eexists; reflexivity|]. destruct (H u (or_introl eq_refl)) as [C Lt]. destruct (ac_units _ Ac u C) as [d [D [T [N Eo]]]]. cbn [units]. rewrite D, T. destruct (d_name d); [|contradiction].
  unfold entry_ok in Eo. rewrite T in Eo. destruct (scope_goes (process data fuel) true (d_children d) acc) as [a X].
  - intros c I. destruct (Eo c I) as [e [E Ne]]. exists e. auto.
  - intros c e a I E Ni. apply process_goes; [|eapply (di_unit data u c d e); eauto; rewrite T; cbn; apply Ni; reflexivity|exact E]. specialize (Rk u c (ex_intro _ d (conj D I))). lia.
  - rewrite X. cbn [obind]. apply IH. intros v I. apply H. right. exact I.
Qed.
End Takes.
Theorem build_takes : forall data, tree data -> accepted data -> exists n, forall fuel, (n <= fuel)%nat -> exists L, build data fuel = Ok L.
Proof.
  intros data Tr Ac. destruct (tr_ends _ Tr) as [rank Rk]. exists (rank 0%nat). intros fuel Lf. unfold build. pose proof (ac_root _ Ac) as R. destruct (data 0%nat) as [d|] eqn:D; [|contradiction].
  apply (units_goes data Ac rank Rk). intros u I. assert (C : child data 0 u) by (exists d; auto). split; [exact C|]. specialize (Rk _ _ C). lia.
Qed.
