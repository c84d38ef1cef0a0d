(** Reachability: the tree holds everything that can be reached; deep free. *)
From Coq Require Import ZArith String List Bool Permutation Sorted Lia ZifyBool.
From Verif Require Import Base BaseProof EntryModel EntrySpec EntryProof ValueModel ValueSpec ValueProof2 DeepModel DeepSpec DeepProof DeepProof2 DeepProof3 DeepProof4 DeepProof5.
Import ListNotations.
Open Scope Z_scope.

Lemma nth_error_ext2 : forall {A} (l l' : list A), (forall i, nth_error l i = nth_error l' i) -> l = l'.
Proof.
  induction l as [|a l IH]; intros [|b l'] H; [reflexivity|discriminate (H O)|discriminate (H O)|].
  pose proof (H O) as Q. injection Q as <-. f_equal. apply IH. intro i. apply (H (S i)).
Qed.
Section S.
Variable E : env.
Variable M : mode.
Notation n := (en_fuel E).
Notation d := (en_db E).

(** * The view is unique *)
Lemma size_of_fun : forall v z z', size_of d v z -> size_of d v z' -> z = z'.
Proof. intros v z z' [x [A ->]] [y [B ->]]. assert (x = y) by (eapply has_size_fun; eassumption). congruence. Qed.
Lemma members_fun : forall v l ch ch', Forall2 (member_is d v) l ch -> Forall2 (member_is d v) l ch' -> ch = ch'.
Proof.
  intros v l ch ch' H. revert ch'. induction H as [|r w l ch A F IH]; intros ch' H'; inversion H' as [|? w' ? ch2 B F']; subst; [reflexivity|].
  f_equal; [|apply IH; exact F']. destruct A as [mi [A1 [A2 _]]]. destruct B as [mi' [B1 [B2 _]]]. congruence.
Qed.
Lemma elements_fun : forall w ch ch', elements_are d w ch -> elements_are d w ch' -> ch = ch'.
Proof.
  intros w ch ch' [t [c [A1 [A2 A3]]]] [t' [c' [B1 [B2 B3]]]]. pose proof (has_info_fun _ _ _ _ A1 B1) as Q. injection Q as <- <-.
  apply nth_error_ext2. intro i. destruct (nth_error ch i) as [x|] eqn:X, (nth_error ch' i) as [y|] eqn:Y; try reflexivity.
  - destruct A3 as [r [z [A4 [A5 A6]]]]; [intros ->; destruct i; discriminate|]. destruct B3 as [r' [z' [B4 [B5 B6]]]]; [intros ->; destruct i; discriminate|].
    assert (r' = r) by congruence. subst r'. assert (z = z') by (eapply has_size_fun; eassumption). subst z'.
    destruct (A6 _ _ X) as [-> _]. destruct (B6 _ _ Y) as [-> _]. reflexivity.
  - apply nth_error_None in Y. assert (nth_error ch i <> None) as N by congruence. apply nth_error_Some in N. lia.
  - apply nth_error_None in X. assert (nth_error ch' i <> None) as N by congruence. apply nth_error_Some in N. lia.
Qed.
Lemma points_info : forall m v t p, points d m v t p -> has_info d v (IPointer t).
Proof. intros m v t p [A _]. exact A. Qed.
Lemma target_points : forall m anc v p w, target E M m anc v p w -> p <> 0 /\ exists t, points d m v t p.
Proof. intros m anc v p w H. inversion H; subst; split; eauto. Qed.
Lemma target_ptr : forall m anc v p w, target E M m anc v p w -> is_ptr d m v.
Proof. intros m anc v p w H. destruct (target_points _ _ _ _ _ H) as [_ [t T]]. exists t, p. exact T. Qed.
Lemma target_fun : forall m anc v p w p' w', target E M m anc v p w -> target E M m anc v p' w' -> p = p' /\ w = w'.
Proof.
  intros m anc v p w p' w' A B.
  destruct (target_points _ _ _ _ _ A) as [_ [t T]]. destruct (target_points _ _ _ _ _ B) as [_ [t' T']]. destruct (points_fun _ _ _ _ _ _ _ T T') as [_ <-].
  split; [reflexivity|].
  inversion A as [t1 w1 P1 _ H1 _|t1 P1 _ H1 O1|t1 P1 _ H1 O1 U1]; inversion B as [t2 w2 P2 _ H2 _|t2 P2 _ H2 O2|t2 P2 _ H2 O2 U2]; subst; try congruence.
  - destruct (points_fun _ _ _ _ _ _ _ P1 P2) as [Q _]. congruence.
  - destruct (points_fun _ _ _ _ _ _ _ P1 P2) as [Q _]. subst t2. contradiction.
  - destruct (points_fun _ _ _ _ _ _ _ P1 P2) as [Q _]. subst t1. contradiction.
Qed.
Lemma loop_excl : forall m anc p l, no_loop d m anc p -> loop_at d m anc p l -> False.
Proof. intros m anc p l N [pre [a [post [t [-> [_ [P _]]]]]]]. eapply N; [|exact P]. apply in_or_app. right. left. reflexivity. Qed.
Lemma loop_fun : forall m anc p l l', loop_at d m anc p l -> loop_at d m anc p l' -> l = l'.
Proof.
  intros m anc p l l' [pre [a [post [t [Q [-> [P N]]]]]]] [pre' [a' [post' [t' [Q' [-> [P' N']]]]]]]. rewrite Q in Q'. clear Q. f_equal. f_equal.
  revert pre' Q' N'. induction pre as [|x pre IH]; intros [|x' pre'] Q' N'; cbn in *; try reflexivity.
  - injection Q' as <- _. destruct (N' a t (or_introl eq_refl) P).
  - injection Q' as -> _. destruct (N a' t' (or_introl eq_refl) P').
  - injection Q' as <- Q'. f_equal. apply IH; [intros b t0 B; apply N; right; exact B|exact Q'|intros b t0 B; apply N'; right; exact B].
Qed.

(** node views do not depend on pointers further up *)
Lemma node_local : forall m anc anc' v sz ch, local E m -> same_ctx d m anc anc' -> looks E M m anc v (VNode sz ch) -> looks E M m anc' v (VNode sz ch).
Proof.
  intros m anc anc' v sz ch L C H. pose proof (L RQVST_union_member v _ _ C) as LU. pose proof (L RQVST_flex_array_count v _ _ C) as LF.
  inversion H; subst.
  - eapply lk_struct; eassumption.
  - eapply lk_union; try eassumption. rewrite <- LU. assumption.
  - eapply lk_array; try eassumption. rewrite <- LF. assumption.
  - eapply lk_flex_other; try eassumption. rewrite <- LF. assumption.
Qed.
Lemma target_local : forall m anc anc' v p w, local E m -> same_ctx d m anc anc' -> target E M m anc v p w -> target E M m anc' v p w.
Proof.
  intros m anc anc' v p w L C H. pose proof (L RQVST_pointer_array_count v _ _ C) as LP.
  inversion H; subst; [eapply tg_handled|eapply tg_typed|eapply tg_byte]; try eassumption; rewrite <- LP; assumption.
Qed.
Lemma node_fun : forall m anc v sz ch sz' ch', looks E M m anc v (VNode sz ch) -> looks E M m anc v (VNode sz' ch') -> sz = sz' /\ ch = ch'.
Proof.
  intros m anc v sz ch sz' ch' A B.
  inversion A as [| | | | |sz1 l1 z1 ch1 I1 F1 S1|sz1 l1 z1 ch1 I1 F1 S1|sz1 t1 c1 ch1 w1 I1 W1 E1 S1|t1 c1 w1 I1 C1 H1 N1|]; subst;
  inversion B as [| | | | |sz2 l2 z2 ch2 I2 F2 S2|sz2 l2 z2 ch2 I2 F2 S2|sz2 t2 c2 ch2 w2 I2 W2 E2 S2|t2 c2 w2 I2 C2 H2 N2|]; subst;
    pose proof (has_info_fun _ _ _ _ I1 I2) as Q; try discriminate Q.
  - injection Q as <- <-. split; [eapply size_of_fun; eassumption|eapply members_fun; eassumption].
  - injection Q as <- <-. split; [eapply size_of_fun; eassumption|].
    destruct F1 as [[-> F1]|[w [-> [N1 F1]]]], F2 as [[-> F2]|[w' [-> [N2 F2]]]]; try reflexivity; try congruence;
      [destruct F1 as [->|[F1 _]]|destruct F2 as [->|[F2 _]]]; congruence.
  - injection Q as <- <-. assert (w1 = w2).
    { destruct W1 as [[N1 ->]|[N1 [W1|[W1 [U1 [r1 [-> ->]]]]]]], W2 as [[N2 ->]|[N2 [W2|[W2 [U2 [r2 [R2 ->]]]]]]]; try congruence; try contradiction. }
    subst w2. assert (ch = ch') by (eapply elements_fun; eassumption). subst ch'. split; [|reflexivity].
    destruct ch; [congruence|eapply size_of_fun; eassumption].
  - injection Q as <- <-. exfalso. destruct E1 as [t [c [K _]]]. destruct W1 as [[N1 ->]|[N1 [W1|[W1 _]]]]; [contradiction| |congruence].
    assert (w1 = w2) by congruence. subst. eapply N2. exact K.
  - injection Q as <- <-. exfalso. destruct E2 as [t [c [K _]]]. destruct W2 as [[N2 ->]|[N2 [W2|[W2 _]]]]; [contradiction| |congruence].
    assert (w1 = w2) by congruence. subst. eapply N1. exact K.
  - split; reflexivity.
Qed.
Lemma node_info : forall m anc v sz ch, looks E M m anc v (VNode sz ch) -> exists i, has_info d v i /\ match i with IBase _ _ | IEnum _ _ | IPointer _ | IParam true _ | ISubprogram _ _ | ISubroutine _ _ => False | _ => True end.
Proof. intros m anc v sz ch H. inversion H; subst; (eexists; split; [eassumption|exact I]). Qed.

Lemma node_not_call : forall m anc v sz ch i, looks E M m anc v (VNode sz ch) -> has_info d v i -> callable i -> False.
Proof.
  intros m anc v sz ch i H I C. destruct (node_info _ _ _ _ _ H) as [i' [I' K]]. pose proof (has_info_fun _ _ _ _ I I') as <-.
  destruct i as [ | | | | | | | | | |[|] ?| | | ]; contradiction.
Qed.
Lemma call_info : forall m anc v l, looks E M m anc v (VCall l) -> exists i, has_info d v i /\ callable i.
Proof. intros m anc v l H. inversion H; subst. eauto. Qed.
Lemma call_fun : forall m anc v l anc' l', looks E M m anc v (VCall l) -> looks E M m anc' v (VCall l') -> l = l'.
Proof. intros m anc v l anc' l' A B. inversion A; inversion B; subst. reflexivity. Qed.
Lemma call_local : forall m anc anc' v l, looks E M m anc v (VCall l) -> looks E M m anc' v (VCall l).
Proof. intros m anc anc' v l H. inversion H; subst. eapply lk_call; try eassumption; reflexivity. Qed.
Lemma call_not_ptr : forall m anc v l t p, looks E M m anc v (VCall l) -> points d m v t p -> False.
Proof.
  intros m anc v l t p H P. destruct (call_info _ _ _ _ H) as [i [I C]]. pose proof (has_info_fun _ _ _ _ (points_info _ _ _ _ P) I) as <-. exact C.
Qed.
(** * Extents *)
Section ExtentInd.
Variable m : mem.
Variable P : list value -> value -> Z -> Prop.
Hypothesis H1 : forall anc v sz i, has_info d v i -> (match i with IBase _ _ | IEnum _ _ | IPointer _ => True | _ => False end) ->
  size_of d v sz -> P anc v sz.
Hypothesis H2 : forall anc v sz ch zs, looks E M m anc v (VNode sz ch) -> Forall2 (extent E M m (v :: anc)) ch zs -> Forall2 (P (v :: anc)) ch zs ->
  P anc v (fold_left Z.max (ends v ch zs) sz).
Hypothesis H3 : forall anc v i, has_info d v i -> callable i -> P anc v 0.
Fixpoint extent_ind2 anc v z (X : extent E M m anc v z) : P anc v z :=
  match X with
  | ex_whole _ _ _ anc v sz i A B C => H1 anc v sz i A B C
  | ex_parts _ _ _ anc v sz ch zs A B => H2 anc v sz ch zs A B
      ((fix go ch zs (B : Forall2 (extent E M m (v :: anc)) ch zs) : Forall2 (P (v :: anc)) ch zs :=
          match B with Forall2_nil _ => Forall2_nil _ | Forall2_cons a b x y => Forall2_cons a b (extent_ind2 _ _ _ x) (go _ _ y) end) ch zs B)
  | ex_call _ _ _ anc v i A B => H3 anc v i A B
  end.
End ExtentInd.
Lemma extent_fun : forall m, local E m -> forall anc v z, extent E M m anc v z -> forall anc' z', same_ctx d m anc anc' -> extent E M m anc' v z' -> z = z'.
Proof.
  intros m L. apply (extent_ind2 m (fun anc v z => forall anc' z', same_ctx d m anc anc' -> extent E M m anc' v z' -> z = z'));
    [intros anc v sz i I K S anc' z' C H'|intros anc v sz ch zs N F IH anc' z' C H'|intros anc v i I K anc' z' C H'].
  - inversion H' as [anc0 v0 sz' i' I' K' S'|anc0 v0 sz' ch' zs' N' F'|anc0 v0 i' I' K']; subst; [eapply size_of_fun; eassumption| |].
    { destruct (node_info _ _ _ _ _ N') as [i' [I' K']]. pose proof (has_info_fun _ _ _ _ I I') as <-. destruct i; contradiction. }
    pose proof (has_info_fun _ _ _ _ I I') as <-. destruct i; contradiction.
  - inversion H' as [anc0 v0 sz' i' I' K' S'|anc0 v0 sz' ch' zs' N' F'|anc0 v0 i' I' K']; subst.
    + destruct (node_info _ _ _ _ _ N) as [i [I K]]. pose proof (has_info_fun _ _ _ _ I I') as <-. destruct i; contradiction.
    + apply (node_local _ _ _ _ _ _ L C) in N. destruct (node_fun _ _ _ _ _ _ _ N N') as [<- <-]. f_equal. f_equal.
      assert (C' : same_ctx d m (v :: anc) (v :: anc')) by (apply sc_cons; exact C).
      clear N N' F H'. revert zs' F'. induction IH as [|x z0 ch zs P IH' IHf]; intros zs' F'; inversion F' as [|? z0' ? zs2 P' F2]; subst; [reflexivity|].
      f_equal; [|apply IHf; exact F2]. eapply P; eassumption.
    + exfalso. eapply node_not_call; eassumption.
  - inversion H' as [anc0 v0 sz' i' I' K' S'|anc0 v0 sz' ch' zs' N' F'|anc0 v0 i' I' K']; subst; [| |reflexivity]; exfalso.
    + pose proof (has_info_fun _ _ _ _ I I') as <-. destruct i; contradiction.
    + eapply node_not_call; eassumption.
Qed.

(** * The tree and reachability *)
Lemma built_looks : forall m anc e, built_ok E M m anc e -> exists w, look E M m anc (me_val e) = Ret w /\ looks E M m anc (me_val e) w /\
  match w with
  | VFail => False
  | VLeaf sz => me_size e = sz /\ me_loop e = 0 /\ me_ch e = []
  | VLoop sz l => me_size e = sz /\ me_loop e = l /\ me_ch e = []
  | VNode sz ch => me_loop e = 0 /\ ch = map me_val (me_ch e) /\ Forall (built_ok E M m (me_val e :: anc)) (me_ch e) /\ grow (me_val e) sz (me_ch e) = Ret (me_size e)
  | VPtr sz t => me_size e = sz /\ me_loop e = 0 /\ exists c, me_ch e = [c] /\ me_val c = t /\ built_ok E M m (me_val e :: anc) c
  | VCall l => me_size e = 0 /\ me_loop e = 0 /\ l = map me_val (me_ch e) /\ Forall (built_ok E M m (me_val e :: anc)) (me_ch e)
  end.
Proof.
  intros m anc e H. inversion H; subst; cbn [me_val me_size me_loop me_ch]; (eexists; split; [eassumption|]); (split; [eapply look_sound; [eassumption|discriminate]|]); cbn; eauto 10.
Qed.
Lemma grow_ends : forall v l sz z, grow v sz l = Ret z -> z = fold_left Z.max (ends v (map me_val l) (map me_size l)) sz.
Proof.
  intros v l. induction l as [|c l IH]; intros sz z H; cbn in H; [injection H as <-; reflexivity|]. destruct (_ <? _); [discriminate|]. apply IH in H. subst z.
  cbn [map ends combine fold_left fst snd]. f_equal. unfold uwrap. rewrite Z.add_mod_idemp_l by discriminate.
  set (q := (_ mod _)). clearbody q. destruct (sz <? q) eqn:Q; lia.
Qed.
Lemma built_extent : forall m e anc, built_ok E M m anc e -> extent E M m anc (me_val e) (me_size e).
Proof.
  intros m e. induction e as [i v s l ch F] using ment_ind2. intros anc B. destruct (built_looks _ _ _ B) as [w [_ [L X]]]. cbn [me_val me_size me_ch me_loop] in *.
  destruct w as [|sz|sz lv|sz chs|sz t|ca]; [contradiction| | | | |].
  - destruct X as [-> _]. inversion L as [sz' i' I K S|sz' t P S|sz' t p P N1 N2 O H U S| | | | | | |]; subst.
    + eapply ex_whole; [exact I| |exact S]. destruct i'; try contradiction; exact Logic.I.
    + eapply ex_whole; [apply (points_info _ _ _ _ P)|exact Logic.I|exact S].
    + eapply ex_whole; [apply (points_info _ _ _ _ P)|exact Logic.I|exact S].
  - destruct X as [-> _]. inversion L as [| | |sz' t p l' P N1 LA S| | | | | |]; subst. eapply ex_whole; [apply (points_info _ _ _ _ P)|exact Logic.I|exact S].
  - destruct X as [_ [-> [Fb G]]]. apply grow_ends in G. subst s. apply ex_parts; [exact L|].
    clear - F Fb. induction F as [|c ch P F IH]; inversion Fb as [|? ? B1 B2]; subst; cbn; constructor; auto.
  - destruct X as [-> _]. inversion L as [| | | |sz' p w T NL S| | | | |]; subst. destruct (target_points _ _ _ _ _ T) as [_ [t' P]].
    eapply ex_whole; [apply (points_info _ _ _ _ P)|exact Logic.I|exact S].
  - destruct X as [-> _]. destruct (call_info _ _ _ _ L) as [i' [I' C']]. eapply ex_call; eassumption.
Qed.
Lemma built_node : forall m anc e sz ch y, built_ok E M m anc e -> looks E M m anc (me_val e) (VNode sz ch) -> In y ch ->
  exists c, In c (me_ch e) /\ me_val c = y /\ built_ok E M m (me_val e :: anc) c.
Proof.
  intros m anc e sz ch y B L I. destruct (built_looks _ _ _ B) as [w [_ [L' X]]].
  destruct (node_info _ _ _ _ _ L) as [i [HI K]].
  assert (NI : forall i', has_info d (me_val e) i' -> match i' with IBase _ _ | IEnum _ _ | IPointer _ => True | _ => False end -> False).
  { intros i' HI' K'. pose proof (has_info_fun _ _ _ _ HI HI') as <-. destruct i; contradiction. }
  destruct w as [|sz1|sz1 lv|sz1 chs|sz1 t|ca]; [contradiction| | | | |].
  - exfalso. inversion L' as [sz' i' I' K' S|sz' t P S|sz' t p P N1 N2 O H U S| | | | | | |]; subst.
    + apply (NI _ I'). destruct i'; try contradiction; exact Logic.I.
    + apply (NI _ (points_info _ _ _ _ P) Logic.I).
    + apply (NI _ (points_info _ _ _ _ P) Logic.I).
  - exfalso. inversion L' as [| | |sz' t p l' P N1 LA S| | | | | |]; subst. apply (NI _ (points_info _ _ _ _ P) Logic.I).
  - destruct X as [_ [-> [Fb G]]]. destruct (node_fun _ _ _ _ _ _ _ L L') as [_ ->]. apply in_map_iff in I. destruct I as [c [<- C]].
    exists c. rewrite Forall_forall in Fb. auto.
  - exfalso. inversion L' as [| | | |sz' p w T NL S| | | | |]; subst. destruct (target_points _ _ _ _ _ T) as [_ [t' P]]. apply (NI _ (points_info _ _ _ _ P) Logic.I).
  - exfalso. destruct (call_info _ _ _ _ L') as [i' [I' C']]. eapply node_not_call; eassumption.
Qed.
Lemma built_call : forall m anc e l, built_ok E M m anc e -> looks E M m anc (me_val e) (VCall l) ->
  l = map me_val (me_ch e) /\ Forall (built_ok E M m (me_val e :: anc)) (me_ch e).
Proof.
  intros m anc e l B L. destruct (built_looks _ _ _ B) as [w [_ [L' X]]].
  destruct (call_info _ _ _ _ L) as [i [HI K]].
  assert (NI : forall i', has_info d (me_val e) i' -> ~ callable i' -> False).
  { intros i' HI' K'. pose proof (has_info_fun _ _ _ _ HI HI') as <-. exact (K' K). }
  destruct w as [|sz1|sz1 lv|sz1 chs|sz1 t|ca]; [contradiction| | | | |].
  - exfalso. inversion L' as [sz' i' I' K' S|sz' t P S|sz' t p P N1 N2 O H U S| | | | | | |]; subst.
    + apply (NI _ I'). destruct i'; try contradiction; intros [].
    + apply (NI _ (points_info _ _ _ _ P)); intros [].
    + apply (NI _ (points_info _ _ _ _ P)); intros [].
  - exfalso. inversion L' as [| | |sz' t p l' P N1 LA S| | | | | |]; subst. apply (NI _ (points_info _ _ _ _ P)); intros [].
  - exfalso. eapply node_not_call; eassumption.
  - exfalso. inversion L' as [| | | |sz' p w T NL S| | | | |]; subst. destruct (target_points _ _ _ _ _ T) as [_ [t' P]]. apply (NI _ (points_info _ _ _ _ P)); intros [].
  - destruct X as [_ [_ [-> F]]]. split; [eapply call_fun; eassumption|exact F].
Qed.
Lemma built_target : forall m anc e p w, built_ok E M m anc e -> target E M m anc (me_val e) p w -> no_loop d m anc p ->
  (exists sz, looks E M m anc (me_val e) (VPtr sz w)) /\ exists c, me_ch e = [c] /\ me_val c = w /\ built_ok E M m (me_val e :: anc) c.
Proof.
  intros m anc e p w B T NL. destruct (built_looks _ _ _ B) as [v [_ [L' X]]]. destruct (target_points _ _ _ _ _ T) as [NZ [t P]].
  destruct v as [|sz1|sz1 lv|sz1 chs|sz1 t1|ca]; [contradiction| | | | |].
  - exfalso. inversion L' as [sz' i' I' K' S|sz' t' P' S|sz' t' p' P' N1 N2 O H U S| | | | | | |]; subst.
    + pose proof (has_info_fun _ _ _ _ (points_info _ _ _ _ P) I') as <-. contradiction.
    + destruct (points_fun _ _ _ _ _ _ _ P P'). congruence.
    + destruct (points_fun _ _ _ _ _ _ _ P P') as [<- <-]. inversion T as [t1 w1 P1 _ H1 _|t1 P1 _ H1 O1|t1 P1 _ H1 O1 U1]; subst; try congruence;
      destruct (points_fun _ _ _ _ _ _ _ P P1) as [Q _]; subst t; [contradiction|]. destruct U; congruence.
  - exfalso. inversion L' as [| | |sz' t' p' l' P' N1 LA S| | | | | |]; subst. destruct (points_fun _ _ _ _ _ _ _ P P') as [<- <-]. eapply loop_excl; eassumption.
  - exfalso. destruct (node_info _ _ _ _ _ L') as [i [HI K]]. pose proof (has_info_fun _ _ _ _ (points_info _ _ _ _ P) HI) as <-. contradiction.
  - inversion L' as [| | | |sz' p' w' T' NL' S| | | | |]; subst. destruct (target_fun _ _ _ _ _ _ _ T T') as [<- <-]. split; [exists sz1; exact L'|apply X].
  - exfalso. eapply call_not_ptr; eassumption.
Qed.
(** what is reached is in the tree *)
Lemma reaches_tree : forall m v top, built_ok E M m [] top -> me_val top = v -> forall anc x, reaches E M m v anc x ->
  exists e, in_tree e top /\ me_val e = x /\ built_ok E M m anc e.
Proof.
  intros m v top B V anc x R. induction R as [|anc x sz ch y R IH L I|anc x sz y R IH L|anc x la y R IH L I].
  - exists top. split; [apply it_here|]. split; assumption.
  - destruct IH as [e [T [<- Be]]]. destruct (built_node _ _ _ _ _ _ Be L I) as [c [C1 [C2 C3]]]. exists c. split; [|split; assumption].
    eapply in_tree_trans; [|exact T]. apply in_tree_child. exact C1.
  - destruct IH as [e [T [<- Be]]]. inversion L as [| | | |sz' p w TG NL S| | | | |]; subst. destruct (built_target _ _ _ _ _ Be TG NL) as [_ [c [C1 [C2 C3]]]].
    exists c. split; [|split; assumption]. eapply in_tree_trans; [|exact T]. apply in_tree_child. rewrite C1. left. reflexivity.
  - destruct IH as [e [T [<- Be]]]. destruct (built_call _ _ _ _ Be L) as [-> F]. apply in_map_iff in I. destruct I as [c [C1 C2]].
    exists c. rewrite Forall_forall in F. split; [|split; [exact C1|apply F; exact C2]]. eapply in_tree_trans; [|exact T]. apply in_tree_child. exact C2.
Qed.
Lemma reaches_sees : forall m v anc x, reaches E M m v anc x -> sees E M m v anc x.
Proof.
  intros m v anc x R. induction R as [|anc x sz ch y R IH L I|anc x sz y R IH L|anc x la y R IH L I]; [apply se_here|eapply se_node; eassumption| |eapply se_call; eassumption].
  inversion L as [| | | |sz' p w TG NL S| | | | |]; subst. eapply se_ptr; eassumption.
Qed.
(** the values on the way are reached themselves, and left through a part *)
Lemma reaches_mid : forall m v anc x, reaches E M m v anc x -> forall pre a post, anc = pre ++ a :: post -> is_ptr d m a ->
  reaches E M m v post a /\ exists sz w, looks E M m post a (VPtr sz w) /\ reaches E M m v (a :: post) w.
Proof.
  intros m v anc x R. induction R as [|anc x sz ch y R IH L I|anc x sz y R IH L|anc x la y R IH L I]; intros pre a post Q P.
  - destruct pre; discriminate.
  - destruct pre as [|b pre]; injection Q as -> Q.
    + subst post. exfalso. destruct P as [t [p P]]. destruct (node_info _ _ _ _ _ L) as [i [HI K]]. pose proof (has_info_fun _ _ _ _ (points_info _ _ _ _ P) HI) as <-. contradiction.
    + apply (IH _ _ _ Q P).
  - destruct pre as [|b pre]; injection Q as -> Q.
    + subst post. split; [exact R|]. exists sz, y. split; [exact L|]. eapply re_ptr; eassumption.
    + apply (IH _ _ _ Q P).
  - destruct pre as [|b pre]; injection Q as -> Q.
    + subst post. exfalso. destruct P as [t [p P]]. eapply call_not_ptr; eassumption.
    + apply (IH _ _ _ Q P).
Qed.
Lemma same_ctx_refl : forall m l, same_ctx d m l l.
Proof. induction l; constructor; assumption. Qed.
(** cutting loops loses nothing *)
Lemma built_loop : forall m anc e p w, built_ok E M m anc e -> target E M m anc (me_val e) p w ->
  no_loop d m anc p \/ exists l, loop_at d m anc p l.
Proof.
  intros m anc e p w B T. destruct (built_looks _ _ _ B) as [v [_ [L' X]]]. destruct (target_points _ _ _ _ _ T) as [NZ [t P]].
  inversion L' as [sz' i' I' K' S|sz' t' P' S|sz' t' p' P' N1 N2 O H U S|sz' t' p' l' P' N1 LA S|sz' p' w' T' NL' S|? ? ? ? I'|? ? ? ? I'|? ? ? ? ? I'|? ? ? I'|? ? I']; subst;
    try (pose proof (has_info_fun _ _ _ _ (points_info _ _ _ _ P) I') as <-; contradiction);
    try (pose proof (has_info_fun _ _ _ _ (points_info _ _ _ _ P) I') as Q; discriminate).
  - destruct (points_fun _ _ _ _ _ _ _ P P'). congruence.
  - destruct (points_fun _ _ _ _ _ _ _ P P') as [<- <-]. left. exact N2.
  - destruct (points_fun _ _ _ _ _ _ _ P P') as [<- <-]. right. exists l'. exact LA.
  - destruct (target_fun _ _ _ _ _ _ _ T T') as [<- <-]. left. exact NL'.
Qed.
Section Cut.
Variable m : mem.
Variable v : value.
Variable top : ment.
Hypothesis B : built_ok E M m [] top.
Hypothesis V : me_val top = v.
Hypothesis L : local E m.
Hypothesis C : coherent E M m v.
Lemma target_reached : forall anc x p w, reaches E M m v anc x -> target E M m anc x p w ->
  exists anc2 x2 sz, reaches E M m v anc2 x2 /\ looks E M m anc2 x2 (VPtr sz w) /\ is_ptr d m x2.
Proof.
  intros anc x p w R T. destruct (reaches_tree _ _ _ B V _ _ R) as [e [_ [<- Be]]].
  destruct (built_loop _ _ _ _ _ Be T) as [NL|[l [pre [a [post [t [Q [_ [P _]]]]]]]]].
  - destruct (built_target _ _ _ _ _ Be T NL) as [[sz Lk] _]. exists anc, (me_val e), sz. split; [exact R|]. split; [exact Lk|]. eapply target_ptr. exact T.
  - assert (IP : is_ptr d m a) by (exists t, p; exact P). destruct (reaches_mid _ _ _ _ R _ _ _ Q IP) as [R2 [sz [w2 [Lk R3]]]].
    exists post, a, sz. split; [exact R2|]. split; [|exact IP]. inversion Lk as [| | | |sz' p' w' T' NL' S| | | | |]; subst.
    destruct (target_points _ _ _ _ _ T') as [_ [t' P']]. destruct (points_fun _ _ _ _ _ _ _ P P') as [_ <-].
    assert (w = w2) by (eapply C; [apply reaches_sees; exact R|exact T'|exact T]). subst. exact Lk.
Qed.
Lemma sees_reaches : forall anc x, sees E M m v anc x -> exists anc', reaches E M m v anc' x /\ same_ctx d m anc anc'.
Proof.
  intros anc x H. induction H as [|anc x sz ch y H IH Lk I|anc x p y H IH T|anc x la y H IH Lk I].
  - exists []. split; [apply re_here|apply sc_nil].
  - destruct IH as [anc' [R S]]. exists (x :: anc'). split; [|apply sc_cons; exact S]. eapply re_node; [exact R| |exact I].
    eapply node_local; eassumption.
  - destruct IH as [anc' [R S]]. apply (target_local _ _ _ _ _ _ L S) in T. destruct (target_reached _ _ _ _ R T) as [anc2 [x2 [sz [R2 [Lk P]]]]].
    exists (x2 :: anc2). split; [eapply re_ptr; eassumption|]. apply sc_ptr; [eapply target_ptr; exact T|exact P].
  - destruct IH as [anc' [R S]]. exists (x :: anc'). split; [|apply sc_cons; exact S]. eapply re_call; [exact R| |exact I].
    eapply call_local; exact Lk.
Qed.
(** every pointee is a child of a pointer in the tree, with its extent as size *)
Lemma in_targets : forall e c, in_tree e top -> In c (me_ch e) -> (exists t, final_info E (me_val e) = Ret (Some (IPointer t))) -> In c (targets E top).
Proof.
  intros e c T I [t F]. clear B V. revert T. generalize top as e0. intros e0 T. induction T as [|e0 c0 I0 T IH].
  - destruct e as [i ve s l ch]. cbn [targets me_val me_ch] in *. rewrite F. apply in_or_app. left. exact I.
  - destruct e0 as [i ve s l ch]. cbn [targets me_ch] in *. apply in_or_app. right. apply in_flat_map. exists c0. split; assumption.
Qed.
Lemma pointee_target : forall w z, pointee E M m v w z -> exists c, In c (targets E top) /\ me_val c = w /\ me_size c = z.
Proof.
  intros w z [anc [x [p [S [T X]]]]]. destruct (sees_reaches _ _ S) as [anc' [R SC]]. apply (target_local _ _ _ _ _ _ L SC) in T.
  destruct (target_reached _ _ _ _ R T) as [anc2 [x2 [sz [R2 [Lk P]]]]]. destruct (reaches_tree _ _ _ B V _ _ R2) as [e [Te [<- Be]]].
  inversion Lk as [| | | |sz' p' w' T' NL' S'| | | | |]; subst. destruct (built_target _ _ _ _ _ Be T' NL') as [_ [c [C1 [C2 C3]]]].
  exists c. split; [|split; [exact C2|]].
  - eapply in_targets; [exact Te|rewrite C1; left; reflexivity|]. destruct (built_info _ _ _ _ _ Be) as [i [F _]].
    destruct (target_points _ _ _ _ _ T') as [_ [t Pt]]. pose proof (has_info_fun _ _ _ _ (final_info_some _ _ _ F) (points_info _ _ _ _ Pt)) as ->. exists t. exact F.
  - apply built_extent in C3. rewrite C2 in C3. eapply (extent_fun m L); [exact C3| |exact X].
    apply sc_ptr; [exact P|]. eapply target_ptr. exact T.
Qed.
Lemma targets_in : forall e0 c, In c (targets E e0) -> exists e t, in_tree e e0 /\ In c (me_ch e) /\ final_info E (me_val e) = Ret (Some (IPointer t)).
Proof.
  clear B V C L. intro e0. induction e0 as [i ve s l ch F] using ment_ind2. intros c I. cbn [targets] in I. apply in_app_or in I. destruct I as [I|I].
  - destruct (final_info E ve) as [[[ | | |t| | | | | | | | | | ]|]| | |] eqn:Fi; try (destruct I; fail). exists (ME i ve s l ch), t. split; [apply it_here|]. split; assumption.
  - apply in_flat_map in I. destruct I as [x [X1 X2]]. rewrite Forall_forall in F. destruct (F x X1 c X2) as [e [t [A1 A2]]]. exists e, t. split; [|exact A2].
    eapply it_child; eassumption.
Qed.
Lemma target_pointee : forall c, In c (targets E top) -> pointee E M m v (me_val c) (me_size c).
Proof.
  clear C L. intros c I. destruct (targets_in _ _ I) as [e [t [T [Ic F]]]].
  destruct (tree_reaches E M m v top e T [] B) as [anc [R Be]]; [rewrite V; apply re_here|].
  destruct (built_looks _ _ _ Be) as [w [_ [Lk X]]]. apply final_info_some in F.
  destruct w as [|sz1|sz1 lv|sz1 chs|sz1 t1|ca]; [contradiction| | | | |].
  - destruct X as [_ [_ X]]. rewrite X in Ic. destruct Ic.
  - destruct X as [_ [_ X]]. rewrite X in Ic. destruct Ic.
  - exfalso. destruct (node_info _ _ _ _ _ Lk) as [i [HI K]]. pose proof (has_info_fun _ _ _ _ F HI) as <-. contradiction.
  - destruct X as [_ [_ [c' [Q [Vc Bc]]]]]. rewrite Q in Ic. destruct Ic as [<-|[]]. inversion Lk as [| | | |sz' p' w' T' NL' S'| | | | |]; subst.
    exists anc, (me_val e), p'. split; [apply reaches_sees; exact R|]. split; [exact T'|]. apply built_extent. exact Bc.
  - exfalso. destruct (call_info _ _ _ _ Lk) as [i [HI K]]. pose proof (has_info_fun _ _ _ _ F HI) as <-. exact K.
Qed.
End Cut.
End S.

(** * The sweep over blocks *)
Definition strictly (l : list hent) := StronglySorted (fun x y => h_addr x < h_addr y) l.
Lemma sorted_strict : forall l, StronglySorted le_addr l -> NoDup (map h_addr l) -> strictly l.
Proof.
  intros l H. induction H as [|x l S IH F]; intro N; [constructor|]. cbn in N. inversion N as [|? ? N1 N2]; subst. constructor; [apply IH; exact N2|].
  rewrite Forall_forall in *. intros y Y. specialize (F y Y). unfold le_addr in F. assert (h_addr x <> h_addr y); [|lia]. intro Q. apply N1. rewrite Q. apply in_map. exact Y.
Qed.
(** [bs h]: the start of the block of [h]; the entry at the start covers what is in the block *)
Section Blocks.
Variable bs : hent -> Z.
Variable all : list hent.
Hypothesis R : forall h, In h all -> 0 < h_addr h /\ 0 < h_size h /\ h_addr h + h_size h < 2 ^ 64 /\ bs h <= h_addr h.
Hypothesis O : forall h, In h all -> exists o, In o all /\ h_addr o = bs h /\ bs o = bs h /\ h_addr h + h_size h <= h_addr o + h_size o.
Hypothesis D : forall h o, In h all -> In o all -> h_addr o = bs o -> bs o < bs h -> h_addr o + h_size o <= bs h.
Hypothesis NA : NoDup (map h_addr all).
Hypothesis NI : NoDup (map h_id all).
Lemma sweep_blocks : forall l dn main msize, all = dn ++ l -> strictly all ->
  (dn = [] /\ main = 0 \/ exists o, In o dn /\ h_addr o = main /\ bs o = main /\ h_size o = msize /\ forall h, In h dn -> bs h <= bs o) ->
  forall h, In h l -> off_of (sweep l main msize) (h_id h) = h_addr h - bs h.
Proof.
  induction l as [|x l IH]; intros dn main msize Q S Inv h Ih; [destruct Ih|].
  assert (Ax : In x all) by (rewrite Q; apply in_or_app; right; left; reflexivity).
  assert (Al : forall y, In y l -> In y all) by (intros y Y; rewrite Q; apply in_or_app; right; right; exact Y).
  assert (Ad : forall y, In y dn -> In y all) by (intros y Y; rewrite Q; apply in_or_app; left; exact Y).
  destruct (R x Ax) as [X1 [X2 [X3 X4]]].
  assert (Lt : forall y, In y dn -> h_addr y < h_addr x).
  { rewrite Q in S. clear - S. induction dn as [|z dn IHd]; intros y []; cbn in S; inversion S as [|? ? S' F]; subst; rewrite Forall_forall in F.
    - apply F. apply in_or_app. right. left. reflexivity.
    - apply IHd; assumption. }
  assert (Gt : forall y, In y l -> h_addr x < h_addr y).
  { rewrite Q in S. clear - S. induction dn as [|z dn IHd]; cbn in S; inversion S as [|? ? S' F]; subst; [rewrite Forall_forall in F; exact F|apply IHd; exact S']. }
  assert (Idx : forall y, In y l -> h_id y <> h_id x).
  { intros y Y E. rewrite Q, map_app in NI. apply NoDup_remove_2 in NI. apply NI. apply in_or_app. right. rewrite <- E. apply in_map. exact Y. }
  assert (Q' : all = (dn ++ [x]) ++ l) by (rewrite <- app_assoc; exact Q).
  assert (Idn : forall a b, off_of (sweep l a b) (h_id x) = 0).
  { intros a b. apply off_none. intros z Z. apply sweep_ids in Z. destruct Z as [y [Y [E _]]]. exact (Idx y Y E). }
  cbn [sweep]. replace (h_size x <=? 0) with false by lia.
  destruct (Z.eq_dec (h_addr x) (bs x)) as [Bx|Bx].
  - (* the start of a block *)
    assert (G : off_of (sweep l (h_addr x) (h_size x)) (h_id h) = h_addr h - bs h).
    { destruct Ih as [<-|Ih].
      - rewrite Idn. lia.
      - eapply IH; [exact Q'|exact S| |exact Ih]. right. exists x. split; [apply in_or_app; right; left; reflexivity|]. split; [reflexivity|]. split; [symmetry; exact Bx|].
        split; [reflexivity|]. intros y Y. apply in_app_or in Y. destruct Y as [Y|[<-|[]]]; [|lia]. specialize (Lt y Y). destruct (R y (Ad y Y)) as [_ [_ [_ Y4]]]. lia. }
    destruct Inv as [[-> ->]|[o [O1 [O2 [O3 [O4 O5]]]]]].
    + cbn [Z.eqb]. exact G.
    + destruct (R o (Ad o O1)) as [P1 [P2 [P3 P4]]]. replace (main =? 0) with false by lia.
      assert (E : h_addr o + h_size o <= bs x). { apply D; [exact Ax|apply Ad; exact O1|lia|]. specialize (Lt o O1). lia. }
      rewrite uwrap_small by lia. replace (main + msize <=? h_addr x) with true by lia. exact G.
  - (* inside of a block *)
    destruct (O x Ax) as [o' [P1 [P2 [P3 P4]]]].
    assert (Io : In o' dn).
    { rewrite Q in P1. apply in_app_or in P1. destruct P1 as [P1|[<-|P1]]; [exact P1|lia|]. specialize (Gt o' P1). lia. }
    destruct Inv as [[-> ->]|[o [O1 [O2 [O3 [O4 O5]]]]]]; [destruct Io|].
    destruct (R o (Ad o O1)) as [U1 [U2 [U3 U4]]]. replace (main =? 0) with false by lia.
    assert (E : bs x = bs o).
    { specialize (O5 o' Io). destruct (Z.eq_dec (bs x) (bs o)) as [E|E]; [exact E|]. exfalso.
      assert (h_addr o' + h_size o' <= bs o). { apply D; [apply Ad; exact O1|apply Ad; exact Io|lia|lia]. }
      specialize (Lt o O1). lia. }
    assert (o' = o). { eapply nodup_addr_eq; [exact NA|apply Ad; exact Io|apply Ad; exact O1|lia]. } subst o'.
    specialize (Lt o O1). rewrite uwrap_small by lia. replace (main + msize <=? h_addr x) with false by lia. rewrite uwrap_small by lia. rewrite off_cons.
    destruct Ih as [<-|Ih].
    + rewrite Nat.eqb_refl. lia.
    + replace (Nat.eqb (h_id x) (h_id h)) with false by (symmetry; apply Nat.eqb_neq; intro Z; apply (Idx h Ih); congruence).
      eapply IH; [exact Q'|exact S| |exact Ih]. right. exists o. split; [apply in_or_app; left; exact O1|]. repeat (split; [assumption|]).
      intros y Y. apply in_app_or in Y. destruct Y as [Y|[<-|[]]]; [apply O5; exact Y|lia].
Qed.
End Blocks.
Lemma identify_offsets : forall bs l,
  (forall h, In h l -> 0 < h_addr h /\ 0 < h_size h /\ h_addr h + h_size h < 2 ^ 64 /\ bs h <= h_addr h) ->
  (forall h, In h l -> exists o, In o l /\ h_addr o = bs h /\ bs o = bs h /\ h_addr h + h_size h <= h_addr o + h_size o) ->
  (forall h o, In h l -> In o l -> h_addr o = bs o -> bs o < bs h -> h_addr o + h_size o <= bs h) ->
  NoDup (map h_addr l) -> NoDup (map h_id l) -> forall h, In h l -> off_of (identify l) (h_id h) = h_addr h - bs h.
Proof.
  intros bs l R O D NA NI h Ih. pose proof (sort_perm l) as P. unfold identify.
  assert (I1 : forall x, In x (sort l) -> In x l) by (intros x X; eapply Permutation_in; [apply Permutation_sym; exact P|exact X]).
  assert (I2 : forall x, In x l -> In x (sort l)) by (intros x X; eapply Permutation_in; [exact P|exact X]).
  assert (NA' : NoDup (map h_addr (sort l))) by (eapply Permutation_NoDup; [apply Permutation_map; exact P|exact NA]).
  eapply (sweep_blocks bs (sort l)) with (dn := []); auto.
  - intros x X. destruct (O x (I1 x X)) as [o [O1 O2]]. exists o. split; [apply I2; exact O1|exact O2].
  - eapply Permutation_NoDup; [apply Permutation_map; exact P|exact NI].
  - apply sorted_strict; [apply sort_sorted|exact NA'].
Qed.
Lemma identify_blocks : forall bs l,
  (forall h, In h l -> 0 < h_addr h /\ 0 < h_size h /\ h_addr h + h_size h < 2 ^ 64 /\ bs h <= h_addr h) ->
  (forall h, In h l -> exists o, In o l /\ h_addr o = bs h /\ bs o = bs h /\ h_addr h + h_size h <= h_addr o + h_size o) ->
  (forall h o, In h l -> In o l -> h_addr o = bs o -> bs o < bs h -> h_addr o + h_size o <= bs h) ->
  NoDup (map h_addr l) -> NoDup (map h_id l) -> forall h, In h l -> (off_of (identify l) (h_id h) = 0 <-> h_addr h = bs h).
Proof. intros bs l R O D NA NI h Ih. rewrite (identify_offsets bs l R O D NA NI h Ih). lia. Qed.

(** * Deep free *)
Definition start (B : list block) (a : Z) : Z :=
  match find (fun b : block => (fst b <=? a) && (a <? fst b + snd b)) B with Some b => fst b | None => a end.
Lemma start_block : forall B b s a, blocks_ok B -> In (b, s) B -> b <= a < b + s -> start B a = b.
Proof.
  intros B b s a [_ D] I R. unfold start. destruct (find _ B) as [[b' s']|] eqn:F.
  - apply find_some in F. cbn in F. destruct F as [F1 F2]. cbn. destruct (D _ _ _ _ I F1) as [Q|[Q|Q]]; [congruence|lia|lia].
  - eapply find_none in F; [|exact I]. cbn in F. lia.
Qed.
Lemma free_exact : forall E M ord k m v l B, (forall x, Permutation (ord x) x) -> free_ex E M ord k m v = Ret (1, l) ->
  local E m -> coherent E (dag M) m v -> blocks_ok B -> held E (dag M) m v B ->
  NoDup l /\ forall a, In a l <-> exists s w z, In (a, s) B /\ pointee E (dag M) m v w z /\ within w z (a, s).
Proof.
  intros E M ord k m v l B PO H L C OK Hd. unfold free_ex in H. apply bind_ret in H. destruct H as [[mm|] [N H]]; [|discriminate].
  injection H as <-. apply map_built in N. destruct N as [Bu V Ni NA NI From All Off]. specialize (All eq_refl). cbn [dag mo_tree] in Off.
  pose proof (pointee_target _ _ _ _ _ Bu V L C) as PT. pose proof (target_pointee _ _ _ _ _ Bu V) as TP.
  assert (HP : forall h, In h (hash_of mm) -> exists w, v_addr w = h_addr h /\ pointee E (dag M) m v w (h_size h)).
  { intros h I. destruct (From h I) as [c [T ->]]. exists (me_val c). split; [reflexivity|]. apply TP. exact T. }
  assert (PH : forall w z, pointee E (dag M) m v w z -> exists h, In h (hash_of mm) /\ h_addr h = v_addr w /\ z <= h_size h).
  { intros w z P. destruct (PT w z P) as [c [T [<- <-]]]. apply All. exact T. }
  assert (BL : forall h, In h (hash_of mm) -> exists b s, In (b, s) B /\ start B (h_addr h) = b /\ 0 < h_size h /\ b <= h_addr h /\ h_addr h + h_size h <= b + s).
  { intros h I. destruct (HP h I) as [w [W P]]. destruct (Hd w _ P) as [Z [[b s] [Ib [[W1 W2] _]]]]. cbn in W1, W2. exists b, s. split; [exact Ib|].
    split; [|split; [exact Z|lia]]. eapply start_block; [exact OK|exact Ib|]. lia. }
  assert (ST : forall h, In h (hash_of mm) -> (strong mm h = true <-> h_addr h = start B (h_addr h))).
  { intros h I. unfold strong. rewrite Off. rewrite Z.eqb_eq. apply (identify_blocks (fun h => start B (h_addr h))); try assumption.
    - intros x X. destruct (BL x X) as [b [s [Ib [S [Z [L1 L2]]]]]]. destruct OK as [OK _]. specialize (OK _ _ Ib). lia.
    - intros x X. destruct (HP x X) as [w [W P]]. destruct (Hd w _ P) as [Z [[b s] [Ib [[W1 W2] [w' [z' [P' [A' [[A1 A2] A3]]]]]]]]]. cbn in *.
      destruct (PH _ _ P') as [o [O1 [O2 O3]]]. exists o.
      assert (Sx : start B (h_addr x) = b) by (eapply start_block; [exact OK|exact Ib|lia]).
      destruct (Hd w' _ P') as [Z' _].
      assert (So : start B (h_addr o) = b) by (eapply start_block; [exact OK|exact Ib|lia]).
      split; [exact O1|]. split; [congruence|]. split; [congruence|]. lia.
    - intros x o X Xo Q Lt. destruct (BL x X) as [b [s [Ib [S [Z [L1 L2]]]]]]. destruct (BL o Xo) as [b' [s' [Ib' [S' [Z' [L1' L2']]]]]].
      rewrite S, S' in *. destruct OK as [_ OK]. destruct (OK _ _ _ _ Ib Ib') as [K|[K|K]]; [injection K as -> ->; lia|lia|lia]. }
  split.
  - unfold freed. eapply Permutation_NoDup with (l := map h_addr (filter (strong mm) (hash_of mm))).
    + apply Permutation_map. clear - PO. specialize (PO (hash_of mm)). generalize dependent (ord (hash_of mm)). intros l P. apply Permutation_sym in P.
      induction P; cbn; try (constructor; fail).
      * destruct (strong mm x); [apply perm_skip|]; assumption.
      * destruct (strong mm x), (strong mm y); try apply Permutation_refl. apply perm_swap.
      * eapply Permutation_trans; eassumption.
    + apply nodup_map_filter. exact NA.
  - intro a. unfold freed. rewrite in_map_iff. split.
    + intros [h [<- I]]. apply filter_In in I. destruct I as [I S]. apply (Permutation_in _ (PO _)) in I. apply ST in S; [|exact I].
      destruct (BL h I) as [b [s [Ib [Sb [Z [L1 L2]]]]]]. destruct (HP h I) as [w [W P]]. exists s, w, (h_size h). split; [rewrite S, Sb; exact Ib|]. split; [exact P|].
      unfold within. cbn. lia.
    + intros [s [w [z [Ib [P [W1 W2]]]]]]. cbn in W1, W2. destruct (Hd w z P) as [Z [[b' s'] [Ib' [[X1 X2] [w' [z' [P' [A' [[A1 A2] A3]]]]]]]]]. cbn in *.
      assert (b' = a). { transitivity (start B (v_addr w)); [symmetry|]; (eapply start_block; [exact OK|eassumption|lia]). } subst b'.
      destruct (PH _ _ P') as [o [O1 [O2 O3]]]. destruct (Hd w' _ P') as [Z' _]. exists o. split; [lia|]. apply filter_In. split.
      * eapply Permutation_in; [apply Permutation_sym, PO|exact O1].
      * apply ST; [exact O1|]. symmetry. assert (h_addr o = a) as -> by lia. eapply start_block; [exact OK|exact Ib|lia].
Qed.
(** whatever the layout *)
Lemma free_once : forall E M ord k m v r l, (forall x, Permutation (ord x) x) -> free_ex E M ord k m v = Ret (r, l) ->
  NoDup l /\ (r = 0 /\ l = [] \/ r = 1 /\ forall a, In a l -> exists w z, pointee E (dag M) m v w z /\ v_addr w = a).
Proof.
  intros E M ord k m v r l PO H. unfold free_ex in H. apply bind_ret in H. destruct H as [[mm|] [N H]]; injection H as <- <-.
  2:{ split; [constructor|left; split; reflexivity]. }
  apply map_built in N. destruct N as [Bu V Ni NA NI From All Off]. split.
  - unfold freed. eapply Permutation_NoDup with (l := map h_addr (filter (strong mm) (hash_of mm))).
    + apply Permutation_map. clear - PO. specialize (PO (hash_of mm)). generalize dependent (ord (hash_of mm)). intros l P. apply Permutation_sym in P.
      induction P; cbn; try (constructor; fail).
      * destruct (strong mm x); [apply perm_skip|]; assumption.
      * destruct (strong mm x), (strong mm y); try apply Permutation_refl. apply perm_swap.
      * eapply Permutation_trans; eassumption.
    + apply nodup_map_filter. exact NA.
  - right. split; [reflexivity|]. intros a I. unfold freed in I. apply in_map_iff in I. destruct I as [h [<- I]]. apply filter_In in I. destruct I as [I _].
    apply (Permutation_in _ (PO _)) in I. destruct (From h I) as [c [T ->]]. exists (me_val c), (me_size c). split; [|reflexivity].
    eapply target_pointee; eassumption.
Qed.

(** * Without handlers: what can be seen is found by looking at values one by one *)
Section Plain.
Variable E : env.
Variable M : mode.
Hypothesis NH : en_handler E = no_handler.
Notation d := (en_db E).
Lemma plain_local : forall m, local E m.
Proof. intros m ev v anc anc' _. rewrite NH. reflexivity. Qed.
Lemma plain_node : forall m anc anc' v sz ch, looks E M m anc v (VNode sz ch) -> looks E M m anc' v (VNode sz ch).
Proof.
  intros m anc anc' v sz ch H.
  inversion H; subst; [eapply lk_struct|eapply lk_union|eapply lk_array|eapply lk_flex_other]; try eassumption; rewrite NH in *; assumption.
Qed.
Lemma plain_target : forall m anc anc' v p w, target E M m anc v p w -> target E M m anc' v p w.
Proof.
  intros m anc anc' v p w H. inversion H; subst; [eapply tg_handled|eapply tg_typed|eapply tg_byte]; try eassumption; rewrite NH in *; assumption.
Qed.
Definition view_parts (w : view) : list value := match w with VNode _ ch => ch | VPtr _ t => [t] | VCall l => l | _ => [] end.
Lemma view_node : forall m v w sz ch, look E M m [] v = Ret w -> w <> VFail -> looks E M m [] v (VNode sz ch) -> ch = view_parts w.
Proof.
  intros m v w sz ch H N L. apply look_sound in H; [|exact N]. destruct (node_info _ _ _ _ _ _ _ L) as [i [HI K]].
  assert (NI : forall i', has_info d v i' -> match i' with IBase _ _ | IEnum _ _ | IPointer _ => True | _ => False end -> False).
  { intros i' HI' K'. pose proof (has_info_fun _ _ _ _ HI HI') as <-. destruct i; contradiction. }
  destruct w as [|sz1|sz1 lv|sz1 chs|sz1 t|ca]; [congruence| | | | |]; cbn.
  - exfalso. inversion H as [sz' i' I' K' S|sz' t P S|sz' t p P N1 N2 O HH U S| | | | | | |]; subst.
    + apply (NI _ I'). destruct i'; try contradiction; exact Logic.I.
    + apply (NI _ (points_info _ _ _ _ _ P) Logic.I).
    + apply (NI _ (points_info _ _ _ _ _ P) Logic.I).
  - exfalso. inversion H as [| | |sz' t p l' P N1 LA S| | | | | |]; subst. apply (NI _ (points_info _ _ _ _ _ P) Logic.I).
  - eapply node_fun; eassumption.
  - exfalso. inversion H as [| | | |sz' p w T NL S| | | | |]; subst. destruct (target_points _ _ _ _ _ _ _ T) as [_ [t' P]]. apply (NI _ (points_info _ _ _ _ _ P) Logic.I).
  - exfalso. destruct (call_info _ _ _ _ _ _ H) as [i' [I' C']]. eapply node_not_call; eassumption.
Qed.
Lemma view_call : forall m v w l, look E M m [] v = Ret w -> w <> VFail -> looks E M m [] v (VCall l) -> l = view_parts w.
Proof.
  intros m v w l H N L. apply look_sound in H; [|exact N]. destruct (call_info _ _ _ _ _ _ L) as [i [HI K]].
  assert (NI : forall i', has_info d v i' -> ~ callable i' -> False).
  { intros i' HI' K'. pose proof (has_info_fun _ _ _ _ HI HI') as <-. exact (K' K). }
  destruct w as [|sz1|sz1 lv|sz1 chs|sz1 t|ca]; [congruence| | | | |]; cbn.
  - exfalso. inversion H as [sz' i' I' K' S|sz' t P S|sz' t p P N1 N2 O HH U S| | | | | | |]; subst.
    + apply (NI _ I'). destruct i'; try contradiction; intros [].
    + apply (NI _ (points_info _ _ _ _ _ P)); intros [].
    + apply (NI _ (points_info _ _ _ _ _ P)); intros [].
  - exfalso. inversion H as [| | |sz' t p l' P N1 LA S| | | | | |]; subst. apply (NI _ (points_info _ _ _ _ _ P)); intros [].
  - exfalso. eapply node_not_call; eassumption.
  - exfalso. inversion H as [| | | |sz' p w T NL S| | | | |]; subst. destruct (target_points _ _ _ _ _ _ _ T) as [_ [t' P]]. apply (NI _ (points_info _ _ _ _ _ P)); intros [].
  - eapply call_fun; eassumption.
Qed.
Lemma view_target : forall m v w p t, look E M m [] v = Ret w -> w <> VFail -> target E M m [] v p t -> (exists sz, w = VPtr sz t) /\ p = number_at m (v_addr v) 8.
Proof.
  intros m v w p t H N T. apply look_sound in H; [|exact N]. destruct (target_points _ _ _ _ _ _ _ T) as [NZ [tt P]]. split; [|apply P].
  destruct w as [|sz1|sz1 lv|sz1 chs|sz1 t1|ca]; [congruence| | | | |]; cbn.
  - exfalso. inversion H as [sz' i' I' K' S|sz' t' P' S|sz' t' p' P' N1 N2 O HH U S| | | | | | |]; subst.
    + pose proof (has_info_fun _ _ _ _ (points_info _ _ _ _ _ P) I') as <-. contradiction.
    + destruct (points_fun _ _ _ _ _ _ _ P P'). congruence.
    + destruct (points_fun _ _ _ _ _ _ _ P P') as [<- <-]. inversion T as [t1 w1 P1 _ H1 _|t1 P1 _ H1 O1|t1 P1 _ H1 O1 U1]; subst; try congruence;
      destruct (points_fun _ _ _ _ _ _ _ P P1) as [Q _]; subst tt; [contradiction|]. destruct U; congruence.
  - exfalso. inversion H as [| | |sz' t' p' l' P' N1 LA S| | | | | |]; subst. destruct LA as [pre [a [post [tx [Q _]]]]]. destruct pre; discriminate.
  - exfalso. destruct (node_info _ _ _ _ _ _ _ H) as [i [HI K]]. pose proof (has_info_fun _ _ _ _ (points_info _ _ _ _ _ P) HI) as <-. contradiction.
  - inversion H as [| | | |sz' p' w' T' NL' S| | | | |]; subst. destruct (target_fun _ _ _ _ _ _ _ _ _ T T') as [_ <-]. exists sz1. reflexivity.
  - exfalso. eapply call_not_ptr; eassumption.
Qed.
Definition closed (m : mem) (l : list value) : Prop :=
  Forall (fun x => exists w, look E M m [] x = Ret w /\ w <> VFail /\ incl (view_parts w) l) l.
Lemma closed_sees : forall m v l, closed m l -> In v l -> forall anc x, sees E M m v anc x -> In x l /\ incl anc l.
Proof.
  intros m v l C V anc x H. unfold closed in C. rewrite Forall_forall in C. induction H as [|anc x sz ch y H [IH1 IH2] L I|anc x p y H [IH1 IH2] T|anc x la y H [IH1 IH2] L I].
  - split; [exact V|]. intros a [].
  - split; [|intros a [<-|A]; [exact IH1|apply IH2; exact A]]. destruct (C x IH1) as [w [K [NF S]]]. apply S.
    rewrite <- (view_node m x w sz ch K NF); [exact I|]. eapply plain_node. exact L.
  - split; [|intros a [<-|A]; [exact IH1|apply IH2; exact A]]. destruct (C x IH1) as [w [K [NF S]]]. apply S.
    destruct (view_target m x w p y K NF) as [[sz Q] _]; [eapply plain_target; exact T|]. rewrite Q. left. reflexivity.
  - split; [|intros a [<-|A]; [exact IH1|apply IH2; exact A]]. destruct (C x IH1) as [w [K [NF S]]]. apply S.
    rewrite <- (view_call m x w la K NF); [exact I|]. eapply call_local. exact L.
Qed.
(** pointees as a list of candidates *)
Lemma closed_pointee : forall m v l w z, closed m l -> In v l -> pointee E M m v w z ->
  exists x sz, In x l /\ look E M m [] x = Ret (VPtr sz w) /\ exists anc, extent E M m anc w z.
Proof.
  intros m v l w z C V [anc [x [p [S [T X]]]]]. destruct (closed_sees m v l C V _ _ S) as [I _]. unfold closed in C. rewrite Forall_forall in C.
  destruct (C x I) as [w0 [K [NF _]]]. pose proof (plain_target _ _ [] _ _ _ T) as T'. destruct (view_target m x w0 p w K NF T') as [[sz ->] _].
  exists x, sz. split; [exact I|]. split; [exact K|]. exists (x :: anc). exact X.
Qed.
Lemma plain_extent_fun : forall m anc v z, extent E M m anc v z -> forall anc' z', extent E M m anc' v z' -> z = z'.
Proof.
  intros m. apply (extent_ind2 E M m (fun anc v z => forall anc' z', extent E M m anc' v z' -> z = z'));
    [intros anc v sz i I K S anc' z' H'|intros anc v sz ch zs N F IH anc' z' H'|intros anc v i I K anc' z' H'].
  - inversion H' as [anc0 v0 sz' i' I' K' S'|anc0 v0 sz' ch' zs' N' F'|anc0 v0 i' I' K']; subst; [eapply size_of_fun; eassumption| |].
    { destruct (node_info _ _ _ _ _ _ _ N') as [i' [I' K']]. pose proof (has_info_fun _ _ _ _ I I') as <-. destruct i; contradiction. }
    pose proof (has_info_fun _ _ _ _ I I') as <-. destruct i; contradiction.
  - inversion H' as [anc0 v0 sz' i' I' K' S'|anc0 v0 sz' ch' zs' N' F'|anc0 v0 i' I' K']; subst.
    + destruct (node_info _ _ _ _ _ _ _ N) as [i [I K]]. pose proof (has_info_fun _ _ _ _ I I') as <-. destruct i; contradiction.
    + apply (plain_node _ _ anc') in N. destruct (node_fun _ _ _ _ _ _ _ _ _ N N') as [<- <-]. f_equal. f_equal.
      clear N N' F H'. revert zs' F'. induction IH as [|x z0 ch zs P IH' IHf]; intros zs' F'; inversion F' as [|? z0' ? zs2 P' F2]; subst; [reflexivity|].
      f_equal; [|apply IHf; exact F2]. eapply P; eassumption.
    + exfalso. eapply node_not_call; eassumption.
  - inversion H' as [anc0 v0 sz' i' I' K' S'|anc0 v0 sz' ch' zs' N' F'|anc0 v0 i' I' K']; subst; [| |reflexivity]; exfalso.
    + pose proof (has_info_fun _ _ _ _ I I') as <-. destruct i; contradiction.
    + eapply node_not_call; eassumption.
Qed.
Lemma plain_extent_map : forall k m anc w z mm, extent E M m anc w z -> new_memory_map E M k m w = Ret (Some mm) -> z = me_size (mm_top mm).
Proof.
  intros k m anc w z mm X H. apply map_built in H. destruct H as [B V _ _ _ _ _ _]. apply built_extent in B. rewrite V in B. eapply plain_extent_fun; eassumption.
Qed.
Lemma map_pointee : forall k m v mm c, new_memory_map E M k m v = Ret (Some mm) -> In c (targets E (mm_top mm)) -> pointee E M m v (me_val c) (me_size c).
Proof. intros k m v mm c H I. apply map_built in H. destruct H as [B V _ _ _ _ _ _]. eapply target_pointee; eassumption. Qed.
Lemma plain_extent : forall m anc v z, extent E M m anc v z -> forall anc', extent E M m anc' v z.
Proof.
  intros m. apply (extent_ind2 E M m (fun anc v z => forall anc', extent E M m anc' v z)).
  - intros anc v sz i I K S anc'. eapply ex_whole; eassumption.
  - intros anc v sz ch zs N F IH anc'. apply ex_parts; [eapply plain_node; exact N|]. clear N F. induction IH; constructor; auto.
  - intros anc v i I K anc'. eapply ex_call; eassumption.
Qed.
Lemma plain_step : forall m v anc x w y, sees E M m v anc x -> look E M m [] x = Ret w -> In y (view_parts w) -> sees E M m v (x :: anc) y.
Proof.
  intros m v anc x w y S K I. destruct w as [|sz|sz lv|sz ch|sz t|ca]; try (destruct I; fail); (apply look_sound in K; [|discriminate]); cbn in I.
  - eapply se_node; [exact S|eapply plain_node; exact K|exact I].
  - destruct I as [<-|[]]. inversion K as [| | | |sz' p' w' T' NL' S'| | | | |]; subst. eapply se_ptr; [exact S|eapply plain_target; exact T'].
  - eapply se_call; [exact S|eapply call_local; exact K|exact I].
Qed.
Lemma plain_pointee : forall k m v anc x sz w mm, sees E M m v anc x -> look E M m [] x = Ret (VPtr sz w) -> new_memory_map E M k m w = Ret (Some mm) ->
  pointee E M m v w (me_size (mm_top mm)).
Proof.
  intros k m v anc x sz w mm S K H. apply look_sound in K; [|discriminate]. inversion K as [| | | |sz' p' w' T' NL' S'| | | | |]; subst.
  exists anc, x, p'. split; [exact S|]. split; [eapply plain_target; exact T'|]. apply map_built in H. destruct H as [B V _ _ _ _ _ _]. apply built_extent in B. rewrite V in B.
  eapply plain_extent. exact B.
Qed.
End Plain.
