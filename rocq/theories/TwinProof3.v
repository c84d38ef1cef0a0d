(** A copy as a tree is like its source. *)
From Coq Require Import ZArith String List Bool Lia ZifyBool.
From Verif Require Import Base BaseProof EntryModel EntrySpec EntryProof ValueModel ValueSpec ValueProof ValueProof2 DeepModel DeepSpec DeepProof DeepProof2 DeepProof3 DeepProof4 DeepProof5 DeepProof8 CopySpec CopyProof MoveSpec MoveProof MoveProof2 MoveProof3 MoveProof4
  CopyTreeSpec CopyTreeProof CopyTreeProof2 TwinSpec TwinProof TwinProof2.
Import ListNotations.
Open Scope Z_scope.

Lemma target_info : forall E M m anc x sz w, looks E M m anc x (VPtr sz w) -> exists t, has_info (en_db E) x (IPointer t).
Proof.
  intros E M m anc x sz w L. inversion L as [| | | |sz' p' w' T' NL' S'| | | | |]; subst. destruct (target_points _ _ _ _ _ _ _ T') as [_ [t' P']]. exists t'. eapply points_info; exact P'.
Qed.
Lemma leaf_free : forall E M m anc x sz t p, looks E M m anc x (VLeaf sz) -> points (en_db E) m x t p -> p <> 0 -> no_loop (en_db E) m anc p.
Proof.
  intros E M m anc x sz t p L P NZ. inversion L as [sz' i I K S|sz' t' P' S|sz' t' p' P' NZ' NL O HD U S| | | | | | | ]; subst.
  - pose proof (has_info_fun _ _ _ _ I (points_info _ _ _ _ _ P)) as ->. contradiction.
  - destruct (points_fun _ _ _ _ _ _ _ P P') as [_ Q']. contradiction.
  - destruct (points_fun _ _ _ _ _ _ _ P P') as [_ Q']. rewrite <- Q' in NL. exact NL.
Qed.
Lemma loop_back : forall E M m anc x sz l, looks E M m anc x (VLoop sz l) -> exists t p, points (en_db E) m x t p /\ loop_at (en_db E) m anc p l.
Proof. intros E M m anc x sz l L. inversion L; subst. eauto. Qed.
Lemma ptr_free : forall E M m anc x sz w, looks E M m anc x (VPtr sz w) -> exists t p, points (en_db E) m x t p /\ p <> 0 /\ no_loop (en_db E) m anc p.
Proof. intros E M m anc x sz w L. inversion L as [| | | |sz' p w' T NL S| | | | | ]; subst. destruct (target_points _ _ _ _ _ _ _ T) as [NZ [t P]]. eauto. Qed.

Section Copy.
Variable E : env.
Variable M : mode.
Notation d := (en_db E).
Notation addr e := (v_addr (me_val e)).
Variable m : mem.
Variable src : value.
Variable m' : mem.
Variable dst : value.
Variable z : Z.
Variable new B : list block.
Hypothesis Tree : mo_tree M = true.
Hypothesis OP : mo_uptr M = UPTR_as_values -> forall anc x t p sz, reaches E M m src anc x -> points d m x t p -> p <> 0 -> looks E M m anc x (VLeaf sz) ->
  forall b w, In (b, w) new -> ~ (b <= p < b + w).
Hypothesis UF : unfoldable E M m src.
Hypothesis Ext : extent E M m [] src z.
Hypothesis ST : same_type d src dst.
Hypothesis Cov : covered E M m src B.
Hypothesis D1 : 0 < v_addr dst.
Hypothesis D2 : v_addr dst + z < 2 ^ 64.
Hypothesis Ad : forall b w, In (b, w) ((v_addr src, z) :: B) -> apart (v_addr dst) z b w.
Hypothesis Fr : fresh_blocks new ((v_addr src, z) :: (v_addr dst, z) :: B).
Hypothesis UN : unfolded E M m m' src z (v_addr dst) new.
Variable top : ment.
Hypothesis Bu : built_ok E M m [] top.
Hypothesis V : me_val top = src.

Lemma top_size : me_size top = z.
Proof. eapply same_extent; [exact UF| |exact Ext]. rewrite <- V. apply built_extent. exact Bu. Qed.
Lemma uf_traversable : traversable E M m src.
Proof.
  constructor.
  - exact (uf_data _ _ _ _ UF).
  - intros anc x z0 c S I. destruct (uf_base _ _ _ _ UF _ _ _ _ S I) as [k [nm [en [sg [K1 [_ K2]]]]]]. exists k, nm, en, sg. auto.
  - exact (uf_fits _ _ _ _ UF).
  - exact (uf_parts _ _ _ _ UF).
Qed.

(** ** The source *)
Lemma reached : forall anc x, reaches E M m src anc x -> exists e, built_ok E M m anc e /\ me_val e = x /\
  exists b w, In (b, w) ((v_addr src, z) :: B) /\ b <= v_addr x /\ v_addr x + me_size e <= b + w.
Proof.
  intros anc x R. induction R as [|anc x sz ch y R [e [Be [Qe [b [w [Ib [I1 I2]]]]]]] L I|anc x sz y R [e [Be [Qe _]]] L|anc x la y R _ L I].
  - exists top. split; [exact Bu|]. split; [exact V|]. exists (v_addr src), z. split; [left; reflexivity|]. rewrite top_size. lia.
  - subst x. destruct (built_node E M m _ _ _ _ Be L) as [-> [Fb _]]. apply in_map_iff in I. destruct I as [c [<- Ic]]. destruct (part_in E M m src UF Tree _ _ _ _ _ R Be L Ic) as [P1 [P2 [P3 P4]]].
    exists c. split; [exact P4|]. split; [reflexivity|]. exists b, w. split; [exact Ib|]. lia.
  - subst x. destruct (built_ptr E M m _ _ _ _ Be L) as [c [Ch [<- Bc]]]. exists c. split; [exact Bc|]. split; [reflexivity|].
    destruct (Cov _ _ _ _ _ R L (built_extent _ _ _ _ _ Bc)) as [[b w] [Ib [W1 W2]]]. exists b, w. split; [right; exact Ib|]. cbn in W1, W2. lia.
  - destruct (call_info _ _ _ _ _ _ L) as [ic [Hc Kc]]. destruct (uf_data _ _ _ _ UF _ _ _ R Hc Kc).
Qed.
Lemma kept : forall anc x s, reaches E M m src anc x -> extent E M m anc x s -> forall i, 0 <= i < s -> m' (v_addr x + i) = m (v_addr x + i).
Proof.
  intros anc x s R X i Hi. destruct (reached _ _ R) as [e [Be [<- [b [w [Ib [I1 I2]]]]]]].
  assert (Q : s = me_size e) by (eapply same_extent; [exact UF|exact X|apply built_extent; exact Be]). subst s.
  apply (un_frame _ _ _ _ _ _ _ _ UN).
  - intros H. specialize (Ad _ _ Ib). unfold apart in Ad. lia.
  - intros n0 s In0 H. destruct Fr as [_ [_ F]]. destruct Ib as [Q|Ib].
    + injection Q as <- <-. destruct (F _ _ _ _ In0 (or_introl eq_refl)); lia.
    + destruct (F _ _ _ _ In0 (or_intror (or_intror Ib))); lia.
Qed.
Lemma number_same : forall k a b, (forall i, 0 <= i < Z.of_nat k -> m' (a + i) = m (b + i)) -> number_at m' a k = number_at m b k.
Proof.
  intros k a b H. rewrite <- (load_number k m' a), <- (load_number k m b). revert a b H. induction k as [|k IH]; intros a b H; [reflexivity|]. cbn [load]. f_equal.
  - specialize (H 0). rewrite !Z.add_0_r in H. apply H. lia.
  - f_equal. apply IH. intros i J. specialize (H (1 + i)). rewrite !Z.add_assoc in H. apply H. lia.
Qed.
Lemma pointer_kept : forall anc x t, reaches E M m src anc x -> has_info d x (IPointer t) -> number_at m' (v_addr x) 8 = number_at m (v_addr x) 8.
Proof.
  intros anc x t R H. destruct (reached _ _ R) as [e [Be [Q _]]]. subst x.
  assert (S8 : me_size e = 8) by (eapply (ptr_size E M m anc e t); [exact Be|split; [exact H|reflexivity]]).
  apply number_same. intros i Hi. eapply kept; [exact R|apply built_extent; exact Be|lia].
Qed.
Lemma points_kept : forall anc x t p, reaches E M m src anc x -> points d m' x t p -> points d m x t p.
Proof. intros anc x t p R [H Q]. split; [exact H|]. rewrite Q. eapply pointer_kept; eassumption. Qed.
Lemma up_reaches : forall anc x, reaches E M m src anc x -> forall a, In a anc -> exists up, reaches E M m src up a.
Proof. intros anc x R. induction R; intros a0 I0; [destruct I0| | |]; (destruct I0 as [<-|I0]; [eauto|eapply IHR; exact I0]). Qed.
Lemma no_loop_kept : forall anc x p, reaches E M m src anc x -> no_loop d m anc p -> no_loop d m' anc p.
Proof. intros anc x p R NL a t I P. destruct (up_reaches _ _ R _ I) as [up U]. apply (NL a t I). eapply points_kept; eassumption. Qed.
Lemma same_type_refl : forall x, same_type d x x.
Proof. intro x. split; [intro; reflexivity|auto]. Qed.
Lemma rebase_same : forall w a, rebase w a a = w.
Proof. intros [e a0] a. unfold rebase. cbn. f_equal. lia. Qed.
Lemma beside_self : forall anc x anc' x', beside E M m src m' src anc x anc' x' -> anc' = anc /\ x' = x.
Proof.
  intros anc x anc' x' H. induction H as [|anc x anc' x' sz ch c H [-> ->] L I|anc x anc' x' sz w H [-> ->] L]; [auto| |].
  - rewrite rebase_same. auto.
  - split; [reflexivity|]. destruct (target_info E M m anc x sz w L) as [t T]. rewrite (pointer_kept anc x t); [apply rebase_same| |exact T].
    eapply beside_reaches. exact H.
Qed.
Lemma source_mirrored : answers_beside E M m src m' src -> mirrored E M m src m' src.
Proof.
  intro An. constructor.
  - apply same_type_refl.
  - rewrite <- V. exact (built_noload _ _ _ _ _ Bu).
  - intros anc x anc' x' s H X. pose proof (beside_reaches _ _ _ _ _ _ _ _ _ _ H) as R. apply beside_self in H. destruct H as [-> ->]. exact (uf_fits _ _ _ _ UF _ _ _ R X).
  - intros anc x anc' x' s H Sc. pose proof (beside_reaches _ _ _ _ _ _ _ _ _ _ H) as R. apply beside_self in H. destruct H as [-> ->].
    destruct (reached _ _ R) as [e [Be [Q _]]]. subst x. rewrite (scalar_size E M m src UF _ _ _ Be Sc). eapply kept; [exact R|apply built_extent; exact Be].
  - intros anc x anc' x' t H P. pose proof (beside_reaches _ _ _ _ _ _ _ _ _ _ H) as R. apply beside_self in H. destruct H as [-> ->].
    destruct P as [P0 P1]. rewrite (pointer_kept _ _ _ R P0). auto.
  - intros anc x anc' x' t p sz H P NZ L. pose proof (beside_reaches _ _ _ _ _ _ _ _ _ _ H) as R. apply beside_self in H. destruct H as [-> ->]. right.
    rewrite (pointer_kept _ _ _ R (points_info _ _ _ _ _ P)). pose proof P as [_ Q]. rewrite <- Q. eapply no_loop_kept; [exact R|].
    eapply leaf_free; eassumption.
  - intros anc x anc' x' sz l H L. pose proof (beside_reaches _ _ _ _ _ _ _ _ _ _ H) as R. apply beside_self in H. destruct H as [-> ->].
    destruct (loop_back _ _ _ _ _ _ _ L) as [t [p [P LA]]]. destruct LA as [pre [a [post [ta [-> [-> [Pa _]]]]]]]. exists a. split; [lia|].
    replace (Z.to_nat (Z.of_nat (length pre) + 1 - 1)) with (length pre) by lia. split; [rewrite nth_error_app2, Nat.sub_diag by lia; reflexivity|].
    destruct (up_reaches _ _ R a) as [up Ua]; [apply in_or_app; right; left; reflexivity|].
    rewrite (pointer_kept _ _ _ R (points_info _ _ _ _ _ P)), (pointer_kept _ _ _ Ua (points_info _ _ _ _ _ Pa)). destruct P as [_ <-], Pa as [_ <-]. reflexivity.
  - intros anc x anc' x' sz w H L. pose proof (beside_reaches _ _ _ _ _ _ _ _ _ _ H) as R. apply beside_self in H. destruct H as [-> ->].
    destruct (ptr_free _ _ _ _ _ _ _ L) as [t [p [P [NZ NL]]]].
    rewrite (pointer_kept _ _ _ R (points_info _ _ _ _ _ P)). pose proof P as [_ <-]. split; [exact NZ|]. eapply no_loop_kept; eassumption.
  - exact An.
Qed.

(** ** The copy: blocks on a way are different *)
Inductive homed : list value -> ment -> list Z -> Z -> list block -> Prop :=
| ho_here : homed [] top [] (v_addr dst) [(v_addr dst, z)]
| ho_part anc e ys y hs sz ch c : homed anc e ys y hs -> looks E M m anc (me_val e) (VNode sz ch) -> In c (me_ch e) ->
    homed (me_val e :: anc) c (y :: ys) (y + (addr c - addr e)) hs
| ho_ptr anc e ys y hs sz c b : homed anc e ys y hs -> looks E M m anc (me_val e) (VPtr sz (me_val c)) -> me_ch e = [c] -> In b new ->
    fst b = number_at m' y 8 - (number_at m (addr e) 8 - addr c) -> snd b = me_size c -> homed (me_val e :: anc) c (y :: ys) (fst b) (b :: hs).
Lemma homed_facts : forall anc e ys y hs, homed anc e ys y hs -> built_ok E M m anc e /\ reaches E M m src anc (me_val e) /\
  along E M m m' src (v_addr dst) anc (me_val e) ys y /\ exists h t, hs = h :: t /\ fst h <= y /\ y + me_size e <= fst h + snd h.
Proof.
  intros anc e ys y hs H. induction H as [|anc e ys y hs sz ch c H [Be [R [Al [h [t [Q [H1 H2]]]]]]] L I|anc e ys y hs sz c b H [Be [R [Al [h [t [Q [H1 H2]]]]]]] L Ch Ib Fb Sb].
  - split; [exact Bu|]. rewrite V. split; [apply re_here|]. split; [apply al_here|]. exists (v_addr dst, z), []. rewrite top_size. cbn. split; [reflexivity|lia].
  - destruct (part_in E M m src UF Tree _ _ _ _ _ R Be L I) as [P1 [P2 [P3 P4]]]. destruct (built_node E M m _ _ _ _ Be L) as [-> _].
    split; [exact P4|]. split; [exact P3|]. split; [eapply al_part; [exact Al|exact L|apply in_map; exact I]|]. exists h, t. split; [exact Q|]. lia.
  - destruct (ptr_in E M m src UF _ _ _ _ R Be L Ch) as [_ [_ [_ [P3 P4]]]]. split; [exact P4|]. split; [exact P3|]. split; [rewrite Fb; eapply al_ptr; eassumption|].
    exists b, hs. split; [reflexivity|]. lia.
Qed.
Lemma along_homed : forall anc x ys y, along E M m m' src (v_addr dst) anc x ys y -> exists e hs, homed anc e ys y hs /\ me_val e = x.
Proof.
  intros anc x ys y H. induction H as [|anc x ys y sz ch c H [e [hs [Ho Qe]]] L I|anc x ys y sz w H [e [hs [Ho Qe]]] L].
  - eexists _, _. split; [apply ho_here|exact V].
  - subst x. destruct (homed_facts _ _ _ _ _ Ho) as [Be _]. destruct (built_node E M m _ _ _ _ Be L) as [-> _]. apply in_map_iff in I. destruct I as [c0 [<- Ic]].
    eexists c0, hs. split; [eapply ho_part; eassumption|reflexivity].
  - subst x. destruct (homed_facts _ _ _ _ _ Ho) as [Be _]. destruct (built_ptr E M m _ _ _ _ Be L) as [c [Ch [<- Bc]]].
    destruct (un_block _ _ _ _ _ _ _ _ UN _ _ _ _ _ _ H L) as [b [Ib [Fb Xb]]]. exists c, (b :: hs). split; [|reflexivity]. rewrite <- Fb. eapply ho_ptr; try eassumption.
    eapply same_extent; [exact UF|exact Xb|apply built_extent; exact Bc].
Qed.
Lemma homed_in : forall anc e ys y hs, homed anc e ys y hs -> forall b, In b hs -> b = (v_addr dst, z) \/ In b new.
Proof. intros anc e ys y hs H. induction H; intros b0 Ib0; [destruct Ib0 as [<-|[]]; auto|auto|destruct Ib0 as [<-|Ib0]; auto]. Qed.
Lemma link_inside : forall y b, link_at E M m m' src (v_addr dst) y b -> fst b <= number_at m' y 8 < fst b + snd b.
Proof.
  intros y b [anc [x [ys [sz [w [Al [L [Fb X]]]]]]]].
  destruct (along_homed _ _ _ _ Al) as [e [hs [Ho <-]]]. destruct (homed_facts _ _ _ _ _ Ho) as [_ [R _]]. pose proof (uf_inside _ _ _ _ UF _ _ _ _ _ R L X). lia.
Qed.
Lemma homed_made : forall anc e ys y hs, homed anc e ys y hs -> forall b, In b hs -> b = (v_addr dst, z) \/
  exists up e0 ys0 y0 hs0 l, homed up e0 ys0 y0 hs0 /\ me_size e0 = 8 /\ hs = l ++ b :: hs0 /\ link_at E M m m' src (v_addr dst) y0 b.
Proof.
  intros anc e ys y hs H. induction H as [|anc e ys y hs sz ch c H IH L I|anc e ys y hs sz c b H IH L Ch Ib Fb Sb]; intros b0 I0.
  - destruct I0 as [<-|[]]. left. reflexivity.
  - apply IH. exact I0.
  - destruct I0 as [<-|I0].
    + right. destruct (homed_facts _ _ _ _ _ H) as [Be [R [Al _]]]. destruct (ptr_in E M m src UF _ _ _ _ R Be L Ch) as [_ [_ [P2 [P3 P4]]]].
      exists anc, e, ys, y, hs, []. split; [exact H|]. split; [exact P2|]. split; [reflexivity|]. exists anc, (me_val e), ys, sz, (me_val c). split; [exact Al|]. split; [exact L|].
      split; [exact Fb|]. rewrite Sb. apply built_extent. exact P4.
    + destruct (IH _ I0) as [Q|[up [e0 [ys0 [y0 [hs0 [l [H0 [S0 [Q0 L0]]]]]]]]]]; [left; exact Q|right]. exists up, e0, ys0, y0, hs0, (b :: l). rewrite Q0. auto.
Qed.
Lemma homes_apart : forall b b', b <> b' -> b = (v_addr dst, z) \/ In b new -> b' = (v_addr dst, z) \/ In b' new -> forall y, fst b <= y -> y + 8 <= fst b + snd b -> fst b' <= y -> y + 8 <= fst b' + snd b' -> False.
Proof.
  intros [b w] [b' w'] NE [Q|I] [Q'|I'] y H1 H2 H3 H4; cbn [fst snd] in *; try (injection Q as -> ->); try (injection Q' as -> ->); destruct Fr as [_ [[_ F1] F2]].
  - congruence.
  - destruct (F2 _ _ _ _ I' (or_intror (or_introl eq_refl))); lia.
  - destruct (F2 _ _ _ _ I (or_intror (or_introl eq_refl))); lia.
  - destruct (F1 _ _ _ _ I I') as [Q|Q]; [congruence|lia].
Qed.
(** two pointers one of which is above the other are at different places *)
Lemma places_differ : forall up e0 ys0 y0 hs0 anc e ys y hs l b, homed up e0 ys0 y0 hs0 -> me_size e0 = 8 -> homed anc e ys y hs -> me_size e = 8 -> hs = l ++ b :: hs0 -> NoDup hs -> y <> y0.
Proof.
  intros up e0 ys0 y0 hs0 anc e ys y hs l b H0 S0 H S Q ND ->.
  destruct (homed_facts _ _ _ _ _ H0) as [_ [_ [_ [h0 [t0 [-> [A1 A2]]]]]]]. destruct (homed_facts _ _ _ _ _ H) as [_ [_ [_ [h [t [-> [A3 A4]]]]]]].
  eapply (homes_apart h h0); [|eapply homed_in; [exact H|left; reflexivity]|eapply homed_in; [exact H0|left; reflexivity]|exact A3|rewrite <- S; exact A4|exact A1|rewrite <- S0; exact A2].
  intros ->. rewrite Q in ND. destruct l as [|h1 l]; cbn in Q; injection Q as -> ->; cbn in ND; inversion ND as [|? ? N1 N2]; subst; apply N1; [left; reflexivity|apply in_or_app; right; right; left; reflexivity].
Qed.
Lemma homed_nodup : forall anc e ys y hs, homed anc e ys y hs -> NoDup hs.
Proof.
  intros anc e ys y hs H. induction H as [|anc e ys y hs sz ch c H IH L I|anc e ys y hs sz c b H IH L Ch Ib Fb Sb]; [constructor; [intros []|constructor]|exact IH|].
  constructor; [|exact IH]. intro I0. destruct (homed_facts _ _ _ _ _ H) as [Be [R [Al _]]]. destruct (ptr_in E M m src UF _ _ _ _ R Be L Ch) as [P1 [_ [P2 [P3 P4]]]].
  assert (Lk : link_at E M m m' src (v_addr dst) y b).
  { exists anc, (me_val e), ys, sz, (me_val c). split; [exact Al|]. split; [exact L|]. split; [exact Fb|]. rewrite Sb. apply built_extent. exact P4. }
  destruct (homed_made _ _ _ _ _ H _ I0) as [->|[up [e0 [ys0 [y0 [hs0 [l [H0 [S0 [Q0 L0]]]]]]]]]].
  - cbn [snd fst] in *. destruct Fr as [_ [_ F]]. destruct (F _ _ _ _ Ib (or_intror (or_introl eq_refl))); lia.
  - eapply places_differ; [exact H0|exact S0|exact H|exact P2|exact Q0|exact IH|]. eapply (un_own _ _ _ _ _ _ _ _ UN); eassumption.
Qed.
Lemma homed_above : forall anc e ys y hs, homed anc e ys y hs -> forall i x0 y0, nth_error anc i = Some x0 -> nth_error ys i = Some y0 ->
  exists up e0 ys0 hs0 l, homed up e0 ys0 y0 hs0 /\ me_val e0 = x0 /\ hs = l ++ hs0 /\
    (forall t, has_info d x0 (IPointer t) -> me_size e0 = 8 /\ exists l' b, l = l' ++ [b] /\ In b new /\ link_at E M m m' src (v_addr dst) y0 b).
Proof.
  intros anc e ys y hs H. induction H as [|anc e ys y hs sz ch c H IH L I|anc e ys y hs sz c b H IH L Ch Ib Fb Sb]; intros [|i] x0 y0 Q1 Q2; try discriminate; cbn in Q1, Q2.
  - injection Q1 as <-. injection Q2 as <-. exists anc, e, ys, hs, []. split; [exact H|]. split; [reflexivity|]. split; [reflexivity|].
    intros t T. exfalso. eapply node_not_pointer; eassumption.
  - apply (IH _ _ _ Q1 Q2).
  - injection Q1 as <-. injection Q2 as <-. exists anc, e, ys, hs, [b]. split; [exact H|]. split; [reflexivity|]. split; [reflexivity|].
    destruct (homed_facts _ _ _ _ _ H) as [Be [R [Al _]]]. destruct (ptr_in E M m src UF _ _ _ _ R Be L Ch) as [P1 [_ [P2 [P3 P4]]]].
    intros t T. split; [exact P2|]. exists [], b. split; [reflexivity|]. split; [exact Ib|]. exists anc, (me_val e), ys, sz, (me_val c). split; [exact Al|]. split; [exact L|]. split; [exact Fb|]. rewrite Sb. apply built_extent. exact P4.
  - destruct (IH _ _ _ Q1 Q2) as [up [e0 [ys0 [hs0 [l [H0 [V0 [Q0 P]]]]]]]]. exists up, e0, ys0, hs0, (b :: l). split; [exact H0|]. split; [exact V0|]. split; [rewrite Q0; reflexivity|].
    intros t T. destruct (P t T) as [S0 [l' [b0 [-> R0]]]]. split; [exact S0|]. exists (b :: l'), b0. auto.
Qed.

Lemma beside_along : forall anc x anc' x', beside E M m src m' dst anc x anc' x' -> along E M m m' src (v_addr dst) anc x (map v_addr anc') (v_addr x').
Proof.
  intros anc x anc' x' H. induction H as [|anc x anc' x' sz ch c H IH L I|anc x anc' x' sz w H IH L]; [apply al_here| |].
  - cbn [rebase v_addr map]. replace (v_addr c - v_addr x + v_addr x') with (v_addr x' + (v_addr c - v_addr x)) by lia. eapply al_part; eassumption.
  - cbn [rebase v_addr map]. replace (v_addr w - number_at m (v_addr x) 8 + number_at m' (v_addr x') 8) with (number_at m' (v_addr x') 8 - (number_at m (v_addr x) 8 - v_addr w)) by lia.
    eapply al_ptr; eassumption.
Qed.
Lemma nth_map : forall (l : list value) i y, nth_error (map v_addr l) i = Some y -> exists a, nth_error l i = Some a /\ v_addr a = y.
Proof. intros l i y H. rewrite nth_error_map in H. destruct (nth_error l i) as [a|]; [|discriminate]. injection H as <-. eauto. Qed.
Lemma beside_same : forall anc x anc' x', beside E M m src m' dst anc x anc' x' -> same_type d x x'.
Proof. intros anc x anc' x' H. destruct H; [exact ST|apply type_rebase|apply type_rebase]. Qed.
Lemma above_same : forall anc x anc' x', beside E M m src m' dst anc x anc' x' -> Forall2 (same_type d) anc anc'.
Proof. intros anc x anc' x' H. induction H; constructor; try assumption; eapply beside_same; eassumption. Qed.
Lemma copy_mirrored : en_va E (v_entry dst) = false -> answers_beside E M m src m' dst -> mirrored E M m src m' dst.
Proof.
  intros Va An. constructor.
  - exact ST.
  - exact Va.
  - intros anc x anc' x' s H X. apply beside_along in H. destruct (along_homed _ _ _ _ H) as [e [hs [Ho <-]]]. destruct (homed_facts _ _ _ _ _ Ho) as [Be [R [_ [h [t [-> [H1 H2]]]]]]].
    assert (Q : s = me_size e) by (eapply same_extent; [exact UF|exact X|apply built_extent; exact Be]). subst s.
    destruct (homed_in _ _ _ _ _ Ho h (or_introl eq_refl)) as [->|I]; [cbn in *; lia|]. destruct h as [b w]. destruct Fr as [_ [[F _] _]]. specialize (F _ _ I). cbn in *. lia.
  - intros anc x anc' x' s H. apply beside_along in H. exact (un_scalar _ _ _ _ _ _ _ _ UN _ _ _ _ _ H).
  - intros anc x anc' x' t H. apply beside_along in H. exact (un_null _ _ _ _ _ _ _ _ UN _ _ _ _ _ H).
  - intros anc x anc' x' t p sz H P NZ L. pose proof (beside_along _ _ _ _ H) as Al. destruct (un_opaque _ _ _ _ _ _ _ _ UN _ _ _ _ _ _ _ Al P NZ L) as [[_ Q]|[QM Q]]; [left; exact Q|right].
    rewrite Q. pose proof (beside_reaches _ _ _ _ _ _ _ _ _ _ H) as R. pose proof (OP QM _ _ _ _ _ R P NZ L) as Out. destruct (along_homed _ _ _ _ Al) as [e [hs [Ho Qe]]].
    intros a' ta Ia [Ta Pa]. apply In_nth_error in Ia. destruct Ia as [i Na].
    assert (Nm : nth_error (map v_addr anc') i = Some (v_addr a')) by (rewrite nth_error_map, Na; reflexivity).
    pose proof (above_same _ _ _ _ H) as F2. destruct (nth_error anc i) as [a|] eqn:Nx.
    2: { apply nth_error_None in Nx. pose proof (nth_error_Some anc' i) as [NS _]. rewrite Na in NS. apply forall2_length in F2. assert (i < length anc')%nat by (apply NS; discriminate). lia. }
    assert (Sa : same_type d a a').
    { clear - F2 Na Nx. revert i Na Nx. induction F2 as [|b b' l l' Hb F2 IH]; intros [|i] Na Nx; try discriminate; cbn in Na, Nx; [injection Na as <-; injection Nx as <-; exact Hb|eapply IH; eassumption]. }
    destruct (homed_above _ _ _ _ _ Ho _ _ _ Nx Nm) as [up [e0 [ys0 [hs0 [l [H0 [V0 [Q0 P0]]]]]]]].
    destruct (P0 ta (type_info_back _ _ _ _ Sa Ta)) as [S0 [l' [b0 [Ql [Ib0 Lk0]]]]].
    pose proof (link_inside _ _ Lk0) as In0. rewrite <- Pa in In0. destruct b0 as [b0 w0]. exact (Out _ _ Ib0 In0).
  - intros anc x anc' x' sz l H L. apply beside_along in H. destruct (un_loop _ _ _ _ _ _ _ _ UN _ _ _ _ _ _ H L) as [b [L0 [Nb Q]]]. apply nth_map in Nb. destruct Nb as [a [Na <-]]. exists a. auto.
  - intros anc x anc' x' sz w H L. pose proof (beside_along _ _ _ _ H) as Al. destruct (along_homed _ _ _ _ Al) as [e [hs [Ho Qe]]]. subst x. destruct (homed_facts _ _ _ _ _ Ho) as [Be [R _]].
    destruct (built_ptr E M m _ _ _ _ Be L) as [c [Ch [Qc Bc]]]. subst w. destruct (ptr_in E M m src UF _ _ _ _ R Be L Ch) as [P1 [_ [P2 _]]].
    destruct (un_block _ _ _ _ _ _ _ _ UN _ _ _ _ _ _ Al L) as [b [Ib [Fb Xb]]].
    assert (Lk : link_at E M m m' src (v_addr dst) (v_addr x') b) by (exists anc, (me_val e), (map v_addr anc'), sz, (me_val c); auto).
    pose proof (link_inside _ _ Lk) as In1. pose proof Fr as [_ [[F F1] _]]. split.
    + destruct b as [b wb]. specialize (F _ _ Ib). cbn [fst snd] in In1. lia.
    + intros a' t Ia [Ta Pa]. apply In_nth_error in Ia. destruct Ia as [i Na].
      assert (Nm : nth_error (map v_addr anc') i = Some (v_addr a')) by (rewrite nth_error_map, Na; reflexivity).
      pose proof (above_same _ _ _ _ H) as F2. destruct (nth_error anc i) as [a|] eqn:Nx.
      2: { apply nth_error_None in Nx. pose proof (nth_error_Some anc' i) as [NS _]. rewrite Na in NS. apply forall2_length in F2. assert (i < length anc')%nat by (apply NS; discriminate). lia. }
      assert (Sa : same_type d a a').
      { clear - F2 Na Nx. revert i Na Nx. induction F2 as [|b b' l l' Hb F2 IH]; intros [|i] Na Nx; try discriminate; cbn in Na, Nx; [injection Na as <-; injection Nx as <-; exact Hb|eapply IH; eassumption]. }
      destruct (homed_above _ _ _ _ _ Ho _ _ _ Nx Nm) as [up [e0 [ys0 [hs0 [l [H0 [V0 [Q0 P]]]]]]]].
      destruct (P t (type_info_back _ _ _ _ Sa Ta)) as [S0 [l' [b0 [-> [Ib0 Lk0]]]]].
      rewrite <- app_assoc in Q0. cbn [app] in Q0.
      assert (NE : v_addr x' <> v_addr a') by (eapply places_differ; [exact H0|exact S0|exact Ho|exact P2|exact Q0|eapply homed_nodup; exact Ho]).
      pose proof (link_inside _ _ Lk0) as In0. rewrite <- Pa in In0.
      assert (Qb : b = b0). { destruct b as [b wb], b0 as [b0 wb0]. destruct (F1 _ _ _ _ Ib Ib0) as [Q|Q]; [exact Q|]. cbn [fst snd] in In0, In1. lia. }
      subst b0. apply NE. eapply (un_own _ _ _ _ _ _ _ _ UN); eassumption.
  - exact An.
Qed.
End Copy.

Lemma copy_map : forall E M ord cal sd k src dst s s', copy_ex E M ord cal sd k src dst s = Ret (true, s') -> exists mm, new_memory_map E M k (c_mem s) src = Ret (Some mm).
Proof.
  intros E M ord cal sd k src dst s s' H. unfold copy_ex in H. apply bind_ret in H. destruct H as [[f1|] [_ H]]; [|apply bind_ret in H; destruct H as [f2 [_ H]]; discriminate].
  apply bind_ret in H. destruct H as [[f2|] [_ H]]; [|discriminate]. apply bind_ret in H. destruct H as [sm [_ H]]. destruct sm; [cbn [negb] in H|discriminate].
  apply bind_ret in H. destruct H as [[mm|] [N H]]; [|discriminate]. exists mm. exact N.
Qed.
Lemma tree_then_equal : forall E M feq n0 ord cal same_decl k src dst s s' evs z B,
  acyclic (en_db E) n0 -> en_fuel E = (n0 + 3)%nat -> mo_tree M = true -> mo_uptr M <> UPTR_as_values ->
  copy_ex E M ord cal same_decl k src dst s = Ret (true, s') -> calls s s' evs ->
  unfoldable E M (c_mem s) src -> comparable E M feq (c_mem s) src -> extent E M (c_mem s) [] src z -> same_type (en_db E) src dst -> en_va E (v_entry dst) = false ->
  covered E M (c_mem s) src B ->
  0 < v_addr dst -> v_addr dst + z < 2 ^ 64 -> (forall b w, In (b, w) ((v_addr src, z) :: B) -> apart (v_addr dst) z b w) ->
  fresh_blocks (allocs evs) ((v_addr src, z) :: (v_addr dst, z) :: B) ->
  (mo_uptr M = UPTR_fail \/ mo_uptr M = UPTR_as_one_byte_ptr -> forall x, v_addr dst <= x < v_addr dst + z -> c_mem s x = 0) ->
  answers_beside E M (c_mem s) src (c_mem s') src -> answers_beside E M (c_mem s) src (c_mem s') dst ->
  equal_ex E M feq k (c_mem s') src dst = Ret 1.
Proof.
  intros E M feq n0 ord cal sd k src dst s s' evs z B A N Tree NV H Cl UF CM Ext ST Va Cov D1 D2 Ad Fr Zd An1 An2.
  pose proof (copy_tree_sound E M ord cal sd Tree k src dst s s' evs z B H Cl UF Ext ST Cov D1 D2 Ad Fr Zd) as UN.
  destruct (copy_map _ _ _ _ _ _ _ _ _ _ H) as [mm Hm]. pose proof (map_built _ _ _ _ _ _ Hm) as [Bu V _ _ _ _ _ _].
  eapply (mirrored_equal E M feq n0 (c_mem s) src (c_mem s') src dst k mm); try assumption.
  - eapply source_mirrored; eassumption.
  - eapply copy_mirrored; try eassumption. intro Q. contradiction.
  - apply uf_traversable. exact UF.
  - exact (un_bytes _ _ _ _ _ _ _ _ UN).
Qed.
