(** Deep operations reach their end on well-formed data. *)
From Coq Require Import ZArith String List Bool Lia ZifyBool.
From Verif Require Import Base BaseProof EntryModel EntrySpec EntryProof ValueModel ValueSpec ValueProof ValueProof2 DeepModel DeepSpec DeepProof DeepProof2 DeepProof3 DeepProof4 DeepProof5 DeepProof6 DeepProof8 MoveProof EqualSpec CompleteSpec.
Import ListNotations.
Open Scope Z_scope.

Section Complete.
Variable E : env.
Variable M : mode.
Variable n0 : nat.
Notation n := (en_fuel E).
Notation d := (en_db E).
Hypothesis A : acyclic d n0.
Hypothesis N : n = (n0 + 3)%nat.

Lemma grow_makes : forall v l sz, Forall (fun c => v_addr v <= v_addr (me_val c)) l -> exists z, grow v sz l = Ret z.
Proof.
  intros v l. induction l as [|c l IH]; intros sz F; [exists sz; reflexivity|]. inversion F as [|c0 l0 F1 F2]; subst. cbn.
  replace (v_addr (me_val c) <? v_addr v) with false by lia. apply IH. exact F2.
Qed.
Lemma all_some_map : forall (l : list ment), all_some (map Some l) = Some l.
Proof. induction l as [|a l IH]; [reflexivity|]. cbn. rewrite IH. reflexivity. Qed.

(** with enough fuel the traversal yields an entry, and nothing is deleted *)
Definition goes (v : value) (s : bst) (r : res (option ment * bst)) : Prop :=
  r = OutOfFuel \/ exists e s', r = Ret (Some e, s') /\ me_val e = v /\ b_dead s' = [].
Lemma build_goes : forall m v, visible E M m v -> forall k anc x s, b_dead s = [] -> reaches E M m v anc x -> goes x s (build E M k m anc x s).
Proof.
  intros m v V. induction k as [|k IH]; intros anc x s D R; [left; reflexivity|].
  assert (BL : forall anc' vs s, b_dead s = [] -> (forall y, In y vs -> reaches E M m v anc' y) ->
    build_list E M k m anc' vs s = OutOfFuel \/ exists l s', build_list E M k m anc' vs s = Ret (map Some l, s') /\ map me_val l = vs /\ b_dead s' = []).
  { clear D s. intros anc' vs. induction vs as [|y vs IHv]; intros s D Q; [right; exists [], s; repeat split; exact D|]. cbn [build_list].
    destruct (IH anc' y s D (Q y (or_introl eq_refl))) as [->|[e [s1 [-> [V1 D1]]]]]; [left; reflexivity|]. cbn [bind].
    destruct (IHv s1 D1 (fun z Iz => Q z (or_intror Iz))) as [->|[l [s2 [-> [V2 D2]]]]]; [left; reflexivity|]. cbn [bind].
    right. exists (e :: l), s2. split; [reflexivity|]. split; [cbn; congruence|exact D2]. }
  destruct (vs_view _ _ _ _ V _ _ R) as [w W].
  rewrite build_eq. rewrite (look_complete E M n0 A N m anc x w (vs_addr _ _ _ _ V _ _ R) (vs_data _ _ _ _ V _ _ R) W). cbn [bind].
  destruct w as [|sz|sz l|sz ch|sz t|ch].
  - inversion W.
  - right. eexists _, _. split; [reflexivity|]. split; [reflexivity|exact D].
  - right. eexists _, _. split; [reflexivity|]. split; [reflexivity|exact D].
  - destruct (BL (x :: anc) ch s D) as [->|[l [s1 [-> [V1 D1]]]]].
    { intros y Iy. eapply re_node; eassumption. }
    { left. reflexivity. }
    cbn [bind]. rewrite all_some_map.
    destruct (grow_makes x l sz) as [z G]. { apply Forall_forall. intros c Ic. eapply (vs_parts _ _ _ _ V); [exact R|exact W|]. rewrite <- V1. apply in_map. exact Ic. }
    rewrite G. cbn [bind]. right. eexists _, _. split; [reflexivity|]. split; [reflexivity|exact D1].
  - destruct (IH (x :: anc) t s D) as [->|[e [s1 [-> [V1 D1]]]]].
    { eapply re_ptr; eassumption. }
    { left. reflexivity. }
    cbn [bind fresh]. unfold register. cbn [b_hash b_dead b_next].
    rewrite D1. cbn [existsb]. right. destruct (mo_tree M); cbn [bind]; [eexists _, _; split; [reflexivity|]; split; reflexivity|].
    cbn [h_addr]. destruct (hfind (b_hash s1) (v_addr (me_val e))) as [prev|]; cbn [bind]; [|eexists _, _; split; [reflexivity|]; split; reflexivity].
    destruct (h_size prev <? _); cbn [bind]; eexists _, _; (split; [reflexivity|]); split; solve [reflexivity|exact D1|cbn; exact D1].
  - destruct (BL (x :: anc) ch s D) as [->|[l [s1 [-> [V1 D1]]]]].
    { intros y Iy. eapply re_call; eassumption. }
    { left. reflexivity. }
    cbn [bind]. rewrite all_some_map. right. eexists _, _. split; [reflexivity|]. split; [reflexivity|exact D1].
Qed.
Lemma map_goes : forall k m v, visible E M m v -> new_memory_map E M k m v = OutOfFuel \/ exists mm, new_memory_map E M k m v = Ret (Some mm).
Proof.
  intros k m v V. unfold new_memory_map. destruct (build_goes m v V k [] v (Build_bst O [] []) eq_refl (re_here _ _ _ _)) as [->|[e [s [-> [_ _]]]]]; [left; reflexivity|].
  right. cbn [bind]. destruct (mo_tree M); eexists; reflexivity.
Qed.

Lemma ptr_view : forall m anc v sz t, looks E M m anc v (VPtr sz t) -> exists r, has_info d v (IPointer r).
Proof. intros m anc v sz t L. inversion L as [ | | | |sz' p w T NL S| | | | | ]; subst. inversion T; subst; match goal with P : points _ _ _ ?r _ |- _ => exists r; exact (proj1 P) end. Qed.
Lemma node_not_ptr : forall m anc v sz ch r, looks E M m anc v (VNode sz ch) -> has_info d v (IPointer r) -> False.
Proof. intros m anc v sz ch r L I. destruct (node_info _ _ _ _ _ _ _ L) as [i [I' K]]. pose proof (has_info_fun _ _ _ _ I I') as <-. exact K. Qed.

Lemma kinds_apart : forall m anc v sz ch i i', looks E M m anc v (VNode sz ch) -> has_info d v i -> callable i' \/ (exists r, i' = IPointer r) -> kind_of i = kind_of i' -> False.
Proof.
  intros m anc v sz ch i i' L I C K. assert (X : match i with IAggr _ _ _ | IArray _ _ => True | _ => False end).
  { inversion L; subst; match goal with J : has_info _ v ?j |- _ => pose proof (has_info_fun _ _ _ _ I J) as -> end; exact Logic.I. }
  destruct i as [ | | | | | | | |[]| | | | | ]; try contradiction; (destruct C as [C|[r ->]]; [destruct i'; try contradiction|]); discriminate K.
Qed.
Lemma same_head_or : forall o1 o2 e1 e2 f1 f2, same_head o1 o2 e1 e2 f1 f2 \/
  negb (me_size e1 =? me_size e2) || negb (Nat.eqb (length (me_ch e1)) (length (me_ch e2)))
     || negb (me_loop e1 =? me_loop e2) || negb (off_of o1 (me_id e1) =? off_of o2 (me_id e2))
     || negb (knd f1 =? knd f2) = true.
Proof.
  intros o1 o2 e1 e2 f1 f2. match goal with |- _ \/ ?b = true => destruct b eqn:Q end; [right; reflexivity|left]. apply same_head_dec. exact Q.
Qed.

(** and conversely a map shows that everything below the value can be seen *)
Lemma map_sees : forall k m v mm, new_memory_map E M k m v = Ret (Some mm) -> 
  forall anc x, reaches E M m v anc x -> en_va E (v_entry x) = false /\ (exists w, looks E M m anc x w) /\
    forall sz ch y, looks E M m anc x (VNode sz ch) -> In y ch -> v_addr x <= v_addr y.
Proof.
  intros k m v mm H anc x R. pose proof (map_built _ _ _ _ _ _ H) as [B V _ _ _ _ _ _].
  destruct (reaches_tree E M m v _ B V anc x R) as [e [T [<- Be]]].
  destruct (built_looks E M m anc e Be) as [w [W0 [W K]]]. split; [|split].
  - inversion Be; subst; eapply look_noload; eassumption.
  - exists w. exact W.
  - intros sz ch y L I. destruct (built_node _ _ _ _ _ _ _ _ Be L I) as [c [C1 [C2 _]]]. subst y.
    inversion Be as [ | |anc0 i v0 sz0 sz' ch0 L0 F G|anc0 i v0 sz0 c0 L0 B0|anc0 i v0 ch0 L0 F]; subst; cbn [me_ch me_val] in *; try (destruct C1; fail).
    + clear - C1 G. revert sz0 C1 G. induction ch0 as [|a l IH]; intros z I G; [destruct I|]. cbn in G. destruct (v_addr (me_val a) <? v_addr v0) eqn:Q; [discriminate|].
      destruct I as [->|I]; [lia|]. eapply IH; eassumption.
    + apply look_sound in L0; [|discriminate]. exfalso. destruct (ptr_view _ _ _ _ _ L0) as [r P]. eapply node_not_ptr; eassumption.
    + apply look_sound in L0; [|discriminate]. exfalso. destruct (call_info _ _ _ _ _ _ L0) as [r [P Q]]. eapply node_not_call; eassumption.
Qed.

(** * Comparison *)
Section Comparison.
Variable feq : ctype -> Z -> Z -> bool.
Notation g := (en_garbage E).
Variable m : mem.
Hypothesis BM : bytes_ok m.
Variables v1 v2 : value.
Hypothesis R1 : readable E M m v1.
Hypothesis R2 : readable E M m v2.

Lemma loop_total : forall x1 x2 k1 k2 l, In k1 l -> has_ctype d x1 k1 -> has_ctype d x2 k2 -> plain d x1 -> plain d x2 ->
  exists r, equal_loop feq n d g m x1 x2 l = Ret r /\ (k1 = k2 -> 0 <= r).
Proof.
  intros x1 x2 k1 k2 l I T1 T2 P1 P2.
  assert (V1 : value_is n d x1 k1 = Ret true) by (rewrite N; apply value_is_true; assumption).
  assert (V2 : value_is n d x2 k2 = Ret true) by (rewrite N; apply value_is_true; assumption).
  assert (G1 : value_get n d g m x1 k1 = Ret (inr (number_at m (v_addr x1) (Z.to_nat (ct_size k1))))) by (rewrite N; apply value_get_plain; assumption).
  assert (G2 : value_get n d g m x2 k2 = Ret (inr (number_at m (v_addr x2) (Z.to_nat (ct_size k2))))) by (rewrite N; apply value_get_plain; assumption).
  assert (DEC : k1 = k2 \/ k1 <> k2) by (destruct k1, k2; first [left; reflexivity|right; discriminate]). destruct DEC as [<-|NE].
  - rewrite (eq_base_make E feq m x1 x2 k1 _ _ l I V1 V2 G1 G2). eexists. split; [reflexivity|]. intros _. destruct (c_equal _ _ _ _); lia.
  - exists (- EFAULT). split; [|contradiction]. induction l as [|c l IH]; [destruct I|]. cbn [equal_loop].
    assert (DC : c = k1 \/ c <> k1) by (destruct c, k1; first [left; reflexivity|right; discriminate]). destruct DC as [->|NC].
    + rewrite V1. cbn [bind]. rewrite (value_is_only _ _ _ _ k1 V2 NE). reflexivity.
    + rewrite (value_is_only _ _ _ _ c V1 NC). cbn [bind]. apply IH. destruct I as [->|I]; [contradiction|exact I].
Qed.
Lemma tree_total : forall o1 o2 e1 e2 a1 a2, built_ok E M m a1 e1 -> built_ok E M m a2 e2 ->
  both E M m v1 v2 a1 (me_val e1) a2 (me_val e2) -> reaches E M m v1 a1 (me_val e1) -> reaches E M m v2 a2 (me_val e2) ->
  exists f c, equal_tree E M feq m o1 o2 e1 e2 = Ret (f, c) /\ (same_types E M m v1 v2 -> f = false).
Proof.
  intros o1 o2 e1. induction e1 as [i v s l ch F] using ment_ind2. intros e2 a1 a2 B1 B2 BB Q1 Q2. rewrite equal_tree_eq. set (e1 := ME i v s l ch) in *.
  destruct (built_info E M m a1 e1 B1) as [i1 [I1 J1]]. destruct (built_info E M m a2 e2 B2) as [i2 [I2 J2]].
  assert (H : exists h, equal_here E M feq m o1 o2 e1 e2 = Ret h /\
    match h with inl (f, c) => same_types E M m v1 v2 -> f = false | inr _ => length (me_ch e1) = length (me_ch e2) /\ kind_of i1 = kind_of i2 end).
  { destruct (same_head_or o1 o2 e1 e2 (Some i1) (Some i2)) as [SH|SH].
    2:{ exists (inl (false, false)). split; [|reflexivity]. unfold equal_here. rewrite I1, I2. cbn [bind]. fold (knd (Some i1)). fold (knd (Some i2)). rewrite SH. reflexivity. }
    rewrite (here_body E M feq m o1 o2 e1 e2 _ _ I1 I2 SH). destruct SH as [S1 [S2 [S3 [S4 S5]]]]. cbn [knd] in S5.
    assert (LEAF : forall x r, (exists r, x = Ret r /\ (same_types E M m v1 v2 -> 0 <= r)) -> r = (do r <- x; Ret (inl (B := unit) (leaf_result r)))%res ->
      exists h, r = Ret h /\ match h with inl (f, c) => same_types E M m v1 v2 -> f = false | inr _ => length (me_ch e1) = length (me_ch e2) /\ kind_of i1 = kind_of i2 end).
    { intros x r [y [-> Py]] ->. cbn [bind]. eexists. split; [reflexivity|]. unfold leaf_result. destruct (y <? 0) eqn:Y; [|reflexivity]. intro T. specialize (Py T). lia. }
    apply final_info_some in I1. apply final_info_some in I2.
    assert (GO : forall r : res (bool * bool + unit), r = Ret (inr tt) -> exists h, r = Ret h /\ match h with inl (f, c) => same_types E M m v1 v2 -> f = false | inr _ => length (me_ch e1) = length (me_ch e2) /\ kind_of i1 = kind_of i2 end).
    { intros r ->. exists (inr tt). split; [reflexivity|]. split; assumption. }
    destruct i1 as [ | |z1 c1|t1| |z1 l1| | |k1 z1 l1| | | | | ], i2 as [ | |z2 c2|t2| |z2 l2| | |k2 z2 l2| | | | | ]; try (apply GO; reflexivity); try (apply GO; destruct k1; reflexivity); cbn [body].
    - destruct (R1 _ _ Q1) as [X1 _]. destruct (R2 _ _ Q2) as [X2 _]. destruct (X1 _ _ I1) as [k1 [T1 P1]]. destruct (X2 _ _ I2) as [k2 [T2 P2]].
      eapply LEAF; [|reflexivity]. destruct (loop_total _ _ _ _ _ (all_types_all k1) T1 T2 P1 P2) as [r [LR PR]]. exists r. split; [exact LR|].
      intro T. apply PR. exact (T _ _ _ _ _ _ BB T1 T2).
    - destruct (me_ch e1) as [|b1 lb1] eqn:C1; [|apply GO; reflexivity].
      destruct (mo_uptr M); try (exists (inl (false, true)); split; [reflexivity|reflexivity]).
      eapply LEAF; [|reflexivity]. apply (info_ret E n0 A N) in I1. apply (info_ret E n0 A N) in I2.
      destruct (pointer_info E m _ _ I1) as [p1 X1]. destruct (pointer_info E m _ _ I2) as [p2 X2].
      rewrite (ptr_eq_make E _ _ _ _ _ X1 X2). eexists. split; [reflexivity|]. intros _. destruct (_ =? _); lia.
    - destruct (R1 _ _ Q1) as [_ X1]. destruct (R2 _ _ Q2) as [_ X2]. specialize (X1 _ _ I1). specialize (X2 _ _ I2).
      eapply LEAF; [|reflexivity]. 
      assert (W1 : word z1) by (unfold word; cbn in X1; intuition). assert (W2 : word z2) by (unfold word; cbn in X2; intuition).
      pose proof (enum_read d n0 m _ _ _ A BM I1 W1) as Y1. pose proof (enum_read d n0 m _ _ _ A BM I2 W2) as Y2. rewrite <- N in Y1, Y2.
      rewrite (enum_eq_make E _ _ _ _ _ Y1 Y2). eexists. split; [reflexivity|]. intros _. destruct (_ =? _); lia.
    - destruct k1; try (apply GO; reflexivity); destruct k2; try (apply GO; reflexivity).
      destruct (mo_union M); try (apply GO; reflexivity). destruct (me_ch e1) as [|b1 lb1]; [|apply GO; reflexivity].
      destruct (_ && _); [exists (inl (false, false)); split; [reflexivity|reflexivity]|apply GO; reflexivity]. }
  destruct H as [h [-> H]]. cbn [bind]. destruct h as [[f c]|u]; [exists f, c; split; [reflexivity|exact H]|]. destruct H as [LL KK].
  (* children *)
  assert (CH : forall j c1 c2, nth_error (me_ch e1) j = Some c1 -> nth_error (me_ch e2) j = Some c2 ->
    built_ok E M m (me_val e1 :: a1) c1 /\ built_ok E M m (me_val e2 :: a2) c2 /\
    both E M m v1 v2 (me_val e1 :: a1) (me_val c1) (me_val e2 :: a2) (me_val c2) /\ reaches E M m v1 (me_val e1 :: a1) (me_val c1) /\ reaches E M m v2 (me_val e2 :: a2) (me_val c2)).
  { intros j c1 c2 N1 N2. apply final_info_some in I1. apply final_info_some in I2.
    destruct (built_looks E M m a1 e1 B1) as [w1 [_ [L1 K1]]]. destruct (built_looks E M m a2 e2 B2) as [w2 [_ [L2 K2]]].
    pose proof (nth_error_In _ _ N1) as In1. pose proof (nth_error_In _ _ N2) as In2.
    destruct w1 as [|sz1|sz1 lv1|sz1 ch1|sz1 t1|ch1]; try (decompose [and] K1; match goal with H : me_ch e1 = [] |- _ => rewrite H in In1; destruct In1 end; fail); [contradiction| | | ];
    (destruct w2 as [|sz2|sz2 lv2|sz2 ch2|sz2 t2|ch2]; try (decompose [and] K2; match goal with H : me_ch e2 = [] |- _ => rewrite H in In2; destruct In2 end; fail); [contradiction| | | ]).
    - destruct K1 as [_ [C1 [F1 _]]]. destruct K2 as [_ [C2 [F2 _]]]. rewrite Forall_forall in F1, F2.
      split; [apply F1; exact In1|]. split; [apply F2; exact In2|]. split; [|split].
      + eapply bt_part with (i := j); [exact BB|exact L1|exact L2|rewrite C1; apply map_nth_error; exact N1|rewrite C2; apply map_nth_error; exact N2].
      + eapply re_node; [exact Q1|exact L1|rewrite C1; apply in_map; exact In1].
      + eapply re_node; [exact Q2|exact L2|rewrite C2; apply in_map; exact In2].
    - exfalso. destruct (ptr_view _ _ _ _ _ L2) as [r P2]. pose proof (has_info_fun _ _ _ _ I2 P2) as ->.
      eapply kinds_apart; [exact L1|exact I1|right; eexists; reflexivity|exact KK].
    - exfalso. destruct (call_info _ _ _ _ _ _ L2) as [r [P2 CA]]. pose proof (has_info_fun _ _ _ _ I2 P2) as <-.
      eapply kinds_apart; [exact L1|exact I1|left; exact CA|exact KK].
    - exfalso. destruct (ptr_view _ _ _ _ _ L1) as [r P1]. pose proof (has_info_fun _ _ _ _ I1 P1) as ->.
      symmetry in KK. eapply kinds_apart; [exact L2|exact I2|right; eexists; reflexivity|exact KK].
    - destruct K1 as [_ [_ [d1 [C1 [V1 F1]]]]]. destruct K2 as [_ [_ [d2 [C2 [V2 F2]]]]]. rewrite C1 in In1. rewrite C2 in In2.
      destruct In1 as [<-|[]]. destruct In2 as [<-|[]]. split; [exact F1|]. split; [exact F2|]. rewrite V1, V2. split; [|split].
      + inversion L1 as [ | | | |sz' p1 w' T1 NL1 S1| | | | | ]; subst. inversion L2 as [ | | | |sz'' p2 w'' T2 NL2 S2| | | | | ]; subst. eapply bt_target; [exact BB|exact T1|exact T2].
      + eapply re_ptr; [exact Q1|exact L1].
      + eapply re_ptr; [exact Q2|exact L2].
    - exfalso. destruct (ptr_view _ _ _ _ _ L1) as [r P1]. pose proof (has_info_fun _ _ _ _ I1 P1) as ->.
      destruct (call_info _ _ _ _ _ _ L2) as [r2 [P2 CA]]. pose proof (has_info_fun _ _ _ _ I2 P2) as <-. destruct i2; try contradiction; discriminate KK.
    - exfalso. destruct (call_info _ _ _ _ _ _ L1) as [r [P1 CA]]. pose proof (has_info_fun _ _ _ _ I1 P1) as <-.
      symmetry in KK. eapply kinds_apart; [exact L2|exact I2|left; exact CA|exact KK].
    - exfalso. destruct (ptr_view _ _ _ _ _ L2) as [r P1]. pose proof (has_info_fun _ _ _ _ I2 P1) as ->.
      destruct (call_info _ _ _ _ _ _ L1) as [r2 [P2 CA]]. pose proof (has_info_fun _ _ _ _ I1 P2) as <-. destruct i1; try contradiction; discriminate KK.
    - destruct K1 as [_ [_ [C1 F1]]]. destruct K2 as [_ [_ [C2 F2]]]. rewrite Forall_forall in F1, F2.
      split; [apply F1; exact In1|]. split; [apply F2; exact In2|]. split; [|split].
      + eapply bt_arg with (i := j); [exact BB|exact L1|exact L2|rewrite C1; apply map_nth_error; exact N1|rewrite C2; apply map_nth_error; exact N2].
      + eapply re_call; [exact Q1|exact L1|rewrite C1; apply in_map; exact In1].
      + eapply re_call; [exact Q2|exact L2|rewrite C2; apply in_map; exact In2]. }
  assert (EL : forall l1 l2, length l1 = length l2 -> Forall (fun e1 => forall e2 a1 a2, built_ok E M m a1 e1 -> built_ok E M m a2 e2 ->
      both E M m v1 v2 a1 (me_val e1) a2 (me_val e2) -> reaches E M m v1 a1 (me_val e1) -> reaches E M m v2 a2 (me_val e2) ->
      exists f c, equal_tree E M feq m o1 o2 e1 e2 = Ret (f, c) /\ (same_types E M m v1 v2 -> f = false)) l1 ->
    (forall j c1 c2, nth_error l1 j = Some c1 -> nth_error l2 j = Some c2 ->
      built_ok E M m (me_val e1 :: a1) c1 /\ built_ok E M m (me_val e2 :: a2) c2 /\
      both E M m v1 v2 (me_val e1 :: a1) (me_val c1) (me_val e2 :: a2) (me_val c2) /\ reaches E M m v1 (me_val e1 :: a1) (me_val c1) /\ reaches E M m v2 (me_val e2 :: a2) (me_val c2)) ->
    exists f c, equal_list E M feq m o1 o2 l1 l2 = Ret (f, c) /\ (same_types E M m v1 v2 -> f = false)).
  { clear. induction l1 as [|b1 l1 IH]; intros [|b2 l2] L F C; try discriminate L; [exists false, true; split; reflexivity|].
    inversion F as [|x y F1 F2]; subst. cbn [equal_list].
    destruct (C O b1 b2 eq_refl eq_refl) as [C1 [C2 [C3 [C4 C5]]]]. destruct (F1 _ _ _ C1 C2 C3 C4 C5) as [f [c [-> P]]]. cbn [bind].
    destruct (IH l2 ltac:(cbn in L; lia) F2 (fun j => C (S j))) as [f' [c' [-> P']]]. cbn [bind]. eexists _, _. split; [reflexivity|]. intro T. rewrite (P T), (P' T). reflexivity. }
  exact (EL _ _ LL F CH).
Qed.
Lemma equal_total : forall k, visible E M m v1 -> visible E M m v2 -> new_memory_map E M k m v1 <> OutOfFuel -> new_memory_map E M k m v2 <> OutOfFuel ->
  exists r, equal_ex E M feq k m v1 v2 = Ret r /\ (r = 0 \/ r = 1 \/ r = - EFAULT) /\ (same_types E M m v1 v2 -> r = 0 \/ r = 1).
Proof.
  intros k V1 V2 O1 O2. destruct (map_goes k m v1 V1) as [Q|[m1 H1]]; [contradiction|]. destruct (map_goes k m v2 V2) as [Q|[m2 H2]]; [contradiction|].
  unfold equal_ex. rewrite H1. cbn [bind]. rewrite H2. cbn [bind].
  pose proof (map_built _ _ _ _ _ _ H1) as [B1 W1 _ _ _ _ _ _]. pose proof (map_built _ _ _ _ _ _ H2) as [B2 W2 _ _ _ _ _ _].
  destruct (tree_total (mm_off m1) (mm_off m2) (mm_top m1) (mm_top m2) [] [] B1 B2) as [f [c [-> P]]].
  { rewrite W1, W2. apply bt_here. } { rewrite W1. apply re_here. } { rewrite W2. apply re_here. }
  cbn [bind]. eexists. split; [reflexivity|]. split.
  - destruct f, c; intuition.
  - intro T. rewrite (P T). destruct c; intuition.
Qed.
End Comparison.
End Complete.
