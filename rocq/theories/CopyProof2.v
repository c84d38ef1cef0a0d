(** Deep copies: the traversal keeps the invariant. *)
From Coq Require Import ZArith String List Bool Lia ZifyBool Permutation.
From Verif Require Import Base BaseProof EntryModel EntrySpec EntryProof ValueModel ValueSpec ValueProof ValueProof2 DeepModel DeepSpec
  DeepProof DeepProof2 DeepProof4 DeepProof5 DeepProof6 DeepProof7 DeepProof8 CopySpec CopyProof.
Import ListNotations.
Open Scope Z_scope.

Section Traverse.
Variable E : env.
Variable M : mode.
Variable cal : nat -> Z -> Z.
Notation d := (en_db E).
Notation n := (en_fuel E).
Notation g := (en_garbage E).
Variable m0 : mem.
Variable v : value.
Variable top : ment.
Hypothesis B0 : built_ok E M m0 [] top.
Hypothesis V0 : me_val top = v.
Hypothesis CP : orderly E M m0 v.
Hypothesis UI : mo_union M <> UNION_ignore.
Variable R : list region.
Hypothesis RF : forall r, In r R -> 0 < r_src r /\ 0 <= r_size r /\ r_src r + r_size r < 2 ^ 64 /\ 0 < r_dst r /\ r_dst r + r_size r < 2 ^ 64.
Hypothesis RS : forall r r', In r R -> In r' R -> r = r' \/ r_src r + r_size r <= r_src r' \/ r_src r' + r_size r' <= r_src r.
Hypothesis RD : forall r r', In r R -> In r' R -> r = r' \/ r_dst r + r_size r <= r_dst r' \/ r_dst r' + r_size r' <= r_dst r.
Hypothesis RX : forall r r', In r R -> In r' R -> r_src r + r_size r <= r_dst r' \/ r_dst r' + r_size r' <= r_src r.
Notation addr e := (v_addr (me_val e)).

(** the pieces of the tree that are written as a whole *)
Definition msc (e : ment) (b : bool) : Prop := exists i, has_info d (me_val e) i /\
  match i with
  | IBase _ _ | IEnum _ _ => b = false
  | IPointer _ => b = true
  | IAggr AUnion _ _ => me_ch e = [] /\ mo_union M = UNION_as_mem /\ b = false
  | _ => False
  end.
Definition item (a z : Z) (b : bool) : Prop := exists e, in_tree e top /\ msc e b /\ a = addr e /\ z = me_size e.

Lemma tree_sees : forall e, in_tree e top -> exists anc, reaches E M m0 v anc (me_val e) /\ sees E M m0 v anc (me_val e) /\ built_ok E M m0 anc e.
Proof.
  intros e T. destruct (tree_reaches E M m0 v top e T [] B0) as [anc [Rc Be]]; [rewrite V0; apply re_here|].
  exists anc. split; [exact Rc|]. split; [apply reaches_sees; exact Rc|exact Be].
Qed.
Lemma scalar_msc : forall anc e z b, built_ok E M m0 anc e -> scalar E M m0 anc (me_val e) z b -> msc e b /\ z = me_size e.
Proof.
  intros anc e z b Be S. pose proof (built_extent _ _ _ _ _ Be) as X.
  inversion S as [i z' I K Sz|t I|z' l sz I U L]; subst.
  - split; [exists i; split; [exact I|destruct i; try contradiction; reflexivity]|].
    inversion X as [anc0 v0 sz i' I' K' S'|anc0 v0 sz ch zs N F|anc0 v0 ic Ic Kc]; subst; [eapply size_of_fun; eassumption| |pose proof (has_info_fun _ _ _ _ I Ic) as <-; destruct i; contradiction].
    destruct (node_info _ _ _ _ _ _ _ N) as [i' [I' K']]. pose proof (has_info_fun _ _ _ _ I I') as <-. destruct i; contradiction.
  - split; [exists (IPointer t); split; [exact I|reflexivity]|].
    inversion X as [anc0 v0 sz i' I' K' S'|anc0 v0 sz ch zs N F|anc0 v0 ic Ic Kc]; subst.
    + symmetry. apply (info_size E _ _ _ I S').
    + destruct (node_info _ _ _ _ _ _ _ N) as [i' [I' K']]. pose proof (has_info_fun _ _ _ _ I I') as <-. contradiction.
    + pose proof (has_info_fun _ _ _ _ I Ic) as <-. contradiction.
  - destruct (built_looks _ _ _ _ _ Be) as [w [_ [Lw K]]]. destruct (node_info _ _ _ _ _ _ _ L) as [i [I' K']].
    pose proof (has_info_fun _ _ _ _ I I') as <-.
    destruct w as [|sz1|sz1 lv|sz1 chs|sz1 t1|ca].
    + contradiction.
    + exfalso. inversion Lw as [sz' i' I1 K1 S1|sz' t' P' S1|sz' t' p' P' N1 N2 O H U' S1| | | | | | |]; subst.
      * pose proof (has_info_fun _ _ _ _ I I1) as <-. contradiction.
      * pose proof (has_info_fun _ _ _ _ I (points_info _ _ _ _ _ P')). discriminate.
      * pose proof (has_info_fun _ _ _ _ I (points_info _ _ _ _ _ P')). discriminate.
    + exfalso. inversion Lw as [| | |sz' t' p' l' P' N1 LA S1| | | | | |]; subst. pose proof (has_info_fun _ _ _ _ I (points_info _ _ _ _ _ P')). discriminate.
    + destruct (node_fun _ _ _ _ _ _ _ _ _ L Lw) as [<- Q]. destruct K as [_ [K1 [_ K2]]]. rewrite K1 in Q. destruct (me_ch e) eqn:Ch; [|discriminate].
      cbn in K2. split; [|congruence]. eexists. split; [exact I|]. cbn. auto.
    + exfalso. inversion Lw as [| | | |sz' p' w' T' NL' S'| | | | |]; subst. destruct (target_points _ _ _ _ _ _ _ T') as [_ [t' P']].
      pose proof (has_info_fun _ _ _ _ I (points_info _ _ _ _ _ P')). discriminate.
    + exfalso. destruct (call_info _ _ _ _ _ _ Lw) as [ic [Ic Kc]]. pose proof (has_info_fun _ _ _ _ I Ic) as <-. contradiction.
Qed.
Lemma msc_scalar : forall anc e b, built_ok E M m0 anc e -> msc e b -> scalar E M m0 anc (me_val e) (me_size e) b.
Proof.
  intros anc e b Be [i [I K]]. pose proof (built_extent _ _ _ _ _ Be) as X.
  assert (SZ : match i with IBase _ _ | IEnum _ _ | IPointer _ => True | _ => False end -> size_of d (me_val e) (me_size e)).
  { intro Q. inversion X as [anc0 v0 sz i' I' K' S'|anc0 v0 sz ch zs N F|anc0 v0 ic Ic Kc]; subst; [exact S'| |pose proof (has_info_fun _ _ _ _ I Ic) as <-; destruct i; contradiction].
    destruct (node_info _ _ _ _ _ _ _ N) as [i' [I' K']]. pose proof (has_info_fun _ _ _ _ I I') as <-. destruct i; contradiction. }
  destruct i as [ | |z c|t| |z l|t c| |k z l| | | | | ]; try contradiction.
  - subst b. eapply sr_plain; [exact I|exact Logic.I|apply SZ; exact Logic.I].
  - subst b. pose proof (info_size E _ _ _ I (SZ Logic.I)) as Q. cbn in Q. rewrite Q. eapply sr_pointer. exact I.
  - subst b. eapply sr_plain; [exact I|exact Logic.I|apply SZ; exact Logic.I].
  - destruct k; try contradiction. destruct K as [K1 [K2 ->]].
    destruct (built_looks _ _ _ _ _ Be) as [w [_ [Lw Kw]]].
    destruct w as [|sz1|sz1 lv|sz1 chs|sz1 t1|ca].
    + contradiction.
    + exfalso. inversion Lw as [sz' i' I1 K1' S1|sz' t' P' S1|sz' t' p' P' N1 N2 O H U' S1| | | | | | |]; subst.
      * pose proof (has_info_fun _ _ _ _ I I1) as <-. contradiction.
      * pose proof (has_info_fun _ _ _ _ I (points_info _ _ _ _ _ P')). discriminate.
      * pose proof (has_info_fun _ _ _ _ I (points_info _ _ _ _ _ P')). discriminate.
    + exfalso. inversion Lw as [| | |sz' t' p' l' P' N1 LA S1| | | | | |]; subst. pose proof (has_info_fun _ _ _ _ I (points_info _ _ _ _ _ P')). discriminate.
    + destruct Kw as [_ [Q1 [_ Q2]]]. rewrite K1 in Q1, Q2. cbn in Q1, Q2. subst chs. injection Q2 as <-. eapply sr_union; eassumption.
    + exfalso. inversion Lw as [| | | |sz' p' w' T' NL' S'| | | | |]; subst. destruct (target_points _ _ _ _ _ _ _ T') as [_ [t' P']].
      pose proof (has_info_fun _ _ _ _ I (points_info _ _ _ _ _ P')). discriminate.
    + exfalso. destruct (call_info _ _ _ _ _ _ Lw) as [ic [Ic Kc]]. pose proof (has_info_fun _ _ _ _ I Ic) as <-. contradiction.
Qed.
Lemma item_views : forall a z b a' z' b', item a z b -> item a' z' b' -> meet a z a' z' -> b = b' /\ (b = true -> a = a').
Proof.
  intros a z b a' z' b' [e [T [S [-> ->]]]] [e' [T' [S' [-> ->]]]] Mt.
  destruct (tree_sees _ T) as [anc [_ [Se Be]]]. destruct (tree_sees _ T') as [anc' [_ [Se' Be']]].
  eapply (cp_views _ _ _ _ CP); [exact Se|eapply msc_scalar; eassumption|exact Se'|eapply msc_scalar; eassumption|exact Mt].
Qed.
Lemma item_ptr : forall a z, item a z true -> z = 8.
Proof.
  intros a z [e [T [S [-> ->]]]]. destruct (tree_sees _ T) as [anc [_ [_ Be]]]. pose proof (msc_scalar _ _ _ Be S) as X. inversion X; reflexivity.
Qed.

Definition nulls_left : Prop := mo_uptr M = UPTR_fail \/ mo_uptr M = UPTR_as_one_byte_ptr.
Record Inv (W : Z -> Z -> bool -> Prop) (cm : mem) : Prop := {
  iv_ok : bytes_ok cm;
  iv_frame : forall b, ~ target_byte R b -> cm b = m0 b;
  iv_null : nulls_left -> forall a, item a 8 true -> number_at m0 a 8 = 0 -> done R m0 cm a 8 true;
  iv_done : forall a z b, W a z b -> item a z b /\ done R m0 cm a z b;
}.
Definition add (W : Z -> Z -> bool -> Prop) (a z : Z) (b : bool) : Z -> Z -> bool -> Prop := fun a' z' b' => W a' z' b' \/ (a' = a /\ z' = z /\ b' = b).
Lemma write_inv : forall W cm cm' a z b r, Inv W cm -> item a z b -> In r R -> in_region r a z -> bytes_ok cm' ->
  (forall x, ~ (moved r a <= x < moved r a + z) -> cm' x = cm x) -> image R m0 cm' r a z b -> Inv (add W a z b) cm'.
Proof.
  intros W cm cm' a z b r [I1 I2 I3 I4] It Ir Ar Bo Out Im.
  assert (Zb : b = true -> z = 8) by (intros ->; eapply item_ptr; exact It).
  assert (Keep : forall ax zx bx, item ax zx bx -> done R m0 cm ax zx bx -> done R m0 cm' ax zx bx).
  { intros ax zx bx Ix Dx. eapply (done_keep R RS RD m0 cm cm' a z b r); try eassumption.
    - intros ->. eapply item_ptr. exact Ix.
    - intro Mt. eapply item_views; eassumption. }
  constructor.
  - exact Bo.
  - intros x X. rewrite Out; [apply I2; exact X|]. intro K. apply X. exists r. split; [exact Ir|]. unfold in_region in Ar. unfold moved in K. lia.
  - intros N ax Ix Nx. apply Keep; [exact Ix|]. apply I3; assumption.
  - intros ax zx bx [Wx|[-> [-> ->]]].
    + destruct (I4 _ _ _ Wx) as [Ix Dx]. split; [exact Ix|apply Keep; assumption].
    + split; [exact It|]. intros r' Ir' Ar'.
      destruct (Z.eq_dec z 0) as [Z0|Z0].
      { destruct b; [specialize (Zb eq_refl); lia|]. cbn. intros i I. lia. }
      assert (Zp : 0 < z). { unfold in_region in Ar, Ar'. destruct It as [e [T [_ [_ ->]]]]. destruct (tree_sees _ T) as [anc [_ [_ Be]]].
        pose proof (extent_nonneg _ _ _ _ _ _ (built_extent _ _ _ _ _ Be)). lia. }
      assert (r' = r). { unfold in_region in *. apply (region_eq R RS r' r a); try assumption; lia. } subst r'. exact Im.
Qed.
(** nothing to write *)
Lemma same_inv : forall W cm a z b, Inv W cm -> item a z b -> done R m0 cm a z b -> Inv (add W a z b) cm.
Proof.
  intros W cm a z b [I1 I2 I3 I4] It D. constructor; try assumption. intros ax zx bx [Wx|[-> [-> ->]]]; [apply I4; exact Wx|]. split; assumption.
Qed.
Lemma source_bytes : forall W cm r a, Inv W cm -> In r R -> r_src r <= a < r_src r + r_size r -> cm a = m0 a.
Proof. intros W cm r a I Ir Ar. apply (iv_frame _ _ I). eapply source_safe; eassumption. Qed.
Lemma source_number : forall W cm r a k, Inv W cm -> In r R -> in_region r a (Z.of_nat k) -> number_at cm a k = number_at m0 a k.
Proof. intros W cm r a k I Ir Ar. apply number_ext. intros x X. unfold in_region in Ar. eapply source_bytes; [exact I|exact Ir|lia]. Qed.

Lemma in_tree_trans : forall x y z, in_tree x y -> in_tree y z -> in_tree x z.
Proof. intros x y z H K. induction K as [|e c I K IH]; [exact H|]. eapply it_child; eassumption. Qed.
Lemma child_in : forall e c, in_tree e top -> In c (me_ch e) -> in_tree c top.
Proof. intros e c T I. eapply in_tree_trans; [|exact T]. eapply it_child; [exact I|apply it_here]. Qed.

(** the value the copy of [x] is written to *)
Definition twin (x y : value) : Prop :=
  (forall f, final_type d (Some (v_entry x)) f <-> final_type d (Some (v_entry y)) f) /\ (plain d x -> plain d y).
Lemma twin_self : forall x a, twin x (Build_value (v_entry x) a).
Proof. intros x a. split; [reflexivity|intro P; exact P]. Qed.
Lemma twin_info : forall x y i, twin x y -> has_info d x i -> has_info d y i.
Proof. intros x y i [T _] [e [F I]]. exists e. split; [apply T; exact F|exact I]. Qed.

Variable off : list (nat * Z).
Variable tab : list (Z * Z).
Hypothesis CB : forall e c t, in_tree e top -> In c (me_ch e) -> has_info d (me_val e) (IPointer t) ->
  exists rc, In rc R /\ in_region rc (addr c) (me_size c) /\ 0 < me_size c /\ forall s, child_block M cal off tab c s = (0, s) \/ child_block M cal off tab c s = (moved rc (addr c), s).

Definition ancs (W : Z -> Z -> bool -> Prop) : list value -> list value -> Prop :=
  Forall2 (fun a b => forall t p, points d m0 a t p -> exists r, In r R /\ in_region r (v_addr a) 8 /\ v_addr b = moved r (v_addr a) /\ W (v_addr a) 8 true).
Lemma ancs_mono : forall (W W' : Z -> Z -> bool -> Prop) l l', (forall a z b, W a z b -> W' a z b) -> ancs W l l' -> ancs W' l l'.
Proof.
  intros W W' l l' S F. induction F as [|a b l l' H F IH]; constructor; [|exact IH]. intros t p P. destruct (H t p P) as [r [A1 [A2 [A3 A4]]]].
  exists r. split; [exact A1|]. split; [exact A2|]. split; [exact A3|]. apply S. exact A4.
Qed.

Lemma fits_node : forall anc e, sees E M m0 v anc (me_val e) -> built_ok E M m0 anc e -> 0 < addr e /\ 0 <= me_size e /\ addr e + me_size e < 2 ^ 64.
Proof.
  intros anc e S Be. pose proof (built_extent _ _ _ _ _ Be) as X. destruct (cp_fits _ _ _ _ CP _ _ _ S X). pose proof (extent_nonneg _ _ _ _ _ _ X). lia.
Qed.
Lemma part_region : forall anc e c r sz ch, sees E M m0 v anc (me_val e) -> built_ok E M m0 anc e -> looks E M m0 anc (me_val e) (VNode sz ch) ->
  In c (me_ch e) -> In r R -> in_region r (addr e) (me_size e) -> in_region r (addr c) (me_size c) /\ addr e <= addr c.
Proof.
  intros anc e c r sz ch S Be L Ic Ir Ar. destruct (built_looks _ _ _ _ _ Be) as [w [_ [Lw K]]].
  destruct (node_info _ _ _ _ _ _ _ L) as [i [I Ki]].
  assert (NP : forall t p, points d m0 (me_val e) t p -> False).
  { intros t p P. pose proof (has_info_fun _ _ _ _ I (points_info _ _ _ _ _ P)) as ->. contradiction. }
  destruct w as [|sz1|sz1 lv|sz1 chs|sz1 t1|ca]; [contradiction| | | | |].
  - destruct K as [_ [_ K]]. rewrite K in Ic. destruct Ic.
  - destruct K as [_ [_ K]]. rewrite K in Ic. destruct Ic.
  - destruct K as [_ [-> [F G]]]. rewrite Forall_forall in F. pose proof (F c Ic) as Bc.
    assert (Sc : sees E M m0 v (me_val e :: anc) (me_val c)) by (eapply se_node; [exact S|exact Lw|apply in_map; exact Ic]).
    pose proof (cp_parts _ _ _ _ CP _ _ _ _ _ S Lw (in_map me_val _ _ Ic)) as P. destruct (fits_node _ _ Sc Bc) as [F1 [F2 F3]].
    apply grow_ends in G. destruct (fits_node _ _ S Be) as [F4 _].
    assert (J : In ((addr c - addr e + me_size c) mod 2 ^ 64) (ends (me_val e) (map me_val (me_ch e)) (map me_size (me_ch e)))).
    { clear - Ic. induction (me_ch e) as [|x l IH]; [destruct Ic|]. destruct Ic as [->|Ic]; [left; reflexivity|right; apply IH; exact Ic]. }
    apply (fold_max_in _ sz1) in J. rewrite <- G in J. rewrite Z.mod_small in J by lia. unfold in_region in *. split; [lia|exact P].
  - exfalso. inversion Lw as [| | | |sz' p' w' T' NL' S'| | | | |]; subst. destruct (target_points _ _ _ _ _ _ _ T') as [_ [t' P']]. eapply NP. exact P'.
  - exfalso. destruct (call_info _ _ _ _ _ _ Lw) as [ic [Hc Kc]]. eapply node_not_call; eassumption.
Qed.

Lemma final_some : forall e i, final_info E e = Ret (Some i) -> has_info d e i.
Proof. apply final_info_some. Qed.
Lemma set_pointer_store : forall cm y x m', value_set_pointer n d cm y x = Ret (0, m') -> m' = store cm (v_addr y) 8 x.
Proof.
  intros cm y x m' H. unfold value_set_pointer in H. apply bind_ret in H. destruct H as [[e|] [_ H]]; [|discriminate]. injection H as <-. reflexivity.
Qed.
Lemma copy_pointer_store : forall cm x y m', value_copy_pointer n d cm x y = Ret (true, m') -> m' = store cm (v_addr y) 8 (number_at cm (v_addr x) 8).
Proof.
  intros cm x y m' H. unfold value_copy_pointer in H. apply bind_ret in H. destruct H as [[er|p] [P H]]; [discriminate|].
  apply bind_ret in H. destruct H as [[st mm] [S H]]. cbn [fst snd] in H. injection H as Q <-. apply Z.eqb_eq in Q. subst st. apply set_pointer_store in S. subst mm.
  apply pointer_ret in P. destruct P as [t [_ ->]]. reflexivity.
Qed.

Lemma store_inv : forall W cm e dst r b k x, Inv W cm -> item (addr e) (me_size e) b -> In r R -> in_region r (addr e) (me_size e) ->
  v_addr dst = moved r (addr e) -> Z.of_nat k = me_size e -> image R m0 (store cm (v_addr dst) k x) r (addr e) (me_size e) b ->
  Inv (add W (addr e) (me_size e) b) (store cm (v_addr dst) k x).
Proof.
  intros W cm e dst r b k x I It Ir Ar D K Im. eapply write_inv; try eassumption.
  - apply store_bytes_ok. apply (iv_ok _ _ I).
  - intros y Y. apply store_out. rewrite D, K. exact Y.
Qed.
Lemma base_inv : forall W cm e dst r z c anc m', Inv W cm -> in_tree e top -> sees E M m0 v anc (me_val e) -> built_ok E M m0 anc e -> In r R -> in_region r (addr e) (me_size e) ->
  v_addr dst = moved r (addr e) -> twin (me_val e) dst -> has_info d (me_val e) (IBase z c) ->
  value_copy_base_type n d g cm (me_val e) dst = Ret (true, m') -> Inv (add W (addr e) (me_size e) false) m'.
Proof.
  intros W cm e dst r z c anc m' I T S Be Ir Ar D Tw HI H. destruct (copy_base_sound _ _ _ _ _ _ _ _ H) as [H1 _]. destruct (H1 eq_refl) as [k [K1 [K2 [_ [x [G Ss]]]]]].
  destruct (cp_base _ _ _ _ CP _ _ _ _ S HI) as [k' [name [encs [sg [Q1 [Q2 Q3]]]]]]. assert (k' = k) by (eapply has_ctype_fun; eassumption). subst k'.
  apply table_fun in Q3. destruct Q3 as [_ [Q3 _]]. destruct Tw as [_ Tw]. apply value_set_store in Ss; [|apply Tw; exact Q2].
  apply value_get_sound in G. destruct G as [_ G]. specialize (G Q2). subst m'.
  assert (It : item (addr e) (me_size e) false). { exists e. split; [exact T|]. split; [|split; reflexivity]. eexists. split; [exact HI|reflexivity]. }
  assert (Sz : me_size e = ct_size k).
  { assert (SO : size_of d (me_val e) (me_size e)).
    { pose proof (built_extent _ _ _ _ _ Be) as X. inversion X as [anc0 v0 sz i' I' K' S'|anc0 v0 sz ch zs N F|anc0 v0 ic Ic Kc]; subst; [exact S'| |pose proof (has_info_fun _ _ _ _ HI Ic) as <-; contradiction].
      destruct (node_info _ _ _ _ _ _ _ N) as [i' [I' K']]. pose proof (has_info_fun _ _ _ _ HI I') as <-. contradiction. }
    pose proof (info_size E _ _ _ HI SO) as Q. cbn in Q. rewrite Q. subst z. destruct k; reflexivity. }
  pose proof (ct_size_pos k) as Kp. eapply store_inv; try eassumption; [rewrite Z2Nat.id; lia|]. cbn [image]. intros i Hi. rewrite <- D. rewrite store_copy with (a := addr e).
  - eapply source_bytes; [exact I|exact Ir|]. unfold in_region in Ar. lia.
  - apply (iv_ok _ _ I).
  - rewrite G. apply Z.mod_small. apply number_range. apply (iv_ok _ _ I).
  - rewrite Z2Nat.id; lia.
Qed.
Lemma enum_inv : forall W cm e dst r z l anc m', Inv W cm -> in_tree e top -> sees E M m0 v anc (me_val e) -> built_ok E M m0 anc e -> In r R -> in_region r (addr e) (me_size e) ->
  v_addr dst = moved r (addr e) -> twin (me_val e) dst -> has_info d (me_val e) (IEnum z l) ->
  value_copy_enumeration n d cm (me_val e) dst = Ret (true, m') -> Inv (add W (addr e) (me_size e) false) m'.
Proof.
  intros W cm e dst r z l anc m' I T S Be Ir Ar D Tw HI H.
  assert (It : item (addr e) (me_size e) false). { exists e. split; [exact T|]. split; [|split; reflexivity]. eexists. split; [exact HI|reflexivity]. }
  assert (SO : me_size e = z mod 2 ^ 64).
  { assert (SO : size_of d (me_val e) (me_size e)).
    { pose proof (built_extent _ _ _ _ _ Be) as X. inversion X as [anc0 v0 sz i' I' K' S'|anc0 v0 sz ch zs N F|anc0 v0 ic Ic Kc]; subst; [exact S'| |pose proof (has_info_fun _ _ _ _ HI Ic) as <-; contradiction].
      destruct (node_info _ _ _ _ _ _ _ N) as [i' [I' K']]. pose proof (has_info_fun _ _ _ _ HI I') as <-. contradiction. }
    apply (info_size E _ _ _ HI SO). }
  assert (ES : forall y q, has_info d y (IEnum z l) -> forall f, final_if n d (Some (v_entry y)) is_enum_info = Ret (Some f) -> enum_size n d f = Ret (inl q) -> q = me_size e).
  { intros y q [f' [F' I']] f F Q. apply final_if_some in F. destruct F as [F _]. pose proof (final_type_fun _ _ _ _ F F') as X. injection X as ->.
    unfold enum_size in Q. apply byte_size_spec in Q. destruct Q as [z2 [HS ->]]. assert (z2 = z) by (eapply has_size_fun; [exact HS|eapply hs_enum; exact I']). subst z2. rewrite SO. reflexivity. }
  unfold value_copy_enumeration in H. apply bind_ret in H. destruct H as [[er|x] [G H]]; [discriminate|]. apply bind_ret in H. destruct H as [[st mm] [Ss H]]. cbn [fst snd] in H.
  injection H as Q <-. apply Z.eqb_eq in Q. subst st.
  unfold value_enumeration in G. apply bind_ret in G. destruct G as [[f|] [F G]]; [|discriminate]. apply bind_ret in G. destruct G as [[q|] [Q G]]; [|discriminate].
  apply (ES _ _ HI _ F) in Q. subst q. destruct (is_word (me_size e)) eqn:Wd; [|discriminate]. injection G as <-.
  unfold value_set_enumeration in Ss. apply bind_ret in Ss. destruct Ss as [[f'|] [F' Ss]]; [|discriminate]. apply bind_ret in Ss. destruct Ss as [[q|] [Q Ss]]; [|discriminate].
  apply (ES _ _ (twin_info _ _ _ Tw HI) _ F') in Q. subst q. rewrite Wd in Ss. injection Ss as <-. apply word_iff in Wd.
  assert (Wp : 0 < me_size e) by (unfold word in Wd; lia).
  eapply store_inv; try eassumption; [rewrite Z2Nat.id; lia|]. cbn [image]. intros i Hi. rewrite <- D. rewrite store_copy with (a := addr e).
  - eapply source_bytes; [exact I|exact Ir|]. unfold in_region in Ar. lia.
  - apply (iv_ok _ _ I).
  - rewrite Z2Nat.id by lia. rewrite swrap_mod by lia. rewrite load_number. apply Z.mod_small. pose proof (number_range cm (addr e) (Z.to_nat (me_size e)) (iv_ok _ _ I)) as NR.
    rewrite Z2Nat.id in NR by lia. exact NR.
  - rewrite Z2Nat.id; lia.
Qed.

Hypothesis Dag : mo_tree M = false.
Lemma pointer_inv : forall W cm e dst r t x, Inv W cm -> in_tree e top -> In r R -> in_region r (addr e) (me_size e) -> v_addr dst = moved r (addr e) -> has_info d (me_val e) (IPointer t) ->
  x = (if number_at m0 (addr e) 8 =? 0 then 0 else tau R (number_at m0 (addr e) 8)) -> 0 <= x < 2 ^ 64 ->
  Inv (add W (addr e) 8 true) (store cm (v_addr dst) 8 x).
Proof.
  intros W cm e dst r t x I T Ir Ar D HI X Rx.
  assert (It : item (addr e) (me_size e) true). { exists e. split; [exact T|]. split; [|split; reflexivity]. eexists. split; [exact HI|reflexivity]. }
  pose proof (item_ptr _ _ It) as S8. rewrite <- S8. eapply store_inv; try eassumption; [lia|]. cbn [image]. rewrite <- D, number_store by exact Rx. exact X.
Qed.
Lemma moved_range : forall r a, In r R -> r_src r <= a < r_src r + r_size r -> 0 < moved r a < 2 ^ 64.
Proof. intros r a I A. destruct (RF r I) as [A1 [A2 [A3 [A4 A5]]]]. unfold moved. lia. Qed.

(** what the start state of an entry does *)
Lemma here_inv : forall W s e dst r ancS ancD over s', (forall i, has_info d (me_val e) i -> ~ callable i) -> Inv W (c_mem s) -> in_tree e top -> sees E M m0 v ancS (me_val e) -> built_ok E M m0 ancS e -> In r R ->
  in_region r (addr e) (me_size e) -> v_addr dst = moved r (addr e) -> twin (me_val e) dst -> ancs W ancS ancD ->
  copy_here E M cal off tab ancD e dst s = Ret (Some over, s') ->
  exists W', Inv W' (c_mem s') /\ (forall a z b, W a z b -> W' a z b) /\ (forall b, msc e b -> W' (addr e) (me_size e) b) /\
    match over with
    | None => me_ch e = [] \/ exists sz ch, looks E M m0 ancS (me_val e) (VNode sz ch)
    | Some a => exists c rc, me_ch e = [c] /\ In rc R /\ in_region rc (addr c) (me_size c) /\ a = moved rc (addr c)
    end.
Proof.
  intros W s e dst r ancS ancD over s' NC I T S Be Ir Ar D Tw An H.
  destruct (fits_node _ _ S Be) as [Fe1 [Fe2 Fe3]].
  unfold copy_here in H. apply bind_ret in H. destruct H as [f [F H]]. cbv zeta in H.
  assert (Uniq : forall i b, has_info d (me_val e) i -> msc e b -> match i with IBase _ _ | IEnum _ _ => b = false | IPointer _ => b = true
     | IAggr AUnion _ _ => me_ch e = [] /\ mo_union M = UNION_as_mem /\ b = false | _ => False end).
  { intros i b Hi [i' [Hi' K]]. pose proof (has_info_fun _ _ _ _ Hi Hi') as <-. exact K. }
  assert (Same : forall W' cm', Inv W' cm' -> (forall a z b, W a z b -> W' a z b) -> (forall b, msc e b -> W' (addr e) (me_size e) b) -> me_ch e = [] -> c_mem s' = cm' -> over = None ->
     exists W', Inv W' (c_mem s') /\ (forall a z b, W a z b -> W' a z b) /\ (forall b, msc e b -> W' (addr e) (me_size e) b) /\
    match over with
    | None => me_ch e = [] \/ exists sz ch, looks E M m0 ancS (me_val e) (VNode sz ch)
    | Some a => exists c rc, me_ch e = [c] /\ In rc R /\ in_region rc (addr c) (me_size c) /\ a = moved rc (addr c)
    end).
  { intros W' cm' J1 J2 J3 J4 J5 J6. exists W'. rewrite J5. split; [exact J1|]. split; [exact J2|]. split; [exact J3|]. rewrite J6. left. exact J4. }
  destruct (built_looks _ _ _ _ _ Be) as [w [_ [Lw K]]].
  assert (Leaf : forall i, has_info d (me_val e) i -> match i with IBase _ _ | IEnum _ _ => True | _ => False end -> me_ch e = []).
  { intros i Hi Ki. destruct w as [|sz1|sz1 lv|sz1 chs|sz1 t1|ca]; [contradiction|apply K|apply K| | |].
    - destruct (node_info _ _ _ _ _ _ _ Lw) as [i' [Hi' Ki']]. pose proof (has_info_fun _ _ _ _ Hi Hi') as <-. destruct i; contradiction.
    - inversion Lw as [| | | |sz' p' w' T' NL' S'| | | | |]; subst. destruct (target_points _ _ _ _ _ _ _ T') as [_ [t' P']].
      pose proof (has_info_fun _ _ _ _ Hi (points_info _ _ _ _ _ P')) as ->. contradiction.
    - destruct (call_info _ _ _ _ _ _ Lw) as [ic [Hc Kc]]. pose proof (has_info_fun _ _ _ _ Hi Hc) as <-. destruct i; contradiction. }
  destruct (built_info _ _ _ _ _ Be) as [f0 [F0 DI]]. rewrite F in F0. injection F0 as ->.
  assert (Hf : has_info d (me_val e) f0) by (apply final_info_some; exact F).
  (* nothing is written and nothing has to be *)
  assert (Skip : (forall b, msc e b -> False) -> s' = s -> over = None -> (me_ch e = [] \/ exists sz ch, looks E M m0 ancS (me_val e) (VNode sz ch)) ->
     exists W', Inv W' (c_mem s') /\ (forall a z b, W a z b -> W' a z b) /\ (forall b, msc e b -> W' (addr e) (me_size e) b) /\
    match over with
    | None => me_ch e = [] \/ exists sz ch, looks E M m0 ancS (me_val e) (VNode sz ch)
    | Some a => exists c rc, me_ch e = [c] /\ In rc R /\ in_region rc (addr c) (me_size c) /\ a = moved rc (addr c)
    end).
  { intros NM -> -> Q. exists W. split; [exact I|]. split; [auto|]. split; [|exact Q]. intros b Hb. destruct (NM b Hb). }
  assert (Node : match f0 with IBase _ _ | IEnum _ _ | IPointer _ => False | _ => True end -> exists sz ch, looks E M m0 ancS (me_val e) (VNode sz ch)).
  { intro Q. destruct w as [|sz1|sz1 lv|sz1 chs|sz1 t1|ca]; [contradiction| | |exists sz1, chs; exact Lw| |]; exfalso.
    - inversion Lw as [sz' i' I1 K1' S1|sz' t' P' S1|sz' t' p' P' N1 N2 O Hh U' S1| | | | | | |]; subst.
      + pose proof (has_info_fun _ _ _ _ Hf I1) as <-. destruct f0; contradiction.
      + pose proof (has_info_fun _ _ _ _ Hf (points_info _ _ _ _ _ P')) as ->. contradiction.
      + pose proof (has_info_fun _ _ _ _ Hf (points_info _ _ _ _ _ P')) as ->. contradiction.
    - inversion Lw as [| | |sz' t' p' l' P' N1 LA S1| | | | | |]; subst. pose proof (has_info_fun _ _ _ _ Hf (points_info _ _ _ _ _ P')) as ->. contradiction.
    - inversion Lw as [| | | |sz' p' w' T' NL' S'| | | | |]; subst. destruct (target_points _ _ _ _ _ _ _ T') as [_ [t' P']].
      pose proof (has_info_fun _ _ _ _ Hf (points_info _ _ _ _ _ P')) as ->. contradiction.
    - destruct (call_info _ _ _ _ _ _ Lw) as [ic [Hc Kc]]. exact (NC _ Hc Kc). }
  assert (Skip2 : match f0 with IBase _ _ | IEnum _ _ | IPointer _ => False | _ => True end -> (forall b, msc e b -> False) -> Ret (Some None, s) = Ret (Some over, s') ->
     exists W', Inv W' (c_mem s') /\ (forall a z b, W a z b -> W' a z b) /\ (forall b, msc e b -> W' (addr e) (me_size e) b) /\
    match over with
    | None => me_ch e = [] \/ exists sz ch, looks E M m0 ancS (me_val e) (VNode sz ch)
    | Some a => exists c rc, me_ch e = [c] /\ In rc R /\ in_region rc (addr c) (me_size c) /\ a = moved rc (addr c)
    end).
  { intros Q NM X. injection X as <- <-. apply Skip; auto. }
  destruct f0 as [ | |z c|t| |z l|t c| |k z l| |pa pt| | | ]; try contradiction DI;
    try (apply Skip2; [exact Logic.I|intros b Hb; apply (Uniq _ _ Hf Hb)|exact H]).
  - (* base type *)
    apply bind_ret in H. destruct H as [[b m'] [H1 H]]. cbn [fst snd] in H. destruct b; [|discriminate]. injection H as <- <-.
    eapply Same; [eapply base_inv; eassumption|left; assumption| |eapply Leaf; [exact Hf|exact Logic.I]|reflexivity|reflexivity].
    intros b Hb. pose proof (Uniq _ _ Hf Hb) as Q. cbn in Q. subst b. right. auto.
  - (* pointer *)
    assert (It : item (addr e) (me_size e) true). { exists e. split; [exact T|]. split; [|split; reflexivity]. eexists. split; [exact Hf|reflexivity]. }
    pose proof (item_ptr _ _ It) as S8.
    assert (Mine : forall W' , (forall a z b, add W (addr e) 8 true a z b -> W' a z b) -> forall b, msc e b -> W' (addr e) (me_size e) b).
    { intros W' Sub b Hb. pose proof (Uniq _ _ Hf Hb) as Q. cbn in Q. subst b. rewrite S8. apply Sub. right. auto. }
    assert (Src : number_at (c_mem s) (addr e) 8 = number_at m0 (addr e) 8).
    { eapply source_number; [exact I|exact Ir|]. rewrite S8 in Ar. exact Ar. }
    assert (N64 : 0 <= number_at m0 (addr e) 8 < 2 ^ 64) by (apply (number_range m0 (addr e) 8); apply (cp_bytes _ _ _ _ CP)).
    destruct (me_ch e) as [|c0 rest] eqn:Ch.
    + destruct (0 <? me_loop e) eqn:Lp.
      * (* a loop *)
        assert (LA : exists p, p <> 0 /\ p = number_at m0 (addr e) 8 /\ loop_at d m0 ancS p (me_loop e)).
        { destruct w as [|sz1|sz1 lv|sz1 chs|sz1 t1|ca]; [contradiction| | | | |].
          - destruct K as [_ [K _]]. lia.
          - inversion Lw as [| | |sz' t' p' l' P' N1 LA S1| | | | | |]; subst. destruct K as [_ [-> _]]. exists p'. split; [exact N1|]. split; [apply P'|exact LA].
          - destruct K as [K _]. lia.
          - destruct K as [_ [K _]]. lia.
          - destruct K as [_ [K _]]. lia. }
        destruct LA as [p [NZ [P [pre [a [post [ta [Q [Ql [Pa _]]]]]]]]]].
        assert (Nb : exists b, nth_error ancD (Z.to_nat (me_loop e - 1)) = Some b /\ exists ra, In ra R /\ in_region ra (v_addr a) 8 /\ v_addr b = moved ra (v_addr a) /\ W (v_addr a) 8 true).
        { clear - An Q Ql Pa. replace (Z.to_nat (me_loop e - 1)) with (length pre) by lia. clear Ql. revert ancS ancD An Q. induction pre as [|y pre IH]; intros ancS ancD An Q; subst ancS; inversion An as [|? b' ? l' A1 A2]; subst.
          - exists b'. split; [reflexivity|]. eapply A1. exact Pa.
          - destruct (IH _ _ A2 eq_refl) as [b [B1 B2]]. exists b. split; [exact B1|exact B2]. }
        destruct Nb as [b [Nb [ra [Ra1 [Ra2 [Ra3 Ra4]]]]]]. rewrite Nb in H. apply bind_ret in H. destruct H as [is [_ H]]. destruct is; [|discriminate].
        apply bind_ret in H. destruct H as [[ok m'] [H1 H]]. cbn [fst snd] in H. destruct ok; [|discriminate]. injection H as <- <-.
        apply copy_pointer_store in H1. rewrite Ra3 in H1.
        destruct (iv_done _ _ I _ _ _ Ra4) as [_ Dn]. specialize (Dn ra Ra1 Ra2). cbn [image] in Dn. rewrite Dn in H1.
        assert (Pq : number_at m0 (v_addr a) 8 = p) by (symmetry; apply Pa). rewrite Pq in H1. subst m'.
        (* p leads into a region *)
        assert (Tp : 0 <= (if p =? 0 then 0 else tau R p) < 2 ^ 64).
        { rewrite <- Pq. rewrite <- Dn. apply (number_range (c_mem s) (moved ra (v_addr a)) 8). apply (iv_ok _ _ I). }
        exists (add W (addr e) 8 true). split; [cbn [c_mem with_mem]; eapply (pointer_inv W _ e dst r t); try eassumption; rewrite <- P; reflexivity|]. split; [left; assumption|]. split; [apply Mine; auto|]. left. reflexivity.
      * (* NULL *)
        assert (P0 : number_at m0 (addr e) 8 = 0).
        { destruct w as [|sz1|sz1 lv|sz1 chs|sz1 t1|ca]; [contradiction| | | | |].
          - inversion Lw as [sz' i' I1 K1' S1|sz' t' P' S1|sz' t' p' P' N1 N2 O Hh U' S1| | | | | | |]; subst.
            + pose proof (has_info_fun _ _ _ _ Hf I1) as <-. contradiction.
            + symmetry. apply P'.
            + exfalso. eapply (cp_opaque _ _ _ _ CP); try eassumption.
          - exfalso. destruct K as [_ [K _]]. inversion Lw as [| | |sz' t' p' l' P' N1 LA S1| | | | | |]; subst. destruct LA as [pre [a [post [ta [_ [LA _]]]]]]. lia.
          - exfalso. destruct (node_info _ _ _ _ _ _ _ Lw) as [i' [Hi' Ki']]. pose proof (has_info_fun _ _ _ _ Hf Hi') as <-. contradiction.
          - destruct K as [_ [_ [c [K _]]]]. discriminate.
          - exfalso. destruct (call_info _ _ _ _ _ _ Lw) as [ic [Hc Kc]]. exact (NC _ Hc Kc). }
        assert (Wr : forall m', m' = store (c_mem s) (v_addr dst) 8 0 -> Inv (add W (addr e) 8 true) m').
        { intros m' ->. eapply pointer_inv; try eassumption; [|lia]. rewrite P0. reflexivity. }
        assert (Lv : nulls_left -> Inv (add W (addr e) 8 true) (c_mem s)).
        { intro NL. rewrite <- S8. apply same_inv; [exact I|exact It|]. rewrite S8 in It |- *. apply (iv_null _ _ I NL _ It P0). }
        destruct (mo_uptr M) eqn:UM.
        all: first
          [ injection H as <- <-; exists (add W (addr e) 8 true); split; [apply Lv; unfold nulls_left; auto|]; split; [left; assumption|]; split; [apply Mine; auto|left; reflexivity]
          | apply bind_ret in H; destruct H as [[st m'] [H1 H]]; cbn [fst snd] in H; destruct (st =? 0) eqn:St; [|discriminate]; apply Z.eqb_eq in St; subst st; injection H as <- <-;
            apply set_pointer_store in H1; exists (add W (addr e) 8 true); split; [apply Wr; exact H1|]; split; [left; assumption|]; split; [apply Mine; auto|left; reflexivity]
          | apply bind_ret in H; destruct H as [[ok m'] [H1 H]]; cbn [fst snd] in H; destruct ok; [|discriminate]; injection H as <- <-;
            apply copy_pointer_store in H1; rewrite Src, P0 in H1; exists (add W (addr e) 8 true); split; [apply Wr; exact H1|]; split; [left; assumption|]; split; [apply Mine; auto|left; reflexivity] ].
    + (* a pointer with its target *)
      destruct (CB e c0 t T) as [rc [C1 [C2 [C3 C4]]]]; [rewrite Ch; left; reflexivity|exact Hf|]. destruct (C4 s) as [C5|C5]; rewrite C5 in H; [discriminate|].
      destruct (_ =? 0) eqn:Z0 in H; [discriminate|]. apply bind_ret in H. destruct H as [[er|p] [P H]]; [discriminate|]. apply pointer_ret in P. destruct P as [t' [_ P]]. rewrite Src in P.
      destruct (p =? 0) eqn:Zp; [discriminate|]. apply bind_ret in H. destruct H as [[st m'] [H1 H]]. cbn [fst snd] in H. destruct (st =? 0) eqn:St; [|discriminate].
      apply Z.eqb_eq in St. subst st. injection H as <- <-. apply set_pointer_store in H1.
      assert (Pi : addr c0 <= p < addr c0 + me_size c0 /\ rest = []).
      { destruct w as [|sz1|sz1 lv|sz1 chs|sz1 t1|ca]; [contradiction| | | | |].
        - destruct K as [_ [_ K]]. discriminate.
        - destruct K as [_ [_ K]]. discriminate.
        - exfalso. destruct (node_info _ _ _ _ _ _ _ Lw) as [i' [Hi' Ki']]. pose proof (has_info_fun _ _ _ _ Hf Hi') as <-. contradiction.
        - destruct K as [_ [_ [c [K1 [K2 K3]]]]]. injection K1 as -> ->. split; [|reflexivity]. subst t1. inversion Lw as [| | | |sz' p' w' T' NL' S'| | | | |]; subst.
          destruct (target_points _ _ _ _ _ _ _ T') as [_ [t1 P1]]. assert (p' = number_at m0 (addr e) 8) by apply P1. subst p'.
          eapply (cp_inside _ _ _ _ CP); [exact S|exact T'|]. apply (built_extent _ _ _ _ _ K3).
        - exfalso. destruct (call_info _ _ _ _ _ _ Lw) as [ic [Hc Kc]]. exact (NC _ Hc Kc). }
      destruct Pi as [Pi Rest]. subst rest.
      assert (Pv : uwrap 64 (moved rc (addr c0) + uwrap 64 (p - addr c0)) = tau R p).
      { unfold in_region in C2. rewrite (tau_in R RS rc p C1) by lia. destruct (RF rc C1) as [A1 [A2 [A3 [A4 A5]]]]. rewrite (uwrap_small 64 (p - addr c0)) by lia. unfold moved.
        rewrite uwrap_small by lia. lia. }
      rewrite Pv in H1. exists (add W (addr e) 8 true). split; [|split; [left; assumption|split; [apply Mine; auto|exists c0, rc; auto]]].
      cbn [c_mem with_mem]. subst m'. eapply (pointer_inv W _ e dst r t); try eassumption.
      * rewrite <- P, Zp. reflexivity.
      * rewrite <- Pv. apply uwrap_range. lia.
  - (* enumeration *)
    apply bind_ret in H. destruct H as [[b m'] [H1 H]]. cbn [fst snd] in H. destruct b; [|discriminate]. injection H as <- <-.
    eapply Same; [eapply enum_inv; eassumption|left; assumption| |eapply Leaf; [exact Hf|exact Logic.I]|reflexivity|reflexivity].
    intros b Hb. pose proof (Uniq _ _ Hf Hb) as Q. cbn in Q. subst b. right. auto.
  - (* struct, union *)
    destruct k; try (apply Skip2; [exact Logic.I|intros b Hb; apply (Uniq _ _ Hf Hb)|exact H]).
    destruct (me_ch e) as [|c0 rest] eqn:Ch.
    2:{ apply Skip2; [exact Logic.I| |exact H]. intros b Hb. pose proof (Uniq _ _ Hf Hb) as Q. cbn in Q. destruct Q as [Q _]. discriminate. }
    assert (Un : mo_union M <> UNION_as_mem -> forall b, msc e b -> False).
    { intros Q b Hb. pose proof (Uniq _ _ Hf Hb) as X. cbn in X. tauto. }
    destruct (mo_union M) eqn:UM; try congruence; try (apply Skip2; [exact Logic.I|apply Un; discriminate|exact H]).
    assert (Ms : msc e false). { eexists. split; [exact Hf|]. cbn. auto. }
    assert (It : item (addr e) (me_size e) false) by (exists e; auto).
    assert (Only : forall b, msc e b -> b = false) by (intros b Hb; pose proof (Uniq _ _ Hf Hb) as X; cbn in X; tauto).
    destruct (0 <? me_size e) eqn:Sp; injection H as <- <-.
    + eapply (Same (add W (addr e) (me_size e) false)); [|left; eassumption| |reflexivity|reflexivity|reflexivity].
      * cbn [c_mem with_mem]. eapply (write_inv W (c_mem s) _ (addr e) (me_size e) false r); try eassumption.
        -- apply copy_bytes_ok; apply (iv_ok _ _ I).
        -- intros x X. apply copy_bytes_out. rewrite D. exact X.
        -- cbn [image]. intros i Hi. rewrite <- D. rewrite copy_bytes_in by lia. replace (addr e + (v_addr dst + i - v_addr dst)) with (addr e + i) by lia.
           eapply source_bytes; [exact I|exact Ir|]. unfold in_region in Ar. lia.
      * intros b Hb. rewrite (Only b Hb). right. auto.
    + eapply (Same (add W (addr e) (me_size e) false)); [eapply same_inv; [exact I|exact It|]|left; eassumption| |reflexivity|reflexivity|reflexivity].
      * intros r' _ _ i Hi. lia.
      * intros b Hb. rewrite (Only b Hb). right. auto.
Qed.

Lemma reach_child : forall ancS e c, sees E M m0 v ancS (me_val e) -> built_ok E M m0 ancS e -> In c (me_ch e) ->
  sees E M m0 v (me_val e :: ancS) (me_val c) /\ built_ok E M m0 (me_val e :: ancS) c.
Proof.
  intros ancS e c S Be Ic. destruct (built_looks _ _ _ _ _ Be) as [w [_ [Lw K]]]. destruct w as [|sz1|sz1 lv|sz1 chs|sz1 t1|ca]; [contradiction| | | | |].
  - destruct K as [_ [_ K]]. rewrite K in Ic. destruct Ic.
  - destruct K as [_ [_ K]]. rewrite K in Ic. destruct Ic.
  - destruct K as [_ [-> [F _]]]. rewrite Forall_forall in F. split; [|apply F; exact Ic]. eapply se_node; [exact S|exact Lw|apply in_map; exact Ic].
  - destruct K as [_ [_ [c' [K1 [K2 K3]]]]]. rewrite K1 in Ic. destruct Ic as [<-|[]]. split; [|exact K3]. subst t1. inversion Lw as [| | | |sz' p' w' T' NL' S'| | | | |]; subst. eapply se_ptr; eassumption.
  - destruct (built_call _ _ _ _ _ _ Be Lw) as [-> F]. rewrite Forall_forall in F. split; [|apply F; exact Ic]. eapply se_call; [exact S|exact Lw|apply in_map; exact Ic].
Qed.
(** a captured call is at most the value itself *)
Hypothesis CD : forall anc x i, sees E M m0 v anc x -> has_info d x i -> callable i -> anc = [].
Lemma tree_inv : forall e W s dst r ancS ancD s', (forall i, has_info d (me_val e) i -> ~ callable i) -> Inv W (c_mem s) -> in_tree e top -> sees E M m0 v ancS (me_val e) -> built_ok E M m0 ancS e -> In r R ->
  in_region r (addr e) (me_size e) -> v_addr dst = moved r (addr e) -> twin (me_val e) dst -> ancs W ancS ancD ->
  copy_tree E M cal off tab ancD e dst s = Ret (true, s') ->
  exists W', Inv W' (c_mem s') /\ (forall a z b, W a z b -> W' a z b) /\ (forall x b, in_tree x e -> msc x b -> W' (addr x) (me_size x) b).
Proof.
  intro e. induction e as [i0 v0 sz0 l0 ch0 F] using ment_ind2. set (e := ME i0 v0 sz0 l0 ch0) in *.
  intros W s dst r ancS ancD s' ND I T S Be Ir Ar D Tw An H. rewrite copy_tree_eq in H. apply bind_ret in H. destruct H as [f [Hf H]].
  assert (NC : match f with Some i => is_call_info i | None => false end = false).
  { destruct f as [i|]; [|reflexivity]. apply final_info_some in Hf. pose proof (ND _ Hf) as K.
    destruct i as [ | | | | | | | | | |[|] ?| | | ]; try reflexivity; destruct (K Logic.I). }
  rewrite NC in H. clear NC. apply bind_ret in H. destruct H as [[h s1] [Hh H]].
  destruct h as [over|]; [|discriminate]. cbv zeta in H.
  destruct (here_inv _ _ _ _ _ _ _ _ _ ND I T S Be Ir Ar D Tw An Hh) as [W1 [I1 [Sub1 [Own Ov]]]].
  (* the ancestors of the children *)
  assert (An1 : ancs W1 (me_val e :: ancS) (dst :: ancD)).
  { constructor; [|eapply ancs_mono; [exact Sub1|exact An]]. intros t p P.
    assert (Ms : msc e true) by (eexists; split; [apply (points_info _ _ _ _ _ P)|reflexivity]).
    assert (It : item (addr e) (me_size e) true) by (exists e; auto). pose proof (item_ptr _ _ It) as S8. rewrite S8 in Ar.
    exists r. split; [exact Ir|]. split; [exact Ar|]. split; [exact D|]. rewrite <- S8. apply Own. exact Ms. }
  (* where the children go *)
  assert (Pl : forall c, In c (me_ch e) -> exists rc, In rc R /\ in_region rc (addr c) (me_size c) /\
     match over with Some a => a | None => uwrap 64 (v_addr dst + uwrap 64 (addr c - addr e)) end = moved rc (addr c)).
  { intros c Ic. destruct over as [a|].
    - destruct Ov as [c' [rc [Q1 [Q2 [Q3 Q4]]]]]. rewrite Q1 in Ic. destruct Ic as [<-|[]]. exists rc. auto.
    - destruct Ov as [Q|[sz [ch Q]]]; [rewrite Q in Ic; destruct Ic|]. exists r. split; [exact Ir|].
      destruct (part_region _ _ _ _ _ _ S Be Q Ic Ir Ar) as [Q1 Q2]. split; [exact Q1|]. destruct (RF r Ir) as [A1 [A2 [A3 [A4 A5]]]].
      destruct (reach_child _ _ _ S Be Ic) as [Sc Bc]. destruct (fits_node _ _ Sc Bc) as [_ [Fc _]]. destruct (fits_node _ _ S Be) as [Fe [_ _]].
      unfold in_region in *. rewrite (uwrap_small 64 (addr c - addr e)) by lia. rewrite D. unfold moved. rewrite uwrap_small by lia. lia. }
  clear Hh Ov.
  assert (G : forall l, incl l (me_ch e) -> forall W2 s2 s3, Inv W2 (c_mem s2) -> (forall a z b, W1 a z b -> W2 a z b) ->
     copy_list E M cal off tab ancD e over (match f with Some (IPointer _) => true | _ => false end) dst l s2 = Ret (true, s3) ->
     exists W', Inv W' (c_mem s3) /\ (forall a z b, W2 a z b -> W' a z b) /\ (forall c x b, In c l -> in_tree x c -> msc x b -> W' (addr x) (me_size x) b)).
  { induction l as [|c l IH]; intros Inc W2 s2 s3 I2 Sub2 Hl; cbn [copy_list] in Hl.
    - injection Hl as <-. exists W2. split; [exact I2|]. split; [auto|]. intros c x b [].
    - cbv zeta in Hl. destruct (_ =? 0) in Hl; [discriminate|]. apply bind_ret in Hl. destruct Hl as [[b1 s4] [H1 Hl]]. apply bind_ret in Hl. destruct Hl as [[b2 s5] [H2 Hl]].
      injection Hl as Q Qs. apply andb_true_iff in Q. destruct Q as [-> ->]. rewrite Dag, andb_false_r in Qs. subst s5.
      assert (Ic : In c (me_ch e)) by (apply Inc; left; reflexivity).
      destruct (Pl c Ic) as [rc [P1 [P2 P3]]]. destruct (reach_child _ _ _ S Be Ic) as [Sc Bc].
      rewrite Forall_forall in F. destruct (F c Ic W2 s2 (Build_value (v_entry (me_val c)) (moved rc (addr c))) rc (me_val e :: ancS) (dst :: ancD) s4) as [W3 [I3 [Sub3 All3]]]; try assumption; try reflexivity.
      + intros i Hi Ki. pose proof (CD _ _ _ Sc Hi Ki). discriminate.
      + eapply child_in; eassumption.
      + apply twin_self.
      + eapply ancs_mono; [exact Sub2|exact An1].
      + rewrite <- P3. exact H1.
      + destruct (IH (fun x X => Inc x (or_intror X)) W3 s4 s3 I3) as [W4 [I4 [Sub4 All4]]]; [auto|exact H2|].
        exists W4. split; [exact I4|]. split; [auto|]. intros c' x b [<-|Ic'] Tx Mx; [apply Sub4; eapply All3; eassumption|eapply All4; eassumption]. }
  destruct (G (me_ch e) (fun x X => X) W1 s1 s' I1 (fun a z b X => X) H) as [W' [I' [Sub' All']]].
  exists W'. split; [exact I'|]. split; [auto|]. intros x b Tx Mx. inversion Tx as [|e0 c Ic Tc]; subst; [|eapply All'; eassumption].
  apply Sub'. apply Own. exact Mx.
Qed.
End Traverse.
