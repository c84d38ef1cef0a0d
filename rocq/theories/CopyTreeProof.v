(** Deep copies as trees: the traversal. *)
From Coq Require Import ZArith String List Bool Lia ZifyBool Permutation.
From Verif Require Import Base BaseProof EntryModel EntrySpec EntryProof ValueModel ValueSpec ValueProof ValueProof2 DeepModel DeepSpec
  DeepProof DeepProof2 DeepProof4 DeepProof5 DeepProof6 DeepProof7 DeepProof8 CopySpec CopyProof CopyProof2 CopyProof3 CopyTreeSpec.
Import ListNotations.
Open Scope Z_scope.

(** * Views are unique *)
Section Views.
Variable E : env.
Variable M : mode.
Notation d := (en_db E).
Lemma loop_fun : forall m anc p l l', loop_at d m anc p l -> loop_at d m anc p l' -> l = l'.
Proof.
  intros m anc p l l' [pre [a [post [t [Q [-> [P N]]]]]]] [pre' [a' [post' [t' [Q' [-> [P' N']]]]]]]. subst anc. f_equal. f_equal.
  revert pre' Q' N N'. induction pre as [|x pre IH]; intros [|x' pre'] Q N N'; cbn in *; try reflexivity.
  - injection Q as <- _. destruct (N' a t (or_introl eq_refl) P).
  - injection Q as <- _. destruct (N x t' (or_introl eq_refl) P').
  - injection Q as <- Q. f_equal. apply (IH pre' Q); intros b u I; [apply N|apply N']; right; exact I.
Qed.
Lemma loop_no : forall m anc p l, loop_at d m anc p l -> no_loop d m anc p -> False.
Proof. intros m anc p l [pre [a [post [t [-> [_ [P _]]]]]]] N. apply (N a t); [apply in_or_app; right; left; reflexivity|exact P]. Qed.
Lemma looks_fun : forall m anc x w w', looks E M m anc x w -> looks E M m anc x w' -> w = w'.
Proof.
  intros m anc x w w' A B.
  assert (K : forall w, looks E M m anc x w -> exists i, has_info d x i /\ match w with VFail => False | VLeaf _ => match i with IBase _ _ | IEnum _ _ | IPointer _ => True | _ => False end
     | VLoop _ _ | VPtr _ _ => match i with IPointer _ => True | _ => False end
     | VNode _ _ => match i with IBase _ _ | IEnum _ _ | IPointer _ | IParam true _ | ISubprogram _ _ | ISubroutine _ _ => False | _ => True end
     | VCall _ => callable i end).
  { clear A B w w'. intros w L. inversion L as [sz i I K S|sz t P S|sz t p P NZ NL O HD U S|sz t p l P NZ LA S|sz p w' T NL S|sz l z ch I F S|sz l z ch I K S|sz t c ch w' I K EA S|t c w' I C HD NA|i l I K C H]; subst;
      try (eexists; split; [eassumption|]; exact Logic.I); try (eexists; split; [apply (points_info _ _ _ _ _ P)|exact Logic.I]).
    - exists i. split; [exact I|]. destruct i; try contradiction; exact Logic.I.
    - destruct (target_points _ _ _ _ _ _ _ T) as [_ [t P]]. eexists; split; [apply (points_info _ _ _ _ _ P)|exact Logic.I].
    - exists i. split; assumption. }
  destruct (K w A) as [i [I Ki]]. destruct (K w' B) as [i' [I' Ki']]. pose proof (has_info_fun _ _ _ _ I I') as <-. clear K I'.
  destruct w as [|sz|sz l|sz ch|sz t|ca], w' as [|sz'|sz' l'|sz' ch'|sz' t'|ca']; try contradiction;
    try (destruct i as [ | | | | | | | | | |[|] ?| | | ]; contradiction).
  - inversion A; inversion B; subst; f_equal; eapply size_of_fun; eassumption.
  - exfalso. inversion B as [| | |sz1 t1 p1 l1 P1 NZ1 LA1 S1| | | | | |]; subst.
    inversion A as [sz2 i2 I2 K2 S2|sz2 t2 P2 S2|sz2 t2 p2 P2 NZ2 NL2 O2 HD2 U2 S2| | | | | | |]; subst.
    + pose proof (has_info_fun _ _ _ _ I2 (points_info _ _ _ _ _ P1)) as ->. contradiction.
    + destruct (points_fun _ _ _ _ _ _ _ P1 P2) as [_ ->]. congruence.
    + destruct (points_fun _ _ _ _ _ _ _ P1 P2) as [_ ->]. eapply loop_no; eassumption.
  - exfalso. inversion B as [| | | |sz1 p1 w1 T1 NL1 S1| | | | |]; subst. destruct (target_points _ _ _ _ _ _ _ T1) as [NZ1 [t1 P1]].
    inversion A as [sz2 i2 I2 K2 S2|sz2 t2 P2 S2|sz2 t2 p2 P2 NZ2 NL2 O2 HD2 U2 S2| | | | | | |]; subst.
    + pose proof (has_info_fun _ _ _ _ I2 (points_info _ _ _ _ _ P1)) as ->. contradiction.
    + destruct (points_fun _ _ _ _ _ _ _ P1 P2) as [_ ->]. congruence.
    + inversion T1 as [t3 w3 P3 NZ3 H3 A3|t3 P3 NZ3 H3 O3|t3 P3 NZ3 H3 O3 U3]; subst.
      * congruence.
      * destruct (points_fun _ _ _ _ _ _ _ P3 P2) as [<- _]. contradiction.
      * destruct U2; congruence.
  - exfalso. inversion A as [| | |sz1 t1 p1 l1 P1 NZ1 LA1 S1| | | | | |]; subst.
    inversion B as [sz2 i2 I2 K2 S2|sz2 t2 P2 S2|sz2 t2 p2 P2 NZ2 NL2 O2 HD2 U2 S2| | | | | | |]; subst.
    + pose proof (has_info_fun _ _ _ _ I2 (points_info _ _ _ _ _ P1)) as ->. contradiction.
    + destruct (points_fun _ _ _ _ _ _ _ P1 P2) as [_ ->]. congruence.
    + destruct (points_fun _ _ _ _ _ _ _ P1 P2) as [_ ->]. eapply loop_no; eassumption.
  - inversion A as [| | |sz1 t1 p1 l1 P1 NZ1 LA1 S1| | | | | |]; inversion B as [| | |sz2 t2 p2 l2 P2 NZ2 LA2 S2| | | | | |]; subst.
    destruct (points_fun _ _ _ _ _ _ _ P1 P2) as [_ ->]. f_equal; [eapply size_of_fun; eassumption|eapply loop_fun; eassumption].
  - exfalso. inversion A as [| | |sz1 t1 p1 l1 P1 NZ1 LA1 S1| | | | | |]; inversion B as [| | | |sz2 p2 w2 T2 NL2 S2| | | | |]; subst.
    destruct (target_points _ _ _ _ _ _ _ T2) as [_ [t2 P2]]. destruct (points_fun _ _ _ _ _ _ _ P1 P2) as [_ ->]. eapply loop_no; eassumption.
  - destruct (node_fun _ _ _ _ _ _ _ _ _ A B) as [-> ->]. reflexivity.
  - exfalso. inversion A as [| | | |sz1 p1 w1 T1 NL1 S1| | | | |]; subst. destruct (target_points _ _ _ _ _ _ _ T1) as [NZ1 [t1 P1]].
    inversion B as [sz2 i2 I2 K2 S2|sz2 t2 P2 S2|sz2 t2 p2 P2 NZ2 NL2 O2 HD2 U2 S2| | | | | | |]; subst.
    + pose proof (has_info_fun _ _ _ _ I2 (points_info _ _ _ _ _ P1)) as ->. contradiction.
    + destruct (points_fun _ _ _ _ _ _ _ P1 P2) as [_ ->]. congruence.
    + inversion T1 as [t3 w3 P3 NZ3 H3 A3|t3 P3 NZ3 H3 O3|t3 P3 NZ3 H3 O3 U3]; subst.
      * congruence.
      * destruct (points_fun _ _ _ _ _ _ _ P3 P2) as [<- _]. contradiction.
      * destruct U2; congruence.
  - exfalso. inversion B as [| | |sz1 t1 p1 l1 P1 NZ1 LA1 S1| | | | | |]; inversion A as [| | | |sz2 p2 w2 T2 NL2 S2| | | | |]; subst.
    destruct (target_points _ _ _ _ _ _ _ T2) as [_ [t2 P2]]. destruct (points_fun _ _ _ _ _ _ _ P1 P2) as [_ ->]. eapply loop_no; eassumption.
  - inversion A as [| | | |sz1 p1 w1 T1 NL1 S1| | | | |]; inversion B as [| | | |sz2 p2 w2 T2 NL2 S2| | | | |]; subst.
    destruct (target_fun _ _ _ _ _ _ _ _ _ T1 T2) as [_ ->]. f_equal. eapply size_of_fun; eassumption.
  - f_equal. eapply call_fun; eassumption.
Qed.
End Views.

(** * Fresh blocks, one after the other *)
Definition inb (bs : list block) (x : Z) : Prop := exists a z, In (a, z) bs /\ a <= x < a + z.
Fixpoint fr (U : Z -> Prop) (bs : list block) : Prop :=
  match bs with
  | [] => True
  | (a, z) :: r => 0 < a /\ 0 < z /\ a + z < 2 ^ 64 /\ (forall x, a <= x < a + z -> ~ U x) /\ fr (fun x => U x \/ a <= x < a + z) r
  end.
Lemma fr_mono : forall bs (U U' : Z -> Prop), (forall x, U' x -> U x) -> fr U bs -> fr U' bs.
Proof.
  induction bs as [|[a z] bs IH]; intros U U' S H; cbn in *; [exact Logic.I|]. destruct H as [H1 [H2 [H3 [H4 H5]]]]. repeat split; try assumption.
  - intros x X Y. eapply H4; [exact X|auto].
  - eapply IH; [|exact H5]. cbn. intros x [X|X]; auto.
Qed.
Lemma fr_app : forall b1 b2 U, fr U (b1 ++ b2) -> fr U b1 /\ fr (fun x => U x \/ inb b1 x) b2.
Proof.
  induction b1 as [|[a z] b1 IH]; intros b2 U H; cbn in *.
  - split; [exact Logic.I|]. eapply fr_mono; [|exact H]. intros x [X|[a [z [[] _]]]]. exact X.
  - destruct H as [H1 [H2 [H3 [H4 H5]]]]. apply IH in H5. destruct H5 as [H5 H6]. split; [auto|]. eapply fr_mono; [|exact H6]. cbn.
    intros x [X|[a' [z' [[Q|I] X]]]]; [auto| |right; exists a', z'; auto]. injection Q as <- <-. auto.
Qed.
Lemma fr_out : forall bs U x, fr U bs -> inb bs x -> ~ U x.
Proof.
  induction bs as [|[a z] bs IH]; intros U x H [a' [z' [I X]]] Ux; cbn in *; [destruct I|]. destruct H as [H1 [H2 [H3 [H4 H5]]]].
  destruct I as [Q|I]; [injection Q as <- <-; eapply H4; eassumption|]. eapply (IH _ x H5); [exists a', z'; auto|left; exact Ux].
Qed.
Lemma fresh_fr : forall new old (U : Z -> Prop), fresh_blocks new old -> (forall x, U x -> inb old x) -> fr U new.
Proof.
  intros new. assert (G : forall new (U : Z -> Prop), NoDup (map fst new) -> blocks_ok new -> (forall x, inb new x -> ~ U x) -> fr U new).
  { clear. induction new as [|[a z] l IH]; intros U ND OK H; cbn; [exact Logic.I|]. destruct OK as [O1 O2]. destruct (O1 a z (or_introl eq_refl)) as [A1 [A2 A3]].
    cbn in ND. inversion ND as [|? ? N1 N2]; subst. repeat split; try assumption.
    - intros x X. apply H. exists a, z. split; [left; reflexivity|exact X].
    - apply IH; [exact N2| |].
      + split; intros; [apply O1; right; assumption|apply O2; right; assumption].
      + intros x [a' [z' [I X]]] [Y|Y]; [eapply H; [exists a', z'; split; [right; exact I|exact X]|exact Y]|].
        destruct (O2 a z a' z' (or_introl eq_refl) (or_intror I)) as [Q|Q]; [|lia]. injection Q as <- <-. apply N1. apply (in_map fst _ _ I). }
  intros old U [ND [OK F]] S. apply G; [exact ND|exact OK|]. intros x [a [z [I X]]] Ux. apply S in Ux. destruct Ux as [b [s [J Y]]].
  specialize (F _ _ _ _ I J). lia.
Qed.
Definition evc (b : block) : mem_event := EvCalloc (fst b) (snd b).
Lemma allocs_evc : forall bs, allocs (map evc bs) = bs.
Proof. induction bs as [|[a z] bs IH]; [reflexivity|]. change (allocs (map evc ((a, z) :: bs))) with ((a, z) :: allocs (map evc bs)). rewrite IH. reflexivity. Qed.
Lemma log_app : forall b1 b2 l, rev (map evc (b1 ++ b2)) ++ l = rev (map evc b2) ++ rev (map evc b1) ++ l.
Proof. intros. rewrite map_app, rev_app_distr, app_assoc. reflexivity. Qed.
Lemma log_inj : forall b b' l, rev (map evc b) ++ l = rev (map evc b') ++ l -> b = b'.
Proof.
  intros b b' l H. apply app_inv_tail in H. apply (f_equal (@rev _)) in H. rewrite !rev_involutive in H. rewrite <- (allocs_evc b), <- (allocs_evc b'), H. reflexivity.
Qed.

Section Tree.
Variable E : env.
Variable M : mode.
Variable cal : nat -> Z -> Z.
Notation d := (en_db E).
Notation n := (en_fuel E).
Notation g := (en_garbage E).
Variable m0 : mem.
Variable v : value.
Hypothesis UF : unfoldable E M m0 v.
Hypothesis Tree : mo_tree M = true.
Notation addr e := (v_addr (me_val e)).
Notation nulls_left := (mo_uptr M = UPTR_fail \/ mo_uptr M = UPTR_as_one_byte_ptr).

(** * What has been written *)
Definition own (cm : mem) (ys : list Z) (anc : list value) (x : value) (y : Z) : Prop :=
  (forall s, scalar E M m0 anc x s false -> forall i, 0 <= i < s -> cm (y + i) = m0 (v_addr x + i)) /\
  (forall t, points d m0 x t 0 -> number_at cm y 8 = 0) /\
  (forall t p sz, points d m0 x t p -> p <> 0 -> looks E M m0 anc x (VLeaf sz) ->
     mo_uptr M = UPTR_ignore /\ number_at cm y 8 = 0 \/ mo_uptr M = UPTR_as_values /\ number_at cm y 8 = p) /\
  (forall sz l, looks E M m0 anc x (VLoop sz l) -> exists b, 0 < l /\ nth_error ys (Z.to_nat (l - 1)) = Some b /\ number_at cm y 8 = number_at cm b 8).
(** [ps]: the pointers of the copy and their blocks *)
Inductive dn (cm : mem) : list Z -> list value -> ment -> Z -> list (Z * block) -> Prop :=
| dn_leaf ys anc e y : me_ch e = [] -> own cm ys anc (me_val e) y -> dn cm ys anc e y []
| dn_parts ys anc e y sz ps : looks E M m0 anc (me_val e) (VNode sz (map me_val (me_ch e))) -> me_ch e <> [] ->
    dns cm (y :: ys) (me_val e :: anc) (y - addr e) (me_ch e) ps -> dn cm ys anc e y ps
| dn_ptr ys anc e y sz c a ps : looks E M m0 anc (me_val e) (VPtr sz (me_val c)) -> me_ch e = [c] ->
    number_at cm y 8 = a + (number_at m0 (addr e) 8 - addr c) -> dn cm (y :: ys) (me_val e :: anc) c a ps ->
    dn cm ys anc e y ((y, (a, me_size c)) :: ps)
with dns (cm : mem) : list Z -> list value -> Z -> list ment -> list (Z * block) -> Prop :=
| ds_nil ys anc o : dns cm ys anc o [] []
| ds_cons ys anc o c l ps ps' : dn cm ys anc c (o + addr c) ps -> dns cm ys anc o l ps' -> dns cm ys anc o (c :: l) (ps ++ ps').

Definition ptr_place (anc : list value) (ys : list Z) (x : Z) : Prop :=
  exists k a b t p, nth_error anc k = Some a /\ nth_error ys k = Some b /\ points d m0 a t p /\ b <= x < b + 8.
Lemma ptr_place_cons : forall anc ys a b x, ptr_place (a :: anc) (b :: ys) x -> ptr_place anc ys x \/ (exists t p, points d m0 a t p) /\ b <= x < b + 8.
Proof. intros anc ys a b x [[|k] [a' [b' [t [p [A [B [P X]]]]]]]]; cbn in A, B; [injection A as <-; injection B as <-; right; eauto|left; exists k, a', b', t, p; auto]. Qed.

Lemma fits_node : forall anc e, reaches E M m0 v anc (me_val e) -> built_ok E M m0 anc e -> 0 < addr e /\ 0 <= me_size e /\ addr e + me_size e < 2 ^ 64.
Proof.
  intros anc e S Be. pose proof (built_extent _ _ _ _ _ Be) as X. destruct (uf_fits _ _ _ _ UF _ _ _ S X). pose proof (extent_nonneg _ _ _ _ _ _ X). lia.
Qed.
Lemma same_extent : forall anc x z z', extent E M m0 anc x z -> extent E M m0 anc x z' -> z = z'.
Proof. intros anc x z z' A B. eapply extent_fun; [apply (uf_local _ _ _ _ UF)|exact A|apply same_ctx_refl|exact B]. Qed.
Lemma ptr_size : forall anc e t p, built_ok E M m0 anc e -> points d m0 (me_val e) t p -> me_size e = 8.
Proof.
  intros anc e t p Be P. pose proof (built_extent _ _ _ _ _ Be) as X. pose proof (points_info _ _ _ _ _ P) as HI.
  inversion X as [anc0 v0 sz i' I' K' S'|anc0 v0 sz ch zs N F|anc0 v0 ic Ic Kc]; subst.
  - apply (info_size E _ _ _ HI S').
  - destruct (node_info _ _ _ _ _ _ _ N) as [i' [I' K']]. pose proof (has_info_fun _ _ _ _ HI I') as <-. contradiction.
  - pose proof (has_info_fun _ _ _ _ HI Ic) as <-. contradiction.
Qed.
Lemma scalar_size : forall anc e s, built_ok E M m0 anc e -> scalar E M m0 anc (me_val e) s false -> s = me_size e.
Proof.
  intros anc e s Be S. eapply same_extent; [|apply (built_extent _ _ _ _ _ Be)].
  inversion S as [i z I K Sz| |z l sz I U L]; subst.
  - eapply ex_whole; [exact I| |exact Sz]. destruct i; try contradiction; exact Logic.I.
  - change s with (fold_left Z.max (ends (me_val e) [] []) s) at 1. eapply ex_parts; [exact L|constructor].
Qed.
Lemma built_node : forall anc e sz ch, built_ok E M m0 anc e -> looks E M m0 anc (me_val e) (VNode sz ch) ->
  ch = map me_val (me_ch e) /\ Forall (built_ok E M m0 (me_val e :: anc)) (me_ch e) /\ grow (me_val e) sz (me_ch e) = Ret (me_size e).
Proof.
  intros anc e sz ch Be L. destruct (built_looks _ _ _ _ _ Be) as [w [_ [Lw K]]]. pose proof (looks_fun _ _ _ _ _ _ _ L Lw) as <-. tauto.
Qed.
Lemma built_ptr : forall anc e sz w, built_ok E M m0 anc e -> looks E M m0 anc (me_val e) (VPtr sz w) ->
  exists c, me_ch e = [c] /\ me_val c = w /\ built_ok E M m0 (me_val e :: anc) c.
Proof.
  intros anc e sz ch Be L. destruct (built_looks _ _ _ _ _ Be) as [w [_ [Lw K]]]. pose proof (looks_fun _ _ _ _ _ _ _ L Lw) as <-. tauto.
Qed.
Lemma part_in : forall anc e c sz ch, reaches E M m0 v anc (me_val e) -> built_ok E M m0 anc e -> looks E M m0 anc (me_val e) (VNode sz ch) ->
  In c (me_ch e) -> addr e <= addr c /\ addr c + me_size c <= addr e + me_size e /\ reaches E M m0 v (me_val e :: anc) (me_val c) /\ built_ok E M m0 (me_val e :: anc) c.
Proof.
  intros anc e c sz ch S Be L Ic. destruct (built_node _ _ _ _ Be L) as [-> [F G]].
  rewrite Forall_forall in F. pose proof (F c Ic) as Bc.
  assert (Sc : reaches E M m0 v (me_val e :: anc) (me_val c)) by (eapply re_node; [exact S|exact L|apply in_map; exact Ic]).
  pose proof (uf_parts _ _ _ _ UF _ _ _ _ _ S L (in_map me_val _ _ Ic)) as P. destruct (fits_node _ _ Sc Bc) as [F1 [F2 F3]].
  apply grow_ends in G. destruct (fits_node _ _ S Be) as [F4 _].
  assert (J : In ((addr c - addr e + me_size c) mod 2 ^ 64) (ends (me_val e) (map me_val (me_ch e)) (map me_size (me_ch e)))).
  { clear - Ic. induction (me_ch e) as [|x l IH]; [destruct Ic|]. destruct Ic as [->|Ic]; [left; reflexivity|right; apply IH; exact Ic]. }
  apply (fold_max_in _ sz) in J. rewrite <- G in J. rewrite Z.mod_small in J by lia. split; [exact P|]. split; [lia|]. split; assumption.
Qed.
Lemma ptr_in : forall anc e sz c, reaches E M m0 v anc (me_val e) -> built_ok E M m0 anc e -> looks E M m0 anc (me_val e) (VPtr sz (me_val c)) -> me_ch e = [c] ->
  addr c <= number_at m0 (addr e) 8 < addr c + me_size c /\ (exists t p, points d m0 (me_val e) t p) /\ me_size e = 8 /\
  reaches E M m0 v (me_val e :: anc) (me_val c) /\ built_ok E M m0 (me_val e :: anc) c.
Proof.
  intros anc e sz c S Be L Ch. destruct (built_ptr _ _ _ _ Be L) as [c' [Q [_ Bc]]]. rewrite Ch in Q. injection Q as <-.
  pose proof (uf_inside _ _ _ _ UF _ _ _ _ _ S L (built_extent _ _ _ _ _ Bc)) as P. split; [exact P|].
  assert (PP : exists t p, points d m0 (me_val e) t p). { inversion L as [| | | |sz' p' w' T' NL' S'| | | | |]; subst. destruct (target_points _ _ _ _ _ _ _ T') as [_ [t' P']]. eauto. }
  split; [exact PP|]. destruct PP as [t [p Pt]]. split; [eapply ptr_size; eassumption|]. split; [eapply re_ptr; eassumption|exact Bc].
Qed.

(** later writes elsewhere do not matter *)
Lemma own_keep : forall cm cm' ys anc e y, built_ok E M m0 anc e -> length anc = length ys -> own cm ys anc (me_val e) y ->
  (forall x, y <= x < y + me_size e -> cm' x = cm x) -> (forall x, ptr_place anc ys x -> cm' x = cm x) -> own cm' ys anc (me_val e) y.
Proof.
  intros cm cm' ys anc e y Be Len [O1 [O2 [O3 O4]]] A1 A2.
  assert (N8 : forall t p, points d m0 (me_val e) t p -> number_at cm' y 8 = number_at cm y 8).
  { intros t p P. apply number_ext. intros x X. apply A1. rewrite (ptr_size _ _ _ _ Be P). lia. }
  split; [|split; [|split]].
  - intros s S i I. rewrite A1; [apply (O1 s S i I)|]. rewrite <- (scalar_size _ _ _ Be S). lia.
  - intros t P. rewrite (N8 _ _ P). eapply O2. exact P.
  - intros t p sz P NZ L. rewrite (N8 _ _ P). eapply O3; eassumption.
  - intros sz l L. destruct (O4 sz l L) as [b [B0 [B1 B2]]]. exists b. split; [exact B0|]. split; [exact B1|].
    inversion L as [| | |sz1 t1 p1 l1 P1 NZ1 LA1 S1| | | | | |]; subst. rewrite (N8 _ _ P1), B2. apply number_ext. intros x X. symmetry. apply A2.
    destruct LA1 as [pre [a [post [t [-> [-> [P _]]]]]]]. exists (length pre), a, b, t, p1. split; [rewrite nth_error_app2, Nat.sub_diag by lia; reflexivity|].
    split; [|split; [exact P|lia]]. rewrite <- B1. f_equal. lia.
Qed.
Lemma inb_app : forall a b x, inb (a ++ b) x <-> inb a x \/ inb b x.
Proof.
  intros a b x. split.
  - intros [s [z [I X]]]. apply in_app_or in I. destruct I as [I|I]; [left|right]; exists s, z; auto.
  - intros [[s [z [I X]]]|[s [z [I X]]]]; exists s, z; (split; [apply in_or_app|exact X]); [left|right]; exact I.
Qed.
(** blocks of pointers contain what they lead to *)
Lemma dn_keep : forall cm cm' e ys anc y ps, reaches E M m0 v anc (me_val e) -> built_ok E M m0 anc e -> length anc = length ys -> dn cm ys anc e y ps ->
  (forall x, y <= x < y + me_size e -> cm' x = cm x) -> (forall x, inb (map snd ps) x -> cm' x = cm x) -> (forall x, ptr_place anc ys x -> cm' x = cm x) -> dn cm' ys anc e y ps.
Proof.
  intros cm cm' e. induction e as [i0 v0 sz0 l0 ch0 F] using ment_ind2. set (e := ME i0 v0 sz0 l0 ch0) in *. intros ys anc y ps S Be Len D A1 A2 A3.
  inversion D as [ys0 anc0 e0 y0 Ch O|ys0 anc0 e0 y0 sz ps0 L NE Ds|ys0 anc0 e0 y0 sz c a ps0 L Ch Nu Dc]; subst.
  - apply dn_leaf; [exact Ch|]. eapply own_keep; eassumption.
  - eapply dn_parts; [exact L|exact NE|]. destruct (node_info _ _ _ _ _ _ _ L) as [i [HI Ki]].
    assert (A4 : forall x, ptr_place (me_val e :: anc) (y :: ys) x -> cm' x = cm x).
    { intros x X. apply ptr_place_cons in X. destruct X as [X|[[t [p P]] _]]; [apply A3; exact X|]. pose proof (has_info_fun _ _ _ _ HI (points_info _ _ _ _ _ P)) as ->. contradiction. }
    clear D. assert (G : forall l ps, incl l (me_ch e) -> dns cm (y :: ys) (me_val e :: anc) (y - addr e) l ps -> (forall x, inb (map snd ps) x -> cm' x = cm x) ->
       dns cm' (y :: ys) (me_val e :: anc) (y - addr e) l ps).
    { induction l as [|c l IH]; intros qs Inc Dl Al; inversion Dl as [|ys1 anc1 o1 c1 l1 p1 p2 D1 D2]; subst; [constructor|].
      assert (Ic : In c (me_ch e)) by (apply Inc; left; reflexivity). destruct (part_in _ _ _ _ _ S Be L Ic) as [P1 [P2 [P3 P4]]].
      constructor.
      - rewrite Forall_forall in F. eapply (F c Ic); [exact P3|exact P4|cbn; lia|exact D1| | |exact A4].
        + intros x X. apply A1. lia.
        + intros x X. apply Al. rewrite map_app. apply inb_app. left. exact X.
      - apply IH; [intros x X; apply Inc; right; exact X|exact D2|]. intros x X. apply Al. rewrite map_app. apply inb_app. right. exact X. }
    apply G; [intros x X; exact X|exact Ds|exact A2].
  - destruct (ptr_in _ _ _ _ S Be L Ch) as [P1 [[t [p P2]] [P3 [P4 P5]]]]. eapply dn_ptr; [exact L|exact Ch| |].
    + rewrite <- Nu. apply number_ext. intros x X. apply A1. lia.
    + rewrite Forall_forall in F. assert (Ic : In c ch0) by (change ch0 with (me_ch e); rewrite Ch; left; reflexivity).
      eapply (F c Ic); [exact P4|exact P5|cbn; lia|exact Dc| | |].
      * intros x X. apply A2. exists a, (me_size c). split; [left; reflexivity|exact X].
      * intros x [b [s [I X]]]. apply A2. exists b, s. split; [right; exact I|exact X].
      * intros x X. apply ptr_place_cons in X. destruct X as [X|[_ X]]; [apply A3; exact X|]. apply A1. lia.
Qed.

(** * One entry *)
Notation twin := (twin E).
Lemma base_writes : forall cm anc e dst z c m', bytes_ok cm -> reaches E M m0 v anc (me_val e) -> built_ok E M m0 anc e -> twin (me_val e) dst -> has_info d (me_val e) (IBase z c) ->
  value_copy_base_type n d g cm (me_val e) dst = Ret (true, m') ->
  bytes_ok m' /\ (forall x, ~ (v_addr dst <= x < v_addr dst + me_size e) -> m' x = cm x) /\ (forall i, 0 <= i < me_size e -> m' (v_addr dst + i) = cm (addr e + i)).
Proof.
  intros cm anc e dst z c m' OK S Be Tw HI H. destruct (copy_base_sound _ _ _ _ _ _ _ _ H) as [H1 _]. destruct (H1 eq_refl) as [k [K1 [K2 [_ [x [G Ss]]]]]].
  destruct (uf_base _ _ _ _ UF _ _ _ _ S HI) as [k' [name [encs [sg [Q1 [Q2 Q3]]]]]]. assert (k' = k) by (eapply has_ctype_fun; eassumption). subst k'.
  apply table_fun in Q3. destruct Q3 as [_ [Q3 _]]. destruct Tw as [_ Tw]. apply value_set_store in Ss; [|apply Tw; exact Q2].
  apply value_get_sound in G. destruct G as [_ G]. specialize (G Q2). subst m'.
  assert (Sz : me_size e = ct_size k).
  { assert (SO : size_of d (me_val e) (me_size e)).
    { pose proof (built_extent _ _ _ _ _ Be) as X. inversion X as [anc0 v0 sz i' I' K' S'|anc0 v0 sz ch zs N F|anc0 v0 ic Ic Kc]; subst; [exact S'| |pose proof (has_info_fun _ _ _ _ HI Ic) as <-; contradiction].
      destruct (node_info _ _ _ _ _ _ _ N) as [i' [I' K']]. pose proof (has_info_fun _ _ _ _ HI I') as <-. contradiction. }
    pose proof (info_size E _ _ _ HI SO) as Q. cbn in Q. rewrite Q. subst z. destruct k; reflexivity. }
  pose proof (ct_size_pos k) as Kp. rewrite Sz. split; [apply store_bytes_ok; exact OK|]. split.
  - intros y Y. apply store_out. rewrite Z2Nat.id by lia. exact Y.
  - intros i Hi. apply store_copy; [exact OK| |rewrite Z2Nat.id; lia]. rewrite G. apply Z.mod_small. apply number_range. exact OK.
Qed.
Lemma enum_writes : forall cm anc e dst z l m', bytes_ok cm -> reaches E M m0 v anc (me_val e) -> built_ok E M m0 anc e -> twin (me_val e) dst -> has_info d (me_val e) (IEnum z l) ->
  value_copy_enumeration n d cm (me_val e) dst = Ret (true, m') ->
  bytes_ok m' /\ (forall x, ~ (v_addr dst <= x < v_addr dst + me_size e) -> m' x = cm x) /\ (forall i, 0 <= i < me_size e -> m' (v_addr dst + i) = cm (addr e + i)).
Proof.
  intros cm anc e dst z l m' OK S Be Tw HI H.
  assert (SO : me_size e = z mod 2 ^ 64).
  { assert (SO : size_of d (me_val e) (me_size e)).
    { pose proof (built_extent _ _ _ _ _ Be) as X. inversion X as [anc0 v0 sz i' I' K' S'|anc0 v0 sz ch zs N F|anc0 v0 ic Ic Kc]; subst; [exact S'| |pose proof (has_info_fun _ _ _ _ HI Ic) as <-; contradiction].
      destruct (node_info _ _ _ _ _ _ _ N) as [i' [I' K']]. pose proof (has_info_fun _ _ _ _ HI I') as <-. contradiction. }
    apply (info_size E _ _ _ HI SO). }
  assert (ES : forall y q, has_info d y (IEnum z l) -> forall f, final_if n d (Some (v_entry y)) is_enum_info = Ret (Some f) -> enum_size n d f = Ret (inl q) -> q = me_size e).
  { intros y q [f' [F' I']] f F Q. apply final_if_some in F. destruct F as [F _]. pose proof (final_type_fun _ _ _ _ F F') as X. injection X as ->.
    unfold enum_size in Q. apply byte_size_spec in Q. destruct Q as [z2 [HS ->]]. assert (z2 = z) by (eapply has_size_fun; [exact HS|eapply hs_enum; exact I']). subst z2. rewrite SO. reflexivity. }
  unfold value_copy_enumeration in H. apply bind_ret in H. destruct H as [[er|x] [G H]]; [discriminate|]. apply bind_ret in H. destruct H as [[st mm] [Ss H]]. cbn [fst snd] in H.
  injection H as Q <-. apply Z.eqb_eq in Q. subst st.
  unfold value_enumeration in G. apply bind_ret in G. destruct G as [[f|] [F G]]; [|discriminate]. apply bind_ret in G. destruct G as [[q|] [Q G]]; [|discriminate].
  apply (ES _ _ HI _ F) in Q. subst q. destruct (is_word (me_size e)) eqn:Wd; [|discriminate]. injection G as <-.
  unfold value_set_enumeration in Ss. apply bind_ret in Ss. destruct Ss as [[f'|] [F' Ss]]; [|discriminate]. apply bind_ret in Ss. destruct Ss as [[q|] [Q Ss]]; [|discriminate].
  apply (ES _ _ (twin_info E _ _ _ Tw HI) _ F') in Q. subst q. rewrite Wd in Ss. injection Ss as <-. apply word_iff in Wd.
  assert (Wp : 0 < me_size e) by (unfold word in Wd; lia). split; [apply store_bytes_ok; exact OK|]. split.
  - intros y Y. apply store_out. rewrite Z2Nat.id by lia. exact Y.
  - intros i Hi. apply store_copy; [exact OK| |rewrite Z2Nat.id; lia].
    rewrite Z2Nat.id by lia. rewrite swrap_mod by lia. rewrite load_number. apply Z.mod_small. pose proof (number_range cm (addr e) (Z.to_nat (me_size e)) OK) as NR.
    rewrite Z2Nat.id in NR by lia. exact NR.
Qed.
Lemma set_store : forall cm y x m', value_set_pointer n d cm y x = Ret (0, m') -> m' = store cm (v_addr y) 8 x.
Proof.
  intros cm y x m' H. unfold value_set_pointer in H. apply bind_ret in H. destruct H as [[e|] [_ H]]; [|discriminate]. injection H as <-. reflexivity.
Qed.
Lemma copy_store : forall cm x y m', value_copy_pointer n d cm x y = Ret (true, m') -> m' = store cm (v_addr y) 8 (number_at cm (v_addr x) 8).
Proof.
  intros cm x y m' H. unfold value_copy_pointer in H. apply bind_ret in H. destruct H as [[er|p] [P H]]; [discriminate|].
  apply bind_ret in H. destruct H as [[st mm] [S H]]. cbn [fst snd] in H. injection H as Q <-. apply Z.eqb_eq in Q. subst st. apply set_store in S. subst mm.
  apply pointer_ret in P. destruct P as [t [_ ->]]. reflexivity.
Qed.

Lemma here_leaf : forall off tab anc ancD e dst s over s', reaches E M m0 v anc (me_val e) -> built_ok E M m0 anc e -> twin (me_val e) dst -> bytes_ok (c_mem s) ->
  (forall x, addr e <= x < addr e + me_size e -> c_mem s x = m0 x) ->
  (nulls_left -> forall x, v_addr dst <= x < v_addr dst + me_size e -> c_mem s x = 0) ->
  length anc = length ancD -> (forall x, ptr_place anc (map v_addr ancD) x -> ~ (v_addr dst <= x < v_addr dst + me_size e)) ->
  me_ch e = [] -> copy_here E M cal off tab ancD e dst s = Ret (Some over, s') ->
  over = None /\ c_log s' = c_log s /\ bytes_ok (c_mem s') /\ (forall x, ~ (v_addr dst <= x < v_addr dst + me_size e) -> c_mem s' x = c_mem s x) /\
  own (c_mem s') (map v_addr ancD) anc (me_val e) (v_addr dst).
Proof.
  intros off tab anc ancD e dst s over s' S Be Tw OK Src Zr Len PA Ch H.
  destruct (fits_node _ _ S Be) as [Fe1 [Fe2 Fe3]].
  unfold copy_here in H. apply bind_ret in H. destruct H as [f [F H]]. cbv zeta in H. rewrite Ch in H.
  destruct (built_looks _ _ _ _ _ Be) as [w [_ [Lw K]]].
  destruct (built_info _ _ _ _ _ Be) as [f0 [F0 DI]]. rewrite F in F0. injection F0 as ->.
  assert (Hf : has_info d (me_val e) f0) by (apply final_info_some; exact F).
  assert (NP : (match f0 with IPointer _ => False | _ => True end) -> forall t p, points d m0 (me_val e) t p -> False).
  { intros Q t p P. pose proof (has_info_fun _ _ _ _ Hf (points_info _ _ _ _ _ P)) as ->. contradiction. }
  assert (OwnS : (match f0 with IPointer _ => False | _ => True end) -> (forall s0, scalar E M m0 anc (me_val e) s0 false -> forall i, 0 <= i < s0 -> c_mem s' (v_addr dst + i) = m0 (addr e + i)) ->
     own (c_mem s') (map v_addr ancD) anc (me_val e) (v_addr dst)).
  { intros Q X. split; [exact X|]. split; [intros t P; destruct (NP Q _ _ P)|]. split; [intros t p sz P; destruct (NP Q _ _ P)|].
    intros sz l L. inversion L as [| | |sz1 t1 p1 l1 P1 NZ1 LA1 S1| | | | | |]; subst. destruct (NP Q _ _ P1). }
  assert (Same : (match f0 with IPointer _ => False | _ => True end) -> (forall z, scalar E M m0 anc (me_val e) z false -> z <= 0) -> Ret (Some None, s) = Ret (Some over, s') ->
    over = None /\ c_log s' = c_log s /\ bytes_ok (c_mem s') /\ (forall x, ~ (v_addr dst <= x < v_addr dst + me_size e) -> c_mem s' x = c_mem s x) /\
    own (c_mem s') (map v_addr ancD) anc (me_val e) (v_addr dst)).
  { intros Q NS X. injection X as <- <-. split; [reflexivity|]. split; [reflexivity|]. split; [exact OK|]. split; [auto|]. apply OwnS; [exact Q|]. intros s0 S0 i I. specialize (NS _ S0). lia. }
  assert (Uniq : forall z, scalar E M m0 anc (me_val e) z false -> match f0 with IBase _ _ | IEnum _ _ => True
     | IAggr AUnion _ _ => mo_union M = UNION_as_mem /\ z = me_size e | _ => False end).
  { intros z Sc. pose proof (scalar_size _ _ _ Be Sc) as Qz. inversion Sc as [i' z' I' K' Sz'| |z' l' sz' I' U' L']; subst; pose proof (has_info_fun _ _ _ _ Hf I') as ->; [destruct i'; try contradiction; exact Logic.I|auto]. }
  assert (Writes : forall m', (match f0 with IPointer _ => False | _ => True end) ->
    bytes_ok m' /\ (forall x, ~ (v_addr dst <= x < v_addr dst + me_size e) -> m' x = c_mem s x) /\ (forall i, 0 <= i < me_size e -> m' (v_addr dst + i) = c_mem s (addr e + i)) ->
    Ret (Some None, with_mem s m') = Ret (Some over, s') ->
    over = None /\ c_log s' = c_log s /\ bytes_ok (c_mem s') /\ (forall x, ~ (v_addr dst <= x < v_addr dst + me_size e) -> c_mem s' x = c_mem s x) /\
    own (c_mem s') (map v_addr ancD) anc (me_val e) (v_addr dst)).
  { intros m' Q [W1 [W2 W3]] X. injection X as <- <-. split; [reflexivity|]. split; [reflexivity|]. split; [exact W1|]. split; [exact W2|]. apply OwnS; [exact Q|].
    intros s0 S0 i I. rewrite (scalar_size _ _ _ Be S0) in I. cbn [c_mem with_mem]. rewrite W3 by exact I. apply Src. lia. }
  destruct f0 as [ | |z c|t| |z l|t c| |k z l| |pa pt| | | ]; try contradiction DI;
    try (apply Same; [exact Logic.I|intros z0 Sc; destruct (Uniq _ Sc)|exact H]).
  - apply bind_ret in H. destruct H as [[b m'] [H1 H]]. cbn [fst snd] in H. destruct b; [|discriminate].
    eapply Writes; [exact Logic.I| |exact H]. eapply base_writes; eassumption.
  - (* pointer *)
    clear Same Writes NP OwnS. assert (P : points d m0 (me_val e) t (number_at m0 (addr e) 8)) by (split; [exact Hf|reflexivity]).
    pose proof (ptr_size _ _ _ _ Be P) as S8. assert (Src8 : number_at (c_mem s) (addr e) 8 = number_at m0 (addr e) 8) by (apply number_ext; intros x X; apply Src; lia).
    assert (N64 : forall a, 0 <= number_at (c_mem s) a 8 < 2 ^ 64) by (intro a; apply (number_range (c_mem s) a 8); exact OK).
    assert (Fin : forall x, s' = with_mem s (store (c_mem s) (v_addr dst) 8 x) -> over = None -> own (store (c_mem s) (v_addr dst) 8 x) (map v_addr ancD) anc (me_val e) (v_addr dst) ->
      over = None /\ c_log s' = c_log s /\ bytes_ok (c_mem s') /\ (forall x, ~ (v_addr dst <= x < v_addr dst + me_size e) -> c_mem s' x = c_mem s x) /\
      own (c_mem s') (map v_addr ancD) anc (me_val e) (v_addr dst)).
    { intros x -> -> O. split; [reflexivity|]. split; [reflexivity|]. split; [apply store_bytes_ok; exact OK|]. split; [|exact O]. intros y Y. apply store_out. rewrite S8 in Y. exact Y. }
    assert (NS : forall z, scalar E M m0 anc (me_val e) z false -> False) by (intros z Sc; exact (Uniq _ Sc)).
    destruct w as [|sz1|sz1 lv|sz1 chs|sz1 t1|ca]; [contradiction| | | | |].
    + destruct K as [_ [K _]]. rewrite K in H. cbn [Z.ltb Z.compare] in H.
      assert (NL : forall sz l, looks E M m0 anc (me_val e) (VLoop sz l) -> False) by (intros sz l L; pose proof (looks_fun _ _ _ _ _ _ _ L Lw); discriminate).
      assert (Own0 : forall cm, (number_at m0 (addr e) 8 = 0 -> number_at cm (v_addr dst) 8 = 0) ->
         (number_at m0 (addr e) 8 <> 0 -> mo_uptr M = UPTR_ignore /\ number_at cm (v_addr dst) 8 = 0 \/ mo_uptr M = UPTR_as_values /\ number_at cm (v_addr dst) 8 = number_at m0 (addr e) 8) ->
         own cm (map v_addr ancD) anc (me_val e) (v_addr dst)).
      { intros cm X1 X2. split; [intros z Sc; destruct (NS _ Sc)|]. split; [intros t' P'; apply X1; symmetry; apply P'|]. split; [|intros sz l L; destruct (NL _ _ L)].
        intros t' p sz P' NZ L. assert (Q : p = number_at m0 (addr e) 8) by apply P'. subst p. apply X2. exact NZ. }
      assert (Op : number_at m0 (addr e) 8 <> 0 -> mo_uptr M = UPTR_ignore \/ mo_uptr M = UPTR_as_values).
      { intro NZ. inversion Lw as [sz' i' I1 K1' S1|sz' t' P' S1|sz' t' p' P' N1 N2 O Hh U' S1| | | | | | |]; subst.
        - pose proof (has_info_fun _ _ _ _ Hf I1) as <-. contradiction.
        - destruct NZ. symmetry. apply P'.
        - exact U'. }
      destruct (mo_uptr M) eqn:UM.
      all: first
        [ injection H as <- <-; split; [reflexivity|]; split; [reflexivity|]; split; [exact OK|]; split; [auto|];
          apply Own0; [intros _; apply number_zero; intros x X; apply Zr; [auto|lia]|intro NZ; destruct (Op NZ); discriminate]
        | apply bind_ret in H; destruct H as [[st m'] [H1 H]]; cbn [fst snd] in H; destruct (st =? 0) eqn:St; [|discriminate]; apply Z.eqb_eq in St; subst st; injection H as <- <-;
          apply set_store in H1; subst m'; eapply Fin; [reflexivity|reflexivity|]; apply Own0; [intros _; apply number_store; lia|intros _; left; split; [reflexivity|apply number_store; lia]]
        | apply bind_ret in H; destruct H as [[ok m'] [H1 H]]; cbn [fst snd] in H; destruct ok; [|discriminate]; injection H as <- <-;
          apply copy_store in H1; subst m'; eapply Fin; [reflexivity|reflexivity|]; rewrite Src8; rewrite <- Src8 at 1; apply Own0;
            [intro Q; rewrite number_store by apply N64; rewrite Src8; exact Q|intros _; right; split; [reflexivity|rewrite number_store by apply N64; exact Src8]] ].
    + destruct K as [_ [K _]]. inversion Lw as [| | |sz' t' p' l' P' N1 LA S1| | | | | |]; subst.
      assert (Qp : p' = number_at m0 (addr e) 8) by apply P'. destruct LA as [pre [a [post [ta [Qa [Ql [Pa Npre]]]]]]]. rewrite Ql in H.
      replace (0 <? Z.of_nat (length pre) + 1) with true in H by lia. replace (Z.to_nat (Z.of_nat (length pre) + 1 - 1)) with (length pre) in H by lia.
      destruct (nth_error ancD (length pre)) as [b|] eqn:Nb; [|discriminate]. apply bind_ret in H. destruct H as [is [_ H]]. destruct is; [|discriminate].
      apply bind_ret in H. destruct H as [[ok m'] [H1 H]]. cbn [fst snd] in H. destruct ok; [|discriminate]. injection H as <- <-. apply copy_store in H1. subst m'.
      eapply Fin; [reflexivity|reflexivity|]. split; [intros z Sc; destruct (NS _ Sc)|]. split; [intros t2 P2; destruct (points_fun _ _ _ _ _ _ _ P' P2) as [_ Q2]; congruence|]. split; [intros t2 p2 sz2 P2 NZ L; pose proof (looks_fun _ _ _ _ _ _ _ L Lw); discriminate|].
      intros sz2 l2 L2. pose proof (looks_fun _ _ _ _ _ _ _ L2 Lw) as Q. injection Q as -> ->. exists (v_addr b). split; [lia|]. split; [rewrite Ql; replace (Z.to_nat (Z.of_nat (length pre) + 1 - 1)) with (length pre) by lia; apply map_nth_error; exact Nb|].
      rewrite number_store by apply N64. symmetry. apply number_ext. intros x X. apply store_out. rewrite <- S8 at 1. change (Z.of_nat 8) with 8. intro Y. eapply PA; [|exact Y].
      exists (length pre), a, (v_addr b), ta, p'. split; [rewrite Qa, nth_error_app2, Nat.sub_diag by lia; reflexivity|]. split; [apply map_nth_error; exact Nb|]. split; [exact Pa|lia].
    + exfalso. destruct (node_info _ _ _ _ _ _ _ Lw) as [i' [Hi' Ki']]. pose proof (has_info_fun _ _ _ _ Hf Hi') as <-. contradiction.
    + exfalso. destruct K as [_ [_ [c [K1 _]]]]. congruence.
    + exfalso. destruct (call_info _ _ _ _ _ _ Lw) as [ic [Hc Kc]]. eapply (uf_data _ _ _ _ UF); eassumption.
  - apply bind_ret in H. destruct H as [[b m'] [H1 H]]. cbn [fst snd] in H. destruct b; [|discriminate].
    eapply Writes; [exact Logic.I| |exact H]. eapply enum_writes; eassumption.
  - destruct k; try (apply Same; [exact Logic.I|intros z0 Sc; destruct (Uniq _ Sc)|exact H]).
    destruct (mo_union M) eqn:UM; try (apply Same; [exact Logic.I|intros z0 Sc; destruct (Uniq _ Sc) as [Q _]; discriminate|exact H]).
    all: destruct (0 <? me_size e) eqn:Sp; [|apply Same; [exact Logic.I|intros z0 Sc; destruct (Uniq _ Sc) as [_ ->]; lia|exact H]].
    + injection H as <- <-. split; [reflexivity|]. split; [reflexivity|]. cbn [c_mem with_mem]. split; [intro x; unfold zero_fill; destruct (_ && _); [lia|apply OK]|].
      split; [intros x X; unfold zero_fill; replace (_ && _) with false by lia; reflexivity|]. apply OwnS; [exact Logic.I|]. intros s0 S0. destruct (Uniq _ S0) as [Q _]. discriminate.
    + eapply Writes; [exact Logic.I| |exact H]. split; [apply copy_bytes_ok; exact OK|]. split; [intros x X; apply copy_bytes_out; exact X|].
      intros i Hi. rewrite copy_bytes_in by lia. f_equal. lia.
Qed.

Lemma not_call : forall anc e f, reaches E M m0 v anc (me_val e) -> final_info E (me_val e) = Ret f -> match f with Some i => is_call_info i | None => false end = false.
Proof.
  intros anc e f S Hf. destruct f as [i|]; [|reflexivity]. apply final_info_some in Hf. pose proof (uf_data _ _ _ _ UF _ _ _ S Hf) as K.
  destruct i as [ | | | | | | | | | |[|] ?| | | ]; try reflexivity; destruct (K Logic.I).
Qed.
(** the view of an entry with children decides what its start does *)
Lemma here_node : forall off tab anc ancD e dst s over s' sz ch, looks E M m0 anc (me_val e) (VNode sz ch) -> me_ch e <> [] ->
  copy_here E M cal off tab ancD e dst s = Ret (Some over, s') -> over = None /\ s' = s.
Proof.
  intros off tab anc ancD e dst s over s' sz ch L NE H. destruct (node_info _ _ _ _ _ _ _ L) as [i [HI K]].
  unfold copy_here in H. apply bind_ret in H. destruct H as [f [F H]]. cbv zeta in H.
  destruct f as [f0|]; [|injection H as <- <-; auto]. apply final_info_some in F. pose proof (has_info_fun _ _ _ _ HI F) as <-.
  destruct i as [ | |z c|t| |z l|t c| |k z l| |pa pt| | | ]; try contradiction; try (injection H as <- <-; auto).
  destruct k; try (injection H as <- <-; auto). destruct (me_ch e); [contradiction|injection H as <- <-; auto].
Qed.
Lemma here_ptr : forall off tab anc ancD e dst s over s' c t, built_ok E M m0 anc e -> has_info d (me_val e) (IPointer t) -> me_ch e = [c] ->
  copy_here E M cal off tab ancD e dst s = Ret (Some over, s') ->
  exists a, over = Some a /\ a <> 0 /\ c_log s' = EvCalloc a (me_size c) :: c_log s /\
    let cm := zero_fill (c_mem s) a (me_size c) in
    c_mem s' = store cm (v_addr dst) 8 (uwrap 64 (a + uwrap 64 (number_at cm (addr e) 8 - addr c))).
Proof.
  intros off tab anc ancD e dst s over s' c t Be HI Ch H.
  unfold copy_here in H. apply bind_ret in H. destruct H as [f [F H]]. cbv zeta in H.
  destruct (built_info _ _ _ _ _ Be) as [f0 [F0 _]]. rewrite F in F0. injection F0 as ->. apply final_info_some in F. pose proof (has_info_fun _ _ _ _ HI F) as <-.
  rewrite Ch in H. unfold child_block in H. rewrite Tree in H. unfold calloc in H. set (a := cal (c_calls s) (me_size c)) in *.
  destruct (a =? 0) eqn:Z0; [discriminate|]. cbn [c_mem c_calls c_log c_items c_bufs] in H.
  apply bind_ret in H. destruct H as [[er|p] [P H]]; [discriminate|]. apply pointer_ret in P. destruct P as [t' [_ P]].
  destruct (p =? 0) eqn:Zp; [discriminate|]. apply bind_ret in H. destruct H as [[st m'] [H1 H]]. cbn [fst snd] in H. destruct (st =? 0) eqn:St; [|discriminate].
  apply Z.eqb_eq in St. subst st. injection H as <- <-. apply set_store in H1. exists a. split; [reflexivity|]. split; [lia|]. split; [reflexivity|]. cbv zeta. cbn [c_mem with_mem]. rewrite H1, P. reflexivity.
Qed.
Lemma ptr_info : forall anc e sz w, looks E M m0 anc (me_val e) (VPtr sz w) -> exists t, has_info d (me_val e) (IPointer t).
Proof. intros anc e sz w L. inversion L as [| | | |sz' p' w' T' NL' S'| | | | |]; subst. destruct (target_points _ _ _ _ _ _ _ T') as [_ [t P]]. exists t. apply (points_info _ _ _ _ _ P). Qed.

Lemma tree_log : forall off tab e anc ancD dst s s', reaches E M m0 v anc (me_val e) -> built_ok E M m0 anc e ->
  copy_tree E M cal off tab ancD e dst s = Ret (true, s') -> exists bs, c_log s' = rev (map evc bs) ++ c_log s.
Proof.
  intros off tab e. induction e as [i0 v0 sz0 l0 ch0 F] using ment_ind2. set (e := ME i0 v0 sz0 l0 ch0) in *. intros anc ancD dst s s' S Be H.
  rewrite copy_tree_eq in H. apply bind_ret in H. destruct H as [f [Hf H]]. rewrite (not_call _ _ _ S Hf) in H. apply bind_ret in H. destruct H as [[h s1] [Hh H]].
  destruct h as [over|]; [|discriminate]. cbv zeta in H.
  assert (L1 : exists bs, c_log s1 = rev (map evc bs) ++ c_log s).
  { unfold copy_here in Hh. rewrite Hf in Hh. cbn [bind] in Hh. cbv zeta in Hh. unfold child_block in Hh. rewrite Tree in Hh. unfold calloc in Hh.
    assert (Id : forall s2 : cst, c_log s2 = c_log s -> exists bs, c_log s2 = rev (map evc bs) ++ c_log s) by (intros s2 Q; exists []; exact Q).
    destruct f as [[ | |z c|t| |z l|t c| |k z l| |pa pt| | | ]|]; try (injection Hh as <- <-; apply Id; reflexivity).
    - apply bind_ret in Hh. destruct Hh as [[b m'] [_ Hh]]. cbn [fst snd] in Hh. injection Hh as _ <-. apply Id. reflexivity.
    - destruct (me_ch e) as [|c rest].
      + destruct (0 <? me_loop e).
        * destruct (nth_error _ _); [|discriminate]. apply bind_ret in Hh. destruct Hh as [is [_ Hh]]. destruct is; [|discriminate]. apply bind_ret in Hh. destruct Hh as [r [_ Hh]]. injection Hh as _ <-. apply Id. reflexivity.
        * destruct (mo_uptr M); try (injection Hh as _ <-; apply Id; reflexivity); apply bind_ret in Hh; destruct Hh as [r [_ Hh]]; injection Hh as _ <-; apply Id; reflexivity.
      + destruct (_ =? 0) eqn:Z0; [discriminate|]. apply bind_ret in Hh. destruct Hh as [[er|p] [P Hh]]; [discriminate|]. destruct (p =? 0); [discriminate|].
        apply bind_ret in Hh. destruct Hh as [r [_ Hh]]. injection Hh as _ <-. exists [(cal (c_calls s) (me_size c), me_size c)]. reflexivity.
    - apply bind_ret in Hh. destruct Hh as [[b m'] [_ Hh]]. cbn [fst snd] in Hh. injection Hh as _ <-. apply Id. reflexivity.
    - destruct k; try (injection Hh as <- <-; apply Id; reflexivity). destruct (me_ch e), (mo_union M); try (injection Hh as <- <-; apply Id; reflexivity);
        destruct (0 <? me_size e); injection Hh as <- <-; apply Id; reflexivity. }
  clear Hh. destruct L1 as [b1 L1].
  assert (Kids : forall c, In c (me_ch e) -> reaches E M m0 v (me_val e :: anc) (me_val c) /\ built_ok E M m0 (me_val e :: anc) c).
  { intros c Ic. destruct (built_looks _ _ _ _ _ Be) as [w [_ [Lw K]]]. destruct w as [|sz1|sz1 lv|sz1 chs|sz1 t1|ca]; [contradiction| | | | |].
    - destruct K as [_ [_ K]]. rewrite K in Ic. destruct Ic.
    - destruct K as [_ [_ K]]. rewrite K in Ic. destruct Ic.
    - destruct (part_in _ _ _ _ _ S Be Lw Ic) as [_ [_ K']]. exact K'.
    - destruct K as [_ [_ [c' [K1 [K2 K3]]]]]. rewrite K1 in Ic. destruct Ic as [<-|[]]. split; [|exact K3]. subst t1. eapply re_ptr; eassumption.
    - destruct (call_info _ _ _ _ _ _ Lw) as [ic [Hc Kc]]. destruct (uf_data _ _ _ _ UF _ _ _ S Hc Kc). }
  assert (G : forall l, incl l (me_ch e) -> forall s2 s3, copy_list E M cal off tab ancD e over (match f with Some (IPointer _) => true | _ => false end) dst l s2 = Ret (true, s3) ->
     exists bs, c_log s3 = rev (map evc bs) ++ c_log s2).
  { induction l as [|c l IH]; intros Inc s2 s3 Hl; cbn [copy_list] in Hl; [injection Hl as <-; exists []; reflexivity|].
    cbv zeta in Hl. destruct (_ =? 0) in Hl; [discriminate|]. apply bind_ret in Hl. destruct Hl as [[b4 s4] [H1 Hl]]. apply bind_ret in Hl. destruct Hl as [[b5 s5] [H2 Hl]].
    injection Hl as Q Qs. apply andb_true_iff in Q. destruct Q as [-> ->]. cbn [negb andb] in Qs. subst s5. assert (Ic : In c (me_ch e)) by (apply Inc; left; reflexivity).
    destruct (Kids c Ic) as [Sc Bc]. rewrite Forall_forall in F. destruct (F c Ic _ _ _ _ _ Sc Bc H1) as [c1 C1]. destruct (IH (fun x X => Inc x (or_intror X)) _ _ H2) as [c2 C2].
    exists (c1 ++ c2). rewrite C2, C1, log_app. reflexivity. }
  destruct (G _ (fun x X => X) _ _ H) as [b2 L2]. exists (b1 ++ b2). rewrite L2, L1, log_app. reflexivity.
Qed.

(** * The whole tree *)
Variable Prot : Z -> Prop.
Hypothesis PT : forall anc x sz w z, reaches E M m0 v anc x -> looks E M m0 anc x (VPtr sz w) -> extent E M m0 (x :: anc) w z -> forall b, v_addr w <= b < v_addr w + z -> Prot b.
Lemma tree_done : forall off tab e anc ancD dst s s' bs (U : Z -> Prop),
  reaches E M m0 v anc (me_val e) -> built_ok E M m0 anc e -> twin (me_val e) dst -> bytes_ok (c_mem s) ->
  (forall x, addr e <= x < addr e + me_size e -> Prot x) -> (forall x, Prot x -> c_mem s x = m0 x) -> (forall x, Prot x -> U x) ->
  0 < v_addr dst -> v_addr dst + me_size e < 2 ^ 64 ->
  (forall x, v_addr dst <= x < v_addr dst + me_size e -> U x /\ ~ Prot x) ->
  length anc = length ancD -> (forall x, ptr_place anc (map v_addr ancD) x -> U x /\ ~ (v_addr dst <= x < v_addr dst + me_size e)) ->
  (nulls_left -> forall x, v_addr dst <= x < v_addr dst + me_size e -> c_mem s x = 0) ->
  copy_tree E M cal off tab ancD e dst s = Ret (true, s') -> c_log s' = rev (map evc bs) ++ c_log s -> fr U bs ->
  exists ps, map snd ps = bs /\ dn (c_mem s') (map v_addr ancD) anc e (v_addr dst) ps /\ bytes_ok (c_mem s') /\
    forall x, ~ (v_addr dst <= x < v_addr dst + me_size e) -> ~ inb bs x -> c_mem s' x = c_mem s x.
Proof.
  intros off tab e. induction e as [i0 v0 sz0 l0 ch0 F] using ment_ind2. set (e := ME i0 v0 sz0 l0 ch0) in *.
  intros anc ancD dst s s' bs U S Be Tw OK PE PM PU D1 D2 DU Len PP Zr H Lg Fr. destruct (fits_node _ _ S Be) as [Fe1 [Fe2 Fe3]].
  rewrite copy_tree_eq in H. apply bind_ret in H. destruct H as [f [Hf H]]. rewrite (not_call _ _ _ S Hf) in H. apply bind_ret in H. destruct H as [[h s1] [Hh H]].
  destruct h as [over|]; [|discriminate]. cbv zeta in H.
  assert (Leaf : me_ch e = [] -> exists ps, map snd ps = bs /\ dn (c_mem s') (map v_addr ancD) anc e (v_addr dst) ps /\ bytes_ok (c_mem s') /\
    forall x, ~ (v_addr dst <= x < v_addr dst + me_size e) -> ~ inb bs x -> c_mem s' x = c_mem s x).
  { intro Ch. rewrite Ch in H. cbn [copy_list] in H. injection H as <-.
    destruct (here_leaf off tab anc ancD e dst s over s1) as [_ [L1 [B1 [F1 O1]]]]; try assumption.
    { intros x X. apply PM. apply PE. exact X. }
    { intros x X. apply PP. exact X. }
    assert (bs = []) by (eapply log_inj with (l := c_log s); rewrite <- Lg, L1; reflexivity). subst bs. exists []. split; [reflexivity|]. split; [apply dn_leaf; assumption|]. split; [exact B1|]. intros x X _. apply F1. exact X. }
  destruct (built_looks _ _ _ _ _ Be) as [w [_ [Lw K]]]. destruct w as [|sz1|sz1 lv|sz1 chs|sz1 t1|ca]; [contradiction|apply Leaf; apply K|apply Leaf; apply K| | |].
  - (* parts *)
    destruct (me_ch e) as [|c0 r0] eqn:Ch0; [apply Leaf; reflexivity|]. rewrite <- Ch0 in *. assert (NE : me_ch e <> []) by congruence. clear Ch0 Leaf.
    destruct (here_node _ _ _ _ _ _ _ _ _ _ _ Lw NE Hh) as [-> ->]. clear Hh. destruct K as [_ [-> [FB _]]].
    destruct (node_info _ _ _ _ _ _ _ Lw) as [inf [HI Ki]].
    assert (NotPtr : forall t p, points d m0 (me_val e) t p -> False). { intros t p P. pose proof (has_info_fun _ _ _ _ HI (points_info _ _ _ _ _ P)) as ->. contradiction. }
    assert (PP' : forall x, ptr_place (me_val e :: anc) (map v_addr (dst :: ancD)) x -> U x /\ ~ (v_addr dst <= x < v_addr dst + me_size e)).
    { intros x X. cbn [map] in X. apply ptr_place_cons in X. destruct X as [X|[[t [p P]] _]]; [apply PP; exact X|destruct (NotPtr _ _ P)]. }
    set (o := v_addr dst - addr e).
    assert (G : forall l l1, me_ch e = l1 ++ l -> forall s2 s3 bs2 (U2 : Z -> Prop), bytes_ok (c_mem s2) -> (forall x, Prot x -> c_mem s2 x = m0 x) -> (forall x, U x -> U2 x) ->
       (nulls_left -> forall c x, In c l -> o + addr c <= x < o + addr c + me_size c -> c_mem s2 x = 0) ->
       copy_list E M cal off tab ancD e None (match f with Some (IPointer _) => true | _ => false end) dst l s2 = Ret (true, s3) ->
       c_log s3 = rev (map evc bs2) ++ c_log s2 -> fr U2 bs2 ->
       exists ps, map snd ps = bs2 /\ dns (c_mem s3) (map v_addr (dst :: ancD)) (me_val e :: anc) o l ps /\ bytes_ok (c_mem s3) /\
         forall x, ~ (exists c, In c l /\ o + addr c <= x < o + addr c + me_size c) -> ~ inb bs2 x -> c_mem s3 x = c_mem s2 x).
    { induction l as [|c l IH]; intros l1 Q s2 s3 bs2 U2 OK2 PM2 UU2 Zr2 Hl Lg2 Fr2; cbn [copy_list] in Hl.
      - injection Hl as <-. assert (bs2 = []) by (eapply log_inj with (l := c_log s2); rewrite <- Lg2; reflexivity). subst bs2. exists []. split; [reflexivity|]. split; [constructor|]. split; [exact OK2|auto].
      - cbv zeta in Hl. assert (Ic : In c (me_ch e)) by (rewrite Q; apply in_or_app; right; left; reflexivity).
        destruct (part_in _ _ _ _ _ S Be Lw Ic) as [P1 [P2 [Sc Bc]]]. destruct (fits_node _ _ Sc Bc) as [Fc1 [Fc2 Fc3]].
        replace (uwrap 64 (v_addr dst + uwrap 64 (addr c - addr e))) with (o + addr c) in Hl by (rewrite (uwrap_small 64 (addr c - addr e)) by lia; unfold o; rewrite uwrap_small by lia; lia).
        destruct (_ =? 0) in Hl; [discriminate|]. apply bind_ret in Hl. destruct Hl as [[b4 s4] [H1 Hl]]. apply bind_ret in Hl. destruct Hl as [[b5 s5] [H2 Hl]].
        injection Hl as Qb Qs. apply andb_true_iff in Qb. destruct Qb as [-> ->]. cbn [negb andb] in Qs. subst s5.
        destruct (tree_log _ _ _ _ _ _ _ _ Sc Bc H1) as [d1 L1].
        assert (L2 : exists d2, c_log s3 = rev (map evc d2) ++ c_log s4).
        { assert (Inc : incl l (me_ch e)) by (rewrite Q; intros x X; apply in_or_app; right; right; exact X). clear - H2 Inc S Be Lw UF Tree. revert s4 H2. induction l as [|c l IHl]; intros s4 Hl; cbn [copy_list] in Hl; [injection Hl as <-; exists []; reflexivity|].
          cbv zeta in Hl. destruct (_ =? 0) in Hl; [discriminate|]. apply bind_ret in Hl. destruct Hl as [[b4 s6] [H1 Hl]]. apply bind_ret in Hl. destruct Hl as [[b5 s5] [H2 Hl]].
          injection Hl as Qb Qs. apply andb_true_iff in Qb. destruct Qb as [-> ->]. cbn [negb andb] in Qs. subst s5.
          destruct (part_in _ _ _ _ _ S Be Lw (Inc c (or_introl eq_refl))) as [_ [_ [Sc Bc]]]. destruct (tree_log _ _ _ _ _ _ _ _ Sc Bc H1) as [d1 L1].
          destruct (IHl (fun x X => Inc x (or_intror X)) _ H2) as [d2 L2]. exists (d1 ++ d2). rewrite L2, L1, log_app. reflexivity. }
        destruct L2 as [d2 L2]. assert (Qd : bs2 = d1 ++ d2) by (eapply log_inj with (l := c_log s2); rewrite <- Lg2, L2, L1, log_app; reflexivity). subst bs2.
        apply fr_app in Fr2. destruct Fr2 as [Fr1 Fr2]. rewrite Forall_forall in F.
        destruct (F c Ic (me_val e :: anc) (dst :: ancD) (Build_value (v_entry (me_val c)) (o + addr c)) s2 s4 d1 U2) as [ps1 [M1 [Dn1 [OK4 Frm1]]]]; cbn [v_addr]; try assumption.
        { apply twin_self. }
        { intros x X. apply PE. lia. }
        { intros x X. apply UU2. apply PU. exact X. }
        { unfold o. lia. }
        { unfold o. lia. }
        { intros x X. destruct (DU x) as [A B]; [unfold o in X; lia|]. split; [apply UU2; exact A|exact B]. }
        { cbn. lia. }
        { intros x X. destruct (PP' x X) as [A B]. split; [apply UU2; exact A|]. intro Y. apply B. unfold o in Y. lia. }
        { intros NL x X. apply (Zr2 NL c); [left; reflexivity|exact X]. }
        cbn [v_addr] in *.
        assert (Sib : forall c' x, In c' l -> o + addr c <= x < o + addr c + me_size c -> o + addr c' <= x < o + addr c' + me_size c' -> False).
        { intros c' x Ic' X Y. apply in_split in Ic'. destruct Ic' as [m1 [m2 ->]].
          assert (Ic2 : In c' (me_ch e)) by (rewrite Q; apply in_or_app; right; right; apply in_or_app; right; left; reflexivity). destruct (part_in _ _ _ _ _ S Be Lw Ic2) as [_ [_ [_ Bc2]]].
          pose proof Lw as Lw2. rewrite Q, map_app in Lw2. cbn [map] in Lw2. rewrite map_app in Lw2. cbn [map] in Lw2.
          pose proof (uf_apart _ _ _ _ UF _ _ _ _ _ _ _ _ _ _ S Lw2 (built_extent _ _ _ _ _ Bc) (built_extent _ _ _ _ _ Bc2)) as A. unfold apart in A. lia. }
        assert (B1 : forall x, inb d1 x -> ~ U2 x) by (intros x X; eapply fr_out; eassumption).
        assert (InDst : forall c' x, In c' (me_ch e) -> o + addr c' <= x < o + addr c' + me_size c' -> v_addr dst <= x < v_addr dst + me_size e).
        { intros c' x Ic' X. destruct (part_in _ _ _ _ _ S Be Lw Ic') as [A1 [A2 _]]. unfold o in X. lia. }
        destruct (IH (l1 ++ [c])) with (s2 := s4) (s3 := s3) (bs2 := d2) (U2 := fun x => U2 x \/ inb d1 x) as [ps2 [M2 [Dn2 [OK5 Frm2]]]]; try assumption.
        { rewrite Q, <- app_assoc. reflexivity. }
        { intros x X. rewrite Frm1; [apply PM2; exact X| |intro Y; eapply B1; [exact Y|apply UU2; apply PU; exact X]].
          intro Y. apply (InDst c) in Y; [|exact Ic]. apply DU in Y. tauto. }
        { intros x X. left. apply UU2. exact X. }
        { intros NL c' x Ic' X. assert (Ic2 : In c' (me_ch e)) by (rewrite Q; apply in_or_app; right; right; exact Ic').
          rewrite Frm1; [apply (Zr2 NL c' x); [right; exact Ic'|exact X]| |].
          - intro Y. eapply Sib; eassumption.
          - intro Y. eapply B1; [exact Y|]. apply UU2. apply (DU x). eapply InDst; eassumption. }
        assert (Later : forall x, (U2 x \/ inb d1 x) -> (forall c', In c' l -> ~ (o + addr c' <= x < o + addr c' + me_size c')) -> c_mem s3 x = c_mem s4 x).
        { intros x X Y. apply Frm2; [intros [c' [Ic' Z']]; exact (Y c' Ic' Z')|]. intro Z'. eapply (fr_out _ _ _ Fr2 Z'). exact X. }
        exists (ps1 ++ ps2). split; [rewrite map_app, M1, M2; reflexivity|]. split; [constructor; [|exact Dn2]|split; [exact OK5|]].
        + eapply dn_keep; [exact Sc|exact Bc|cbn; rewrite map_length; lia|exact Dn1| | |].
          * intros x X. apply Later; [left; apply UU2; apply (DU x); apply (InDst c); assumption|]. intros c' Ic' Y. eapply Sib; eassumption.
          * intros x X. rewrite M1 in X. apply Later; [right; exact X|]. intros c' Ic' Y. eapply B1; [exact X|]. apply UU2. apply (DU x). apply (InDst c'); [|exact Y]. rewrite Q. apply in_or_app. right. right. exact Ic'.
          * intros x X. destruct (PP' x X) as [A B]. apply Later; [left; apply UU2; exact A|]. intros c' Ic' Y. apply B. apply (InDst c'); [|exact Y]. rewrite Q. apply in_or_app. right. right. exact Ic'.
        + intros x X Y. rewrite Frm2; [|intros [c' [Ic' Z']]; apply X; exists c'; split; [right; exact Ic'|exact Z']|intro Z'; apply Y; apply inb_app; right; exact Z'].
          apply Frm1; [intro Z'; apply X; exists c; split; [left; reflexivity|exact Z']|intro Z'; apply Y; apply inb_app; left; exact Z']. }
    destruct (G (me_ch e) [] eq_refl s s' bs U OK PM (fun x X => X)) as [ps [M1 [Dn [OK' Frm]]]]; try assumption.
    { intros NL c x Ic X. apply (Zr NL). destruct (part_in _ _ _ _ _ S Be Lw Ic) as [A1 [A2 _]]. unfold o in X. lia. }
    exists ps. split; [exact M1|]. split; [eapply dn_parts; [exact Lw|exact NE|exact Dn]|]. split; [exact OK'|].
    intros x X Y. apply Frm; [|exact Y]. intros [c [Ic Z']]. apply X. destruct (part_in _ _ _ _ _ S Be Lw Ic) as [A1 [A2 _]]. unfold o in Z'. lia.
  - (* a pointer *)
    destruct K as [_ [_ [c [Ch [Qv _]]]]]. subst t1. destruct (ptr_in _ _ _ _ S Be Lw Ch) as [P1 [[t [p P2]] [P3 [Sc Bc]]]]. destruct (fits_node _ _ Sc Bc) as [Fc1 [Fc2 Fc3]].
    destruct (here_ptr _ _ _ _ _ _ _ _ _ _ _ Be (points_info _ _ _ _ _ P2) Ch Hh) as [a [-> [NZ [L1 M1]]]]. cbv zeta in M1. clear Hh.
    rewrite Ch in H. cbn [copy_list] in H. destruct (a =? 0); [discriminate|]. apply bind_ret in H. destruct H as [[b4 s4] [H1 H]]. cbn [bind] in H.
    injection H as Qb Qs. rewrite andb_true_r in Qb. subst b4. cbn [negb andb] in Qs. subst s4.
    destruct (tree_log _ _ _ _ _ _ _ _ Sc Bc H1) as [d1 L2]. assert (Qd : bs = (a, me_size c) :: d1).
    { eapply log_inj with (l := c_log s). rewrite <- Lg, L2, L1. cbn [map rev]. rewrite <- app_assoc. reflexivity. }
    subst bs. cbn in Fr. destruct Fr as [A1 [A2 [A3 [A4 Fr]]]]. rewrite P3 in *.
    set (cm := zero_fill (c_mem s) a (me_size c)) in *.
    assert (Zin : forall x, a <= x < a + me_size c -> cm x = 0) by (intros x X; unfold cm, zero_fill; replace (_ && _) with true by lia; reflexivity).
    assert (Zout : forall x, ~ (a <= x < a + me_size c) -> cm x = c_mem s x) by (intros x X; unfold cm, zero_fill; replace (_ && _) with false by lia; reflexivity).
    assert (OKc : bytes_ok cm). { intro x. destruct (Z_le_dec a x), (Z_lt_dec x (a + me_size c)); try (rewrite Zout by lia; apply OK). rewrite Zin by lia. lia. }
    assert (Np : number_at cm (addr e) 8 = number_at m0 (addr e) 8).
    { apply number_ext. intros x X. change (Z.of_nat 8) with 8 in X. assert (Px : Prot x) by (apply PE; exact X). rewrite Zout; [apply PM; exact Px|]. intro Y. eapply A4; [exact Y|]. apply PU. exact Px. }
    rewrite Np in M1. set (q := number_at m0 (addr e) 8) in *.
    assert (Qa : uwrap 64 (a + uwrap 64 (q - addr c)) = a + (q - addr c)) by (rewrite (uwrap_small 64 (q - addr c)) by lia; rewrite uwrap_small by lia; reflexivity). rewrite Qa in M1.
    assert (S1 : forall x, ~ (v_addr dst <= x < v_addr dst + 8) -> c_mem s1 x = cm x) by (intros x X; rewrite M1; apply store_out; exact X).
    assert (Ad : forall x, a <= x < a + me_size c -> ~ (v_addr dst <= x < v_addr dst + 8)) by (intros x X Y; eapply A4; [exact X|]; apply (DU x); exact Y).
    rewrite Forall_forall in F. assert (Ic : In c ch0) by (change ch0 with (me_ch e); rewrite Ch; left; reflexivity).
    destruct (F c Ic (me_val e :: anc) (dst :: ancD) (Build_value (v_entry (me_val c)) a) s1 s' d1 (fun x => U x \/ a <= x < a + me_size c)) as [ps [Mp [Dn [OK' Frm]]]]; cbn [v_addr]; try assumption.
    { apply twin_self. }
    { rewrite M1. apply store_bytes_ok. exact OKc. }
    { intros x X. eapply PT; [exact S|exact Lw|apply (built_extent _ _ _ _ _ Bc)|exact X]. }
    { intros x X. rewrite S1; [|intro Y; apply DU in Y; tauto]. rewrite Zout; [apply PM; exact X|]. intro Y. eapply A4; [exact Y|]. apply PU. exact X. }
    { intros x X. left. apply PU. exact X. }
    { intros x X. split; [right; exact X|]. intro Y. eapply A4; [exact X|]. apply PU. exact Y. }
    { cbn. lia. }
    { intros x X. cbn [map] in X. apply ptr_place_cons in X. destruct X as [X|[_ X]].
      - destruct (PP x X) as [B1 B2]. split; [left; exact B1|]. intro Y. eapply A4; eassumption.
      - destruct (DU x X) as [B1 _]. split; [left; exact B1|]. intro Y. eapply A4; eassumption. }
    { intros NL x X. rewrite S1 by (apply Ad; exact X). apply Zin. exact X. }
    cbn [v_addr] in *. exists ((v_addr dst, (a, me_size c)) :: ps). split; [cbn [map snd]; rewrite Mp; reflexivity|]. split.
    + eapply dn_ptr; [exact Lw|exact Ch| |exact Dn]. fold q.
      rewrite <- (number_store cm (v_addr dst) (a + (q - addr c))) by lia. rewrite <- M1. apply number_ext. intros x X. change (Z.of_nat 8) with 8 in X. apply Frm.
      * intro Y. eapply Ad; eassumption.
      * intro Y. eapply (fr_out _ _ _ Fr Y). left. apply (DU x). exact X.
    + split; [exact OK'|]. intros x X Y. rewrite Frm; [|intro Z'; apply Y; exists a, (me_size c); split; [left; reflexivity|exact Z']|].
      * rewrite S1 by exact X. apply Zout. intro Z'. apply Y. exists a, (me_size c). split; [left; reflexivity|exact Z'].
      * intros [b [z' [I Z']]]. apply Y. exists b, z'. split; [right; exact I|exact Z'].
  - destruct (call_info _ _ _ _ _ _ Lw) as [ic [Hc Kc]]. destruct (uf_data _ _ _ _ UF _ _ _ S Hc Kc).
Qed.
End Tree.
