(** Copies reach their end on well-formed data. *)
From Coq Require Import ZArith String List Bool Permutation Lia ZifyBool.
From Verif Require Import Base BaseProof EntryModel EntrySpec EntryProof ValueModel ValueSpec ValueProof ValueProof2 DeepModel DeepSpec DeepProof DeepProof2 DeepProof3 DeepProof4 DeepProof5 DeepProof6 DeepProof7 DeepProof8
  CopySpec CopyProof CopyProof2 CopyProof3 CopyProof4 MoveSpec MoveProof MoveProof4 EqualSpec CompleteSpec CompleteProof.
Import ListNotations.
Open Scope Z_scope.

Lemma together_length : forall {X Y} (P : X -> Y -> Prop) l l', Forall2 P l l' -> length l = length l'.
Proof. intros X Y P l l' F. induction F as [|x y l l' H F IH]; cbn; [reflexivity|rewrite IH; reflexivity]. Qed.

Section Makes.
Variable E : env.
Variable M : mode.
Variable n0 : nat.
Notation n := (en_fuel E).
Notation d := (en_db E).
Notation g := (en_garbage E).
Hypothesis A : acyclic d n0.
Hypothesis N : n = (n0 + 3)%nat.

Lemma pointer_is : forall x t, has_info d x (IPointer t) -> pointer_type d x.
Proof. intros x t [e [F I]]. exists e, t. split; assumption. Qed.
Lemma kind_pointer : forall x t, has_info d x (IPointer t) -> value_kind_is E x is_pointer_info = Ret true.
Proof. intros x t [e [F I]]. unfold value_kind_is. rewrite N, (final_if_type d n0 _ e) by assumption. rewrite I. reflexivity. Qed.
Lemma set_pointer_makes : forall cm y t x, has_info d y (IPointer t) -> exists m', value_set_pointer n d cm y x = Ret (0, m').
Proof. intros cm y t x I. rewrite N. destruct (pointer_write d n0 cm y x A (pointer_is _ _ I)) as [m' [S _]]. exists m'. exact S. Qed.
Lemma copy_pointer_makes : forall cm x y t t', has_info d x (IPointer t) -> has_info d y (IPointer t') -> exists m', value_copy_pointer n d cm x y = Ret (true, m').
Proof.
  intros cm x y t t' I J. unfold value_copy_pointer. pose proof (pointer_read d n0 cm x A (pointer_is _ _ I)) as Rd. rewrite <- N in Rd. rewrite Rd. cbn [bind].
  destruct (set_pointer_makes cm y t' (number_at cm (v_addr x) 8) J) as [m' S]. rewrite S. exists m'. reflexivity.
Qed.
Lemma copy_enum_makes : forall cm x y z l, bytes_ok cm -> has_info d x (IEnum z l) -> has_info d y (IEnum z l) -> In z [1; 2; 4; 8] ->
  exists m', value_copy_enumeration n d cm x y = Ret (true, m').
Proof.
  intros cm x y z l BM I J W0. assert (W : word z) by (unfold word; cbn in W0; intuition). unfold value_copy_enumeration. rewrite N.
  rewrite (enum_read d n0 cm x z l A BM I W). cbn [bind].
  destruct (enum_write d n0 cm y z l (as_signed (8 * z) (number_at cm (v_addr x) (Z.to_nat z))) A J W) as [m' [S _]]. rewrite S. exists m'. reflexivity.
Qed.

Section Walk.
Variable cal : nat -> Z -> Z.
Variable m0 : mem.
Variable v : value.
Variable top : ment.
Hypothesis B0 : built_ok E M m0 [] top.
Hypothesis V0 : me_val top = v.
Hypothesis CP : orderly E M m0 v.
Hypothesis UI : mo_union M <> UNION_ignore.
Variable R : list region.
Hypothesis RF : forall r, In r R -> 0 < r_src r /\ 0 <= r_size r /\ r_src r + r_size r < 2 ^ 64 /\ 0 < r_dst r /\ r_dst r + r_size r < 2 ^ 64.
Hypothesis RS : forall r r', In r R -> In r' R -> r = r' \/ r_src r + r_size r <= r_src r' \/ r_src r' + r_size r' <= r_src r.
Hypothesis RD : forall r r', In r R -> In r' R -> r = r' \/ r_dst r + r_size r <= r_dst r' \/ r_dst r' + r_size r' <= r_dst r.
Hypothesis RX : forall r r', In r R -> In r' R -> r_src r + r_size r <= r_dst r' \/ r_dst r' + r_size r' <= r_src r.
Notation addr e := (v_addr (me_val e)).
Variable off : list (nat * Z).
Variable tab : list (Z * Z).
Hypothesis CB : forall e c t, in_tree e top -> In c (me_ch e) -> has_info d (me_val e) (IPointer t) ->
  exists rc, In rc R /\ in_region rc (addr c) (me_size c) /\ 0 < me_size c /\ forall s, child_block M cal off tab c s = (0, s) \/ child_block M cal off tab c s = (moved rc (addr c), s).
Hypothesis CN : forall e c t s s', in_tree e top -> In c (me_ch e) -> has_info d (me_val e) (IPointer t) -> child_block M cal off tab c s <> (0, s').
Hypothesis Dag : mo_tree M = false.
Hypothesis CD : forall anc x i, sees E M m0 v anc x -> has_info d x i -> callable i -> anc = [].
Hypothesis WR : writable E M m0 v.
Notation Iv := (Inv E M m0 top R).
(** the place to write to *)
Definition place (x y : value) : Prop := twin E x y /\ (forall z c, has_info d x (IBase z c) -> ~ is_const d y).

Lemma here_makes : forall W s e dst r ancS ancD, Iv W (c_mem s) -> in_tree e top -> reaches E M m0 v ancS (me_val e) -> built_ok E M m0 ancS e ->
  In r R -> in_region r (addr e) (me_size e) -> place (me_val e) dst -> Forall2 place ancS ancD ->
  exists over s', copy_here E M cal off tab ancD e dst s = Ret (Some over, s').
Proof.
  intros W s e dst r ancS ancD I T Rc Be Ir Ar [Tw Nc] An. pose proof (reaches_sees _ _ _ _ _ _ Rc) as S.
  destruct (built_info _ _ _ _ _ Be) as [i [F J]]. unfold copy_here. rewrite F. cbn [bind]. apply final_info_some in F.
  pose proof (twin_info E _ _ _ Tw F) as Fd.
  assert (OK : forall x : res (bool * mem), (exists m', x = Ret (true, m')) ->
    exists (over : option Z) s', (do r0 <- x; Ret (if fst r0 then Some None else None, with_mem s (snd r0)))%res = Ret (Some over, s')).
  { intros x [m' ->]. cbn [bind fst snd]. eexists _, _. reflexivity. }
  destruct i as [ | |z c|t| |z l| | |[]| | | | | ]; try (eexists _, _; reflexivity).
  - apply OK. destruct (cp_base _ _ _ _ CP _ _ _ _ S F) as [k [name [encs [sg [T1 [T2 T3]]]]]].
    rewrite N. destruct (copy_base_plain d n0 g (c_mem s) (me_val e) dst k A T1 (type_ctype _ _ _ _ Tw T1) (Nc _ _ F) T2 (proj2 Tw T2)) as [m' [Q _]]. exists m'. exact Q.
  - destruct (built_looks _ _ _ _ _ Be) as [w [_ [Lw K]]].
    assert (NODE : forall sz ch, looks E M m0 ancS (me_val e) (VNode sz ch) -> False).
    { intros sz ch L. eapply node_not_ptr; eassumption. }
    assert (S8 : me_size e = 8).
    { assert (It : item E M top (addr e) (me_size e) true) by (exists e; split; [exact T|]; split; [exists (IPointer t); split; [exact F|reflexivity]|split; reflexivity]).
      eapply (item_ptr E M m0 v top B0 V0 CP); exact It. }
    destruct (me_ch e) as [|c l] eqn:Ch.
    + destruct (0 <? me_loop e) eqn:Lp.
      * destruct w as [|sz1|sz1 lv|sz1 ch1|sz1 t1|ca]; [contradiction| | | | |]; try (decompose [and] K; lia).
        destruct K as [_ [-> _]]. inversion Lw as [ | | |sz' t' p l' P NZ LA S'| | | | | | ]; subst. destruct LA as [pre [a [post [t2 [-> [Q1 [Q2 _]]]]]]].
        subst lv. replace (Z.to_nat (Z.of_nat (length pre) + 1 - 1)) with (length pre) by lia.
        apply Forall2_app_inv_l in An. destruct An as [pre' [rest [An1 [An2 ->]]]]. inversion An2 as [|a0 b l1 l2 Pab An3]; subst.
        pose proof (together_length _ _ _ An1) as Le. rewrite nth_error_app2 by lia. replace (length pre - length pre')%nat with O by lia. cbn [nth_error].
        destruct Pab as [Pab _]. pose proof (twin_info E _ _ _ Pab (points_info _ _ _ _ _ Q2)) as Ib. rewrite (kind_pointer _ _ Ib). cbn [bind].
        apply OK. eapply copy_pointer_makes; eassumption.
      * destruct (mo_uptr M); try (eexists _, _; reflexivity).
        -- destruct (set_pointer_makes (c_mem s) dst t 0 Fd) as [m' Q]. rewrite Q. cbn [bind fst snd Z.eqb]. eexists _, _. reflexivity.
        -- apply OK. eapply copy_pointer_makes; eassumption.
    + assert (Ic : In c (me_ch e)) by (rewrite Ch; left; reflexivity).
      destruct (CB e c t T Ic F) as [rc [C1 [C2 [C3 C4]]]]. destruct (C4 s) as [Q|Q]; [destruct (CN e c t s s T Ic F Q)|]. rewrite Q.
      assert (Mv : 0 < moved rc (addr c)). { destruct (RF rc C1) as [A1 [A2 [A3 [A4 A5]]]]. unfold in_region, moved in *. lia. }
      replace (moved rc (addr c) =? 0) with false by lia.
      pose proof (pointer_read d n0 (c_mem s) (me_val e) A (pointer_is _ _ F)) as Rd. rewrite <- N in Rd. rewrite Rd. cbn [bind].
      assert (NZ : number_at (c_mem s) (addr e) 8 <> 0).
      { rewrite (source_number E M m0 top R RX W (c_mem s) r (addr e) 8 I Ir) by (rewrite S8 in Ar; exact Ar).
        destruct w as [|sz1|sz1 lv|sz1 ch1|sz1 t1|ca]; try (decompose [and] K; discriminate); [contradiction|destruct (NODE _ _ Lw)| |].
        - inversion Lw as [ | | | |sz' p w' T' NL S'| | | | | ]; subst. destruct (target_points _ _ _ _ _ _ _ T') as [Pn [t' [_ P']]]. rewrite <- P'. exact Pn.
        - destruct (call_info _ _ _ _ _ _ Lw) as [i' [I' Ci]]. pose proof (has_info_fun _ _ _ _ F I') as <-. destruct Ci. }
      replace (number_at (c_mem s) (addr e) 8 =? 0) with false by lia.
      destruct (set_pointer_makes (c_mem s) dst t (uwrap 64 (moved rc (addr c) + uwrap 64 (number_at (c_mem s) (addr e) 8 - addr c))) Fd) as [m' Q']. rewrite Q'. cbn [bind fst snd Z.eqb]. eexists _, _. reflexivity.
  - apply OK. eapply copy_enum_makes; [exact (iv_ok _ _ _ _ _ _ _ I)|exact F|exact Fd|]. exact (proj2 (WR _ _ Rc) _ _ F).
  - destruct (me_ch e), (mo_union M); try (eexists _, _; reflexivity); destruct (0 <? me_size e); eexists _, _; reflexivity.
Qed.

Lemma reach_next : forall ancS e c, reaches E M m0 v ancS (me_val e) -> built_ok E M m0 ancS e -> In c (me_ch e) ->
  reaches E M m0 v (me_val e :: ancS) (me_val c) /\ built_ok E M m0 (me_val e :: ancS) c.
Proof.
  intros ancS e c S Be Ic. split; [|eapply (reach_child E M m0 v top V0 CP ancS e c); [apply reaches_sees; exact S|exact Be|exact Ic]].
  destruct (built_looks _ _ _ _ _ Be) as [w [_ [Lw K]]]. destruct w as [|sz1|sz1 lv|sz1 chs|sz1 t1|ca]; [contradiction| | | | |].
  - destruct K as [_ [_ K]]. rewrite K in Ic. destruct Ic.
  - destruct K as [_ [_ K]]. rewrite K in Ic. destruct Ic.
  - destruct K as [_ [-> [F _]]]. eapply re_node; [exact S|exact Lw|apply in_map; exact Ic].
  - destruct K as [_ [_ [c' [K1 [K2 K3]]]]]. rewrite K1 in Ic. destruct Ic as [<-|[]]. rewrite K2. eapply re_ptr; eassumption.
  - destruct K as [_ [_ [-> F]]]. eapply re_call; [exact S|exact Lw|apply in_map; exact Ic].
Qed.

Lemma tree_makes : forall e W s dst r ancS ancD, (forall i, has_info d (me_val e) i -> ~ callable i) -> Iv W (c_mem s) -> in_tree e top ->
  reaches E M m0 v ancS (me_val e) -> built_ok E M m0 ancS e -> In r R -> in_region r (addr e) (me_size e) -> v_addr dst = moved r (addr e) ->
  place (me_val e) dst -> ancs E m0 R W ancS ancD -> Forall2 place ancS ancD ->
  exists s', copy_tree E M cal off tab ancD e dst s = Ret (true, s').
Proof.
  intro e. induction e as [i0 v0 sz0 l0 ch0 F] using ment_ind2. set (e := ME i0 v0 sz0 l0 ch0) in *.
  intros W s dst r ancS ancD ND I T Rc Be Ir Ar D Pl An Ap. pose proof (reaches_sees _ _ _ _ _ _ Rc) as S.
  rewrite copy_tree_eq. destruct (built_info _ _ _ _ _ Be) as [i [Fi J]]. rewrite Fi. cbn [bind]. pose proof Fi as Hi. apply final_info_some in Hi.
  assert (NC : is_call_info i = false).
  { pose proof (ND _ Hi) as K. destruct i as [ | | | | | | | | | |[|] ?| | | ]; try reflexivity; destruct (K Logic.I). }
  rewrite NC. destruct (here_makes W s e dst r ancS ancD I T Rc Be Ir Ar Pl Ap) as [over [s1 Hh]]. rewrite Hh. cbn [bind]. cbv zeta.
  destruct (here_inv E M cal m0 v top B0 V0 CP UI R RF RS RD RX off tab CB Dag W s e dst r ancS ancD over s1 ND I T S Be Ir Ar D (proj1 Pl) An Hh) as [W1 [I1 [Sub1 [Own Ov]]]].
  assert (An1 : ancs E m0 R W1 (me_val e :: ancS) (dst :: ancD)).
  { constructor; [|eapply ancs_mono; [exact Sub1|exact An]]. intros t p P.
    assert (Ms : msc E M e true) by (eexists; split; [apply (points_info _ _ _ _ _ P)|reflexivity]).
    assert (It : item E M top (addr e) (me_size e) true) by (exists e; auto). pose proof (item_ptr E M m0 v top B0 V0 CP _ _ It) as S8. rewrite S8 in Ar.
    exists r. split; [exact Ir|]. split; [exact Ar|]. split; [exact D|]. rewrite <- S8. apply Own. exact Ms. }
  assert (Pc : forall c, In c (me_ch e) -> exists rc, In rc R /\ in_region rc (addr c) (me_size c) /\ moved rc (addr c) <> 0 /\
     match over with Some a => a | None => uwrap 64 (v_addr dst + uwrap 64 (addr c - addr e)) end = moved rc (addr c)).
  { intros c Ic. destruct (reach_child E M m0 v top V0 CP _ _ _ S Be Ic) as [Sc Bc]. destruct (fits_node E M m0 v CP _ _ Sc Bc) as [_ [Fc _]]. destruct (fits_node E M m0 v CP _ _ S Be) as [Fe [_ _]].
    assert (NZ : forall rc, In rc R -> in_region rc (addr c) (me_size c) -> moved rc (addr c) <> 0).
    { intros rc Q2 Q3. destruct (RF rc Q2) as [A1 [A2 [A3 [A4 A5]]]]. unfold in_region, moved in *. lia. }
    destruct over as [a|].
    - destruct Ov as [c' [rc [Q1 [Q2 [Q3 Q4]]]]]. rewrite Q1 in Ic. destruct Ic as [<-|[]]. exists rc. auto.
    - destruct Ov as [Q|[sz [ch Q]]]; [rewrite Q in Ic; destruct Ic|]. exists r. split; [exact Ir|].
      destruct (part_region E M m0 v top V0 CP R _ _ _ _ _ _ S Be Q Ic Ir Ar) as [Q1 Q2]. split; [exact Q1|]. split; [apply NZ; assumption|].
      destruct (RF r Ir) as [A1 [A2 [A3 [A4 A5]]]].
      unfold in_region in *. rewrite (uwrap_small 64 (addr c - addr e)) by lia. rewrite D. unfold moved. rewrite uwrap_small by lia. lia. }
  clear Hh Ov.
  assert (G : forall l, incl l (me_ch e) -> forall W2 s2, Iv W2 (c_mem s2) -> (forall a z b, W1 a z b -> W2 a z b) ->
     exists s3, copy_list E M cal off tab ancD e over (match Some i with Some (IPointer _) => true | _ => false end) dst l s2 = Ret (true, s3)).
  { induction l as [|c l IH]; intros Inc W2 s2 I2 Sub2; cbn [copy_list]; [exists s2; reflexivity|].
    assert (Ic : In c (me_ch e)) by (apply Inc; left; reflexivity).
    destruct (Pc c Ic) as [rc [P1 [P2 [P3 P4]]]]. destruct (reach_next _ _ _ Rc Be Ic) as [Sc Bc].
    cbv zeta. rewrite P4. replace (moved rc (addr c) =? 0) with false by lia.
    assert (NDc : forall i, has_info d (me_val c) i -> ~ callable i).
    { intros j Hj Kj. pose proof (CD _ _ _ (reaches_sees _ _ _ _ _ _ Sc) Hj Kj). discriminate. }
    assert (Tc : in_tree c top) by (eapply child_in; eassumption).
    assert (Plc : place (me_val c) (Build_value (v_entry (me_val c)) (moved rc (addr c)))).
    { split; [apply twin_self|]. intros z k Hb. exact (proj1 (WR _ _ Sc) _ _ Hb). }
    assert (Anc : ancs E m0 R W2 (me_val e :: ancS) (dst :: ancD)) by (eapply ancs_mono; [exact Sub2|exact An1]).
    rewrite Forall_forall in F.
    destruct (F c Ic W2 s2 (Build_value (v_entry (me_val c)) (moved rc (addr c))) rc (me_val e :: ancS) (dst :: ancD)) as [s4 H4]; try assumption; try reflexivity.
    { constructor; assumption. }
    destruct (tree_inv E M cal m0 v top B0 V0 CP UI R RF RS RD RX off tab CB Dag CD c W2 s2 (Build_value (v_entry (me_val c)) (moved rc (addr c))) rc (me_val e :: ancS) (dst :: ancD) s4) as [W3 [I3 [Sub3 _]]]; try assumption; try reflexivity.
    { apply reaches_sees. exact Sc. } { apply Plc. }
    rewrite H4. cbn [bind]. destruct (IH (fun x X => Inc x (or_intror X)) W3 s4 I3) as [s5 H5]; [auto|]. rewrite H5. cbn [bind negb andb]. exists s5. reflexivity. }
  exact (G (me_ch e) (fun x X => X) W1 s1 I1 (fun a z b X => X)).
Qed.
End Walk.
End Makes.
