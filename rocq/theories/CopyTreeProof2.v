(** Deep copies as trees: soundness. *)
From Coq Require Import ZArith String List Bool Lia ZifyBool Permutation.
From Verif Require Import Base BaseProof EntryModel EntrySpec EntryProof ValueModel ValueSpec ValueProof ValueProof2 DeepModel DeepSpec
  DeepProof DeepProof2 DeepProof4 DeepProof5 DeepProof6 DeepProof7 DeepProof8 CopySpec CopyProof CopyProof2 CopyProof3 CopyProof4 CopyTreeSpec CopyTreeProof.
Import ListNotations.
Open Scope Z_scope.

Section Ways.
Variable E : env.
Variable M : mode.
Notation d := (en_db E).
Variable m0 : mem.
Variable v : value.
Hypothesis UF : unfoldable E M m0 v.
Variable cm : mem.
Variable a : Z.
Notation addr e := (v_addr (me_val e)).
Notation dn := (dn E M m0).
Notation dns := (dns E M m0).

Lemma dns_in : forall ys anc o l ps c, dns cm ys anc o l ps -> In c l -> exists ps', dn cm ys anc c (o + addr c) ps' /\ incl ps' ps.
Proof.
  intros ys anc o l. induction l as [|c0 l IH]; intros ps c D I; [destruct I|]. inversion D as [|ys1 anc1 o1 c1 l1 p1 p2 D1 D2]; subst.
  destruct I as [<-|I].
  - exists p1. split; [exact D1|]. apply incl_appl, incl_refl.
  - destruct (IH _ _ D2 I) as [q [Q1 Q2]]. exists q. split; [exact Q1|]. apply incl_appr. exact Q2.
Qed.
Lemma dns_from : forall ys anc o l ps q, dns cm ys anc o l ps -> In q ps -> exists c ps', In c l /\ dn cm ys anc c (o + addr c) ps' /\ In q ps'.
Proof.
  intros ys anc o l. induction l as [|c0 l IH]; intros ps q D I; inversion D as [|ys1 anc1 o1 c1 l1 p1 p2 D1 D2]; subst; [destruct I|].
  apply in_app_or in I. destruct I as [I|I].
  - exists c0, p1. split; [left; reflexivity|]. auto.
  - destruct (IH _ _ D2 I) as [c [ps' [Q1 Q2]]]. exists c, ps'. split; [right; exact Q1|exact Q2].
Qed.
Lemma own_of : forall ys anc e y ps, built_ok E M m0 anc e -> dn cm ys anc e y ps -> own E M m0 cm ys anc (me_val e) y.
Proof.
  intros ys anc e y ps Be D. inversion D as [ys0 anc0 e0 y0 Ch O|ys0 anc0 e0 y0 sz ps0 L NE Ds|ys0 anc0 e0 y0 sz c a0 ps0 L Ch Nu Dc]; subst; [exact O| |].
  - destruct (node_info _ _ _ _ _ _ _ L) as [i [HI Ki]].
    assert (NP : forall t p, points d m0 (me_val e) t p -> False). { intros t p P. pose proof (has_info_fun _ _ _ _ HI (points_info _ _ _ _ _ P)) as ->. contradiction. }
    split; [|split; [intros t P; destruct (NP _ _ P)|split; [intros t p z P; destruct (NP _ _ P)|intros z l L'; pose proof (looks_fun _ _ _ _ _ _ _ L L'); discriminate]]].
    intros s S. exfalso. inversion S as [i' z' I' K' Sz'| |z' l' sz' I' U' L']; subst.
    + pose proof (has_info_fun _ _ _ _ HI I') as <-. destruct i; contradiction.
    + pose proof (looks_fun _ _ _ _ _ _ _ L L') as Q. injection Q as _ Q. apply map_eq_nil in Q. contradiction.
  - assert (T : exists t p, points d m0 (me_val e) t p /\ p <> 0). { inversion L as [| | | |sz' p' w' T' NL' S'| | | | |]; subst. destruct (target_points _ _ _ _ _ _ _ T') as [NZ [t' P']]. eauto. }
    destruct T as [t [p [P NZ]]].
    split; [|split; [intros t' P'; destruct (points_fun _ _ _ _ _ _ _ P P') as [_ Q]; congruence|split; [intros t' p' z P' _ L'; pose proof (looks_fun _ _ _ _ _ _ _ L L'); discriminate|intros z l L'; pose proof (looks_fun _ _ _ _ _ _ _ L L'); discriminate]]].
    intros s S. exfalso. inversion S as [i' z' I' K' Sz'| |z' l' sz' I' U' L']; subst; pose proof (has_info_fun _ _ _ _ (points_info _ _ _ _ _ P) I') as Q; subst; [contradiction|discriminate].
Qed.
Variable top : ment.
Hypothesis V0 : me_val top = v.
Hypothesis Bt : built_ok E M m0 [] top.
Variable ps : list (Z * block).
Hypothesis Dt : dn cm [] [] top a ps.
Lemma along_dn : forall anc x ys y, along E M m0 cm v a anc x ys y ->
  exists e ps', built_ok E M m0 anc e /\ me_val e = x /\ reaches E M m0 v anc x /\ dn cm ys anc e y ps' /\ incl ps' ps.
Proof.
  intros anc x ys y A. induction A as [|anc x ys y sz ch c A IH L Ic|anc x ys y sz w A IH L].
  - exists top, ps. split; [exact Bt|]. split; [exact V0|]. split; [apply re_here|]. split; [exact Dt|apply incl_refl].
  - destruct IH as [e [ps' [Be [<- [S [D Inc]]]]]]. destruct (built_node _ _ _ _ _ _ _ Be L) as [-> [F _]]. apply in_map_iff in Ic. destruct Ic as [ce [<- Ic]]. rewrite Forall_forall in F.
    inversion D as [ys0 anc0 e0 y0 Ch O|ys0 anc0 e0 y0 sz1 ps0 L1 NE Ds|ys0 anc0 e0 y0 sz1 c a0 ps0 L1 Ch Nu Dc]; subst.
    + rewrite Ch in Ic. destruct Ic.
    + destruct (dns_in _ _ _ _ _ _ Ds Ic) as [q [Q1 Q2]]. exists ce, q. split; [apply F; exact Ic|]. split; [reflexivity|]. split; [eapply re_node; [exact S|exact L|apply in_map; exact Ic]|].
      split; [|eapply incl_tran; eassumption]. replace (y + (addr ce - addr e)) with (y - addr e + addr ce) by lia. exact Q1.
    + pose proof (looks_fun _ _ _ _ _ _ _ L L1). discriminate.
  - destruct IH as [e [ps' [Be [<- [S [D Inc]]]]]]. destruct (built_ptr _ _ _ _ _ _ _ Be L) as [ce [Ch [<- Bc]]].
    inversion D as [ys0 anc0 e0 y0 Ch1 O|ys0 anc0 e0 y0 sz1 ps0 L1 NE Ds|ys0 anc0 e0 y0 sz1 c a0 ps0 L1 Ch1 Nu Dc]; subst.
    + congruence.
    + pose proof (looks_fun _ _ _ _ _ _ _ L L1). discriminate.
    + rewrite Ch in Ch1. injection Ch1 as <-. exists ce, ps0. split; [exact Bc|]. split; [reflexivity|]. split; [eapply re_ptr; eassumption|]. split.
      * rewrite Nu. replace (a0 + _ - _) with a0 by lia. exact Dc.
      * intros q Q. apply Inc. right. exact Q.
Qed.
Lemma link_in : forall anc x ys y sz w, along E M m0 cm v a anc x ys y -> looks E M m0 anc x (VPtr sz w) ->
  exists b, In (y, b) ps /\ fst b = number_at cm y 8 - (number_at m0 (v_addr x) 8 - v_addr w) /\ extent E M m0 (x :: anc) w (snd b).
Proof.
  intros anc x ys y sz w A L. destruct (along_dn _ _ _ _ A) as [e [ps' [Be [<- [S [D Inc]]]]]]. destruct (built_ptr _ _ _ _ _ _ _ Be L) as [ce [Ch [<- Bc]]].
  inversion D as [ys0 anc0 e0 y0 Ch1 O|ys0 anc0 e0 y0 sz1 ps0 L1 NE Ds|ys0 anc0 e0 y0 sz1 c a0 ps0 L1 Ch1 Nu Dc]; subst.
  - congruence.
  - pose proof (looks_fun _ _ _ _ _ _ _ L L1). discriminate.
  - rewrite Ch in Ch1. injection Ch1 as <-. exists (a0, me_size ce). split; [apply Inc; left; reflexivity|]. cbn [fst snd]. split; [rewrite Nu; lia|]. apply built_extent. exact Bc.
Qed.
Lemma used_gen : forall e ys anc y qs, along E M m0 cm v a anc (me_val e) ys y -> built_ok E M m0 anc e -> dn cm ys anc e y qs ->
  forall y' b, In (y', b) qs -> link_at E M m0 cm v a y' b.
Proof.
  intro e. induction e as [i0 v0 sz0 l0 ch0 F] using ment_ind2. set (e := ME i0 v0 sz0 l0 ch0) in *. intros ys anc y qs A Be D y' b I. rewrite Forall_forall in F.
  inversion D as [ys0 anc0 e0 y0 Ch1 O|ys0 anc0 e0 y0 sz1 ps0 L1 NE Ds|ys0 anc0 e0 y0 sz1 c a0 ps0 L1 Ch1 Nu Dc]; subst.
  - destruct I.
  - destruct (dns_from _ _ _ _ _ _ Ds I) as [c [ps' [Ic [Dc Iq]]]]. destruct (built_node _ _ _ _ _ _ _ Be L1) as [_ [FB _]]. rewrite Forall_forall in FB.
    eapply (F c Ic); [|apply FB; exact Ic|exact Dc|exact Iq]. replace (y - addr e + addr c) with (y + (addr c - addr e)) by lia. eapply al_part; [exact A|exact L1|apply in_map; exact Ic].
  - destruct (built_ptr _ _ _ _ _ _ _ Be L1) as [ce [Ch [Qv Bc]]]. rewrite Ch in Ch1. injection Ch1 as <-. destruct I as [Q|I].
    + injection Q as <- <-. exists anc, (me_val e), ys, sz1, (me_val ce). split; [exact A|]. split; [exact L1|]. cbn [fst snd]. split; [rewrite Nu; lia|apply built_extent; exact Bc].
    + assert (Ic : In ce ch0) by (change ch0 with (me_ch e); rewrite Ch; left; reflexivity).
      eapply (F ce Ic); [|exact Bc|exact Dc|exact I]. replace a0 with (number_at cm y 8 - (number_at m0 (addr e) 8 - addr ce)) by (rewrite Nu; lia). eapply al_ptr; eassumption.
Qed.
Lemma link_place : forall y b, link_at E M m0 cm v a y b -> In (y, b) ps.
Proof.
  intros y b [anc [x [ys [sz [w [A [L [Fb Xb]]]]]]]]. destruct (link_in _ _ _ _ _ _ A L) as [b' [I [F' X']]].
  assert (b = b'); [|subst; exact I]. destruct b as [b1 b2], b' as [c1 c2]. cbn [fst snd] in *. rewrite Fb, F'. f_equal. eapply same_extent; eassumption.
Qed.
End Ways.

Section Sound.
Variable E : env.
Variable M : mode.
Notation d := (en_db E).
Variable ord : list hent -> list hent.
Variable cal : nat -> Z -> Z.
Variable sd : option eptr -> option eptr -> res bool.
Hypothesis Tree : mo_tree M = true.
Lemma copy_tree_sound : forall k src dst s s' evs z B,
  copy_ex E M ord cal sd k src dst s = Ret (true, s') -> calls s s' evs ->
  unfoldable E M (c_mem s) src -> extent E M (c_mem s) [] src z -> same_type d src dst -> covered E M (c_mem s) src B ->
  0 < v_addr dst -> v_addr dst + z < 2 ^ 64 -> (forall b w, In (b, w) ((v_addr src, z) :: B) -> apart (v_addr dst) z b w) ->
  fresh_blocks (allocs evs) ((v_addr src, z) :: (v_addr dst, z) :: B) ->
  (mo_uptr M = UPTR_fail \/ mo_uptr M = UPTR_as_one_byte_ptr -> forall x, v_addr dst <= x < v_addr dst + z -> c_mem s x = 0) ->
  unfolded E M (c_mem s) (c_mem s') src z (v_addr dst) (allocs evs).
Proof.
  intros k src dst s s' evs z B H Cl UF Ext ST Cov D1 D2 Adst Fr Zd.
  unfold copy_ex in H. apply bind_ret in H. destruct H as [[f1|] [_ H]]; [|apply bind_ret in H; destruct H as [f2 [_ H]]; discriminate].
  apply bind_ret in H. destruct H as [[f2|] [_ H]]; [|discriminate]. apply bind_ret in H. destruct H as [sm [_ H]]. destruct sm; [cbn [negb] in H|discriminate].
  apply bind_ret in H. destruct H as [[mm|] [N H]]; [|discriminate]. rewrite Tree in H. cbn [negb] in H.
  apply bind_ret in H. destruct H as [[b s2] [H1 H]]. injection H as -> <-.
  set (m0 := c_mem s) in *. set (top := mm_top mm) in *.
  apply map_built in N. destruct N as [Bu V _ _ _ _ _ _]. fold top in Bu, V.
  assert (Zt : z = me_size top). { eapply same_extent; [exact UF|exact Ext|]. rewrite <- V. apply built_extent. exact Bu. }
  assert (St : reaches E M m0 src [] (me_val top)) by (rewrite V; apply re_here).
  destruct (tree_log E M cal m0 src UF Tree _ _ _ _ _ _ _ _ St Bu H1) as [bs L].
  assert (Al : evs = map evc bs). { unfold calls in Cl. rewrite L in Cl. apply app_inv_tail in Cl. apply (f_equal (@rev _)) in Cl. rewrite !rev_involutive in Cl. auto. }
  subst evs. rewrite allocs_evc in *.
  set (Prot := fun x => inb ((v_addr src, z) :: B) x). set (U := fun x => inb ((v_addr src, z) :: (v_addr dst, z) :: B) x).
  assert (PU : forall x, Prot x -> U x). { intros x [p [w [[Q|I] X]]]; exists p, w; (split; [|exact X]); [left; exact Q|right; right; exact I]. }
  destruct (tree_done E M cal m0 src UF Tree Prot) with (off := mm_off mm) (tab := @nil (Z * Z)) (e := top) (anc := @nil value) (ancD := @nil value) (dst := dst) (s := s) (s' := s2) (bs := bs) (U := U) as [ps [Mp [Dn [OK Frm]]]]; try assumption; try reflexivity.
  { intros anc x sz w z0 S Lk X q Q. destruct (Cov _ _ _ _ _ S Lk X) as [[b0 s0] [I [W1 W2]]]. cbn in W1, W2. exists b0, s0. split; [right; exact I|lia]. }
  { rewrite V. exact ST. }
  { apply (uf_bytes _ _ _ _ UF). }
  { intros x X. rewrite V, <- Zt in X. exists (v_addr src), z. split; [left; reflexivity|exact X]. }
  { rewrite <- Zt. exact D2. }
  { intros x X. rewrite <- Zt in X. split; [exists (v_addr dst), z; split; [right; left; reflexivity|exact X]|]. intros [p [w [I Y]]]. specialize (Adst _ _ I). unfold apart in Adst. lia. }
  { intros x [[|kk] [a0 [b0 [t [p [Q _]]]]]]; discriminate. }
  { rewrite <- Zt. exact Zd. }
  { eapply fresh_fr; [exact Fr|auto]. }
  cbn [map] in Dn. rewrite <- Zt in Frm.
  assert (Own : forall anc x ys y, along E M m0 (c_mem s2) src (v_addr dst) anc x ys y -> own E M m0 (c_mem s2) ys anc x y).
  { intros anc x ys y A. destruct (along_dn E M m0 src UF (c_mem s2) (v_addr dst) top V Bu ps Dn _ _ _ _ A) as [e [ps' [Be [<- [_ [D _]]]]]]. eapply own_of; eassumption. }
  constructor.
  - intros anc x ys y s0 A. apply (Own _ _ _ _ A).
  - intros anc x ys y t A. apply (Own _ _ _ _ A).
  - intros anc x ys y t p sz A. apply (Own _ _ _ _ A).
  - intros anc x ys y sz l A. apply (Own _ _ _ _ A).
  - intros anc x ys y sz w A Lk. destruct (link_in E M m0 src UF (c_mem s2) (v_addr dst) top V Bu ps Dn _ _ _ _ _ _ A Lk) as [b [I Q]]. exists b. split; [|exact Q].
    rewrite <- Mp. apply (in_map snd _ _ I).
  - intros y1 y2 b K1 K2. apply (link_place E M m0 src UF (c_mem s2) (v_addr dst) top V Bu ps Dn) in K1, K2.
    assert (ND : NoDup (map snd ps)). { rewrite Mp. destruct Fr as [ND _]. eapply NoDup_map_inv. exact ND. }
    assert (Q : (y1, b) = (y2, b)) by (eapply (nodup_map_inj snd); [exact ND|exact K1|exact K2|reflexivity]). injection Q as <-. reflexivity.
  - intros b I. rewrite <- Mp in I. apply in_map_iff in I. destruct I as [[y b'] [Q I]]. cbn in Q. subst b'. exists y.
    eapply used_gen with (e := top) (anc := []) (ys := []) (y := v_addr dst) (qs := ps); try eassumption. rewrite V. apply al_here.
  - intros x X Y. apply Frm; [exact X|]. intros [p [w [I Q]]]. exact (Y _ _ I Q).
  - exact OK.
Qed.
End Sound.
