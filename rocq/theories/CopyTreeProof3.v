(** Copies as trees reach their end on well-formed data. *)
From Coq Require Import ZArith String List Bool Permutation Lia ZifyBool.
From Verif Require Import Base BaseProof EntryModel EntrySpec EntryProof ValueModel ValueSpec ValueProof ValueProof2 DeepModel DeepSpec DeepProof DeepProof2 DeepProof3 DeepProof4 DeepProof5 DeepProof6 DeepProof7 DeepProof8
  CopySpec CopyProof CopyProof2 CopyProof3 CopyProof4 MoveSpec MoveProof MoveProof4 EqualSpec CompleteSpec CompleteProof CompleteProof2 CompleteProof3 CompleteProof4
  CopyTreeSpec CopyTreeProof CopyTreeProof2.
Import ListNotations.
Open Scope Z_scope.

(** * The blocks obtained by a number of calls *)
Fixpoint obtained (cal : nat -> Z -> Z) (j : nat) (zs : list Z) : list block :=
  match zs with [] => [] | z :: r => (cal j z, z) :: obtained cal (S j) r end.
Lemma obtained_app : forall cal a b j, obtained cal j (a ++ b) = obtained cal j a ++ obtained cal (j + length a) b.
Proof.
  intros cal a. induction a as [|z a IH]; intros b j; cbn; [rewrite Nat.add_0_r; reflexivity|]. rewrite IH. replace (S j + length a)%nat with (j + S (length a))%nat by lia. reflexivity.
Qed.
Definition fake (z : Z) : hent := Build_hent 0 0 z.
Lemma obtained_pairs : forall cal zs j, obtained cal j zs = map nb (number_pairs cal j (map fake zs)).
Proof. intros cal zs. induction zs as [|z zs IH]; intro j; cbn; [reflexivity|]. rewrite IH. reflexivity. Qed.
(** memory for the next calls outside of [U] *)
Definition serves (cal : nat -> Z -> Z) (sizes : Z -> Prop) (U : Z -> Prop) (from n : nat) : Prop :=
  (forall j z, (from <= j < from + n)%nat -> sizes z -> 0 < cal j z /\ 0 < z /\ cal j z + z < 2 ^ 64 /\ forall x, cal j z <= x < cal j z + z -> ~ U x) /\
  (forall j j' z z', (from <= j)%nat -> (j < j' < from + n)%nat -> sizes z -> sizes z' -> cal j z + z <= cal j' z' \/ cal j' z' + z' <= cal j z).
Lemma serves_less : forall cal sizes U from n n', serves cal sizes U from n -> (n' <= n)%nat -> serves cal sizes U from n'.
Proof. intros cal sizes U from n n' [S1 S2] L. split; [intros j z J; apply S1; lia|intros j j' z z' J J'; apply S2; lia]. Qed.
Lemma in_obtained : forall cal zs j a z, In (a, z) (obtained cal j zs) -> In z zs /\ exists i, (j <= i < j + length zs)%nat /\ a = cal i z.
Proof.
  intros cal zs. induction zs as [|z0 zs IH]; intros j a z I; cbn in I; [destruct I|]. destruct I as [Q|I].
  - injection Q as <- <-. split; [left; reflexivity|]. exists j. cbn. split; [lia|reflexivity].
  - destruct (IH _ _ _ I) as [I1 [i [I2 ->]]]. split; [right; exact I1|]. exists i. cbn. split; [lia|reflexivity].
Qed.
Lemma serves_next : forall cal sizes (U : Z -> Prop) from zs n, Forall sizes zs -> serves cal sizes U from (length zs + n) ->
  serves cal sizes (fun x => U x \/ inb (obtained cal from zs) x) (from + length zs) n.
Proof.
  intros cal sizes U from zs n Fz [S1 S2]. rewrite Forall_forall in Fz. split.
  - intros j z J Sz. destruct (S1 j z ltac:(lia) Sz) as [A1 [A2 [A3 A4]]]. split; [exact A1|]. split; [exact A2|]. split; [exact A3|]. intros x X [Y|[a [z' [I Y]]]]; [exact (A4 x X Y)|].
    apply in_obtained in I. destruct I as [I [i [Li ->]]]. destruct (S2 i j z' z ltac:(lia) ltac:(lia) (Fz _ I) Sz); lia.
  - intros j j' z z' J J'. apply S2; lia.
Qed.
Lemma serves_fr : forall cal sizes zs (U : Z -> Prop) from, Forall sizes zs -> serves cal sizes U from (length zs) -> fr U (obtained cal from zs).
Proof.
  intros cal sizes zs. induction zs as [|z zs IH]; intros U from Fz Sv; [exact Logic.I|]. inversion Fz as [|? ? F1 F2]; subst. pose proof Sv as [S1 _].
  destruct (S1 from z ltac:(cbn; lia) F1) as [A1 [A2 [A3 A4]]]. cbn [obtained fr]. split; [exact A1|]. split; [exact A2|]. split; [exact A3|]. split; [exact A4|].
  apply IH; [exact F2|]. pose proof (serves_next cal sizes U from [z] (length zs) (Forall_cons _ F1 (Forall_nil _)) Sv) as [T1 T2]. cbn [length] in T1, T2. replace (from + 1)%nat with (S from) in T1, T2 by lia. 
  split; [|exact T2]. intros j z0 J Sz. destruct (T1 j z0 J Sz) as [B1 [B2 [B3 B4]]]. split; [exact B1|]. split; [exact B2|]. split; [exact B3|]. intros x X [Y|Y]; [apply (B4 x X); left; exact Y|].
  apply (B4 x X). right. exists (cal from z), z. split; [left; reflexivity|exact Y].
Qed.

Section Works.
Variable E : env.
Variable M : mode.
Variable n0 : nat.
Notation n := (en_fuel E).
Notation d := (en_db E).
Notation g := (en_garbage E).
Hypothesis A : acyclic d n0.
Hypothesis N : n = (n0 + 3)%nat.
Variable cal : nat -> Z -> Z.
Variable m0 : mem.
Variable v : value.
Hypothesis UF : unfoldable E M m0 v.
Hypothesis Tree : mo_tree M = true.
Hypothesis WR : writable E M m0 v.
Notation addr e := (v_addr (me_val e)).
Notation nulls_left := (mo_uptr M = UPTR_fail \/ mo_uptr M = UPTR_as_one_byte_ptr).
Notation plc := (place E).

(** the ways to the pointers that lead somewhere *)
Definition is_ptr (x : value) : bool := match final_info E x with Ret (Some (IPointer _)) => true | _ => false end.
Fixpoint ptrs (anc : list value) (e : ment) : list (list value * value) :=
  (if is_ptr (me_val e) && negb (match me_ch e with [] => true | _ => false end) then [(anc, me_val e)] else []) ++
  (fix go (l : list ment) : list (list value * value) := match l with [] => [] | c :: r => ptrs (me_val e :: anc) c ++ go r end) (me_ch e).
Definition ptrs_list (anc : list value) (l : list ment) : list (list value * value) := flat_map (ptrs anc) l.
Lemma ptrs_eq : forall anc e, ptrs anc e =
  (if is_ptr (me_val e) && negb (match me_ch e with [] => true | _ => false end) then [(anc, me_val e)] else []) ++ ptrs_list (me_val e :: anc) (me_ch e).
Proof.
  intros anc [i x sz lp ch]. cbn [ptrs me_val me_ch]. f_equal.
Qed.

(** the start of an entry that is no pointer to something *)
Lemma here_still : forall off tab anc ancD e dst s, reaches E M m0 v anc (me_val e) -> built_ok E M m0 anc e -> bytes_ok (c_mem s) ->
  plc (me_val e) dst -> Forall2 plc anc ancD -> (forall sz w, ~ looks E M m0 anc (me_val e) (VPtr sz w)) ->
  exists m', copy_here E M cal off tab ancD e dst s = Ret (Some None, with_mem s m').
Proof.
  intros off tab anc ancD e dst s Rc Be OKm [Tw Nc] An NP. assert (Ws : s = with_mem s (c_mem s)) by (destruct s; reflexivity).
  destruct (built_info _ _ _ _ _ Be) as [i [F J]]. unfold copy_here. rewrite F. cbn [bind]. apply final_info_some in F.
  pose proof (twin_info E _ _ _ Tw F) as Fd.
  assert (OK : forall x : res (bool * mem), (exists m', x = Ret (true, m')) ->
    exists m1, (do r0 <- x; Ret (if fst r0 then Some (@None Z) else None, with_mem s (snd r0)))%res = Ret (Some None, with_mem s m1)).
  { intros x [m' ->]. cbn [bind fst snd]. eexists. reflexivity. }
  assert (Same : exists m', Ret (Some (@None Z), s) = Ret (Some None, with_mem s m')) by (exists (c_mem s); rewrite <- Ws; reflexivity).
  destruct i as [ | |z c|t| |z l| | |[]| | | | | ]; try exact Same.
  - apply OK. destruct (uf_base _ _ _ _ UF _ _ _ _ Rc F) as [k [name [encs [sg [T1 [T2 T3]]]]]].
    rewrite N. destruct (copy_base_plain d n0 g (c_mem s) (me_val e) dst k A T1 (type_ctype _ _ _ _ Tw T1) (Nc _ _ F) T2 (proj2 Tw T2)) as [m' [Q _]]. exists m'. exact Q.
  - destruct (built_looks _ _ _ _ _ Be) as [w [_ [Lw K]]].
    assert (NODE : forall sz ch, looks E M m0 anc (me_val e) (VNode sz ch) -> False).
    { intros sz ch L. eapply node_not_ptr; eassumption. }
    destruct (me_ch e) as [|c l] eqn:Ch.
    + destruct (0 <? me_loop e) eqn:Lp.
      * destruct w as [|sz1|sz1 lv|sz1 ch1|sz1 t1|ca]; [contradiction| | | | |]; try (decompose [and] K; lia).
        destruct K as [_ [-> _]]. inversion Lw as [ | | |sz' t' p l' P NZ LA S'| | | | | | ]; subst. destruct LA as [pre [a [post [t2 [-> [Q1 [Q2 _]]]]]]].
        subst lv. replace (Z.to_nat (Z.of_nat (length pre) + 1 - 1)) with (length pre) by lia.
        apply Forall2_app_inv_l in An. destruct An as [pre' [rest [An1 [An2 ->]]]]. inversion An2 as [|a0 b l1 l2 Pab An3]; subst.
        pose proof (together_length _ _ _ An1) as Le. rewrite nth_error_app2 by lia. replace (length pre - length pre')%nat with O by lia. cbn [nth_error].
        destruct Pab as [Pab _]. pose proof (twin_info E _ _ _ Pab (points_info _ _ _ _ _ Q2)) as Ib. rewrite (kind_pointer E n0 A N _ _ Ib). cbn [bind].
        apply OK. eapply (copy_pointer_makes E n0 A N); eassumption.
      * destruct (mo_uptr M); try exact Same.
        -- destruct (set_pointer_makes E n0 A N (c_mem s) dst t 0 Fd) as [m' Q]. rewrite Q. cbn [bind fst snd Z.eqb]. exists m'. reflexivity.
        -- apply OK. eapply (copy_pointer_makes E n0 A N); eassumption.
    + exfalso. destruct w as [|sz1|sz1 lv|sz1 ch1|sz1 t1|ca]; try (decompose [and] K; discriminate); [contradiction|destruct (NODE _ _ Lw)|exact (NP _ _ Lw)|].
      destruct (call_info _ _ _ _ _ _ Lw) as [i' [I' Ci]]. pose proof (has_info_fun _ _ _ _ F I') as <-. destruct Ci.
  - apply OK. eapply (copy_enum_makes E n0 A N); [exact OKm|exact F|exact Fd|]. exact (proj2 (WR _ _ Rc) _ _ F).
  - destruct (me_ch e), (mo_union M); try exact Same; destruct (0 <? me_size e); try exact Same; eexists; reflexivity.
Qed.
(** the start of a pointer *)
Lemma here_goes : forall off tab anc ancD e c dst s sz, reaches E M m0 v anc (me_val e) -> built_ok E M m0 anc e ->
  plc (me_val e) dst -> looks E M m0 anc (me_val e) (VPtr sz (me_val c)) -> me_ch e = [c] ->
  let a := cal (c_calls s) (me_size c) in
  (forall x, addr e <= x < addr e + 8 -> zero_fill (c_mem s) a (me_size c) x = m0 x) -> a <> 0 ->
  exists s1, copy_here E M cal off tab ancD e dst s = Ret (Some (Some a), s1) /\ c_calls s1 = S (c_calls s).
Proof.
  intros off tab anc ancD e c dst s sz Rc Be [Tw Nc] Lw Ch a Src NZ.
  destruct (ptr_info E M m0 _ _ _ _ Lw) as [t HI]. pose proof (twin_info E _ _ _ Tw HI) as Fd.
  unfold copy_here. destruct (built_info _ _ _ _ _ Be) as [i [F _]]. rewrite F. cbn [bind]. apply final_info_some in F. pose proof (has_info_fun _ _ _ _ HI F) as <-.
  rewrite Ch. unfold child_block. rewrite Tree. unfold calloc. fold a. replace (a =? 0) with false by lia. cbn [c_mem c_calls c_log c_items c_bufs].
  pose proof (pointer_read d n0 (zero_fill (c_mem s) a (me_size c)) (me_val e) A (pointer_is E _ _ F)) as Rd. rewrite <- N in Rd. rewrite Rd. cbn [bind].
  assert (Q : number_at (zero_fill (c_mem s) a (me_size c)) (addr e) 8 = number_at m0 (addr e) 8) by (apply number_ext; exact Src). rewrite Q.
  assert (PZ : number_at m0 (addr e) 8 <> 0).
  { inversion Lw as [ | | | |sz' p w' T' NL S'| | | | | ]; subst. destruct (target_points _ _ _ _ _ _ _ T') as [Pn [t' [_ P']]]. rewrite <- P'. exact Pn. }
  replace (number_at m0 (addr e) 8 =? 0) with false by lia.
  destruct (set_pointer_makes E n0 A N (zero_fill (c_mem s) a (me_size c)) dst t (uwrap 64 (a + uwrap 64 (number_at m0 (addr e) 8 - addr c))) Fd) as [m' Q']. rewrite Q'. cbn [bind fst snd Z.eqb].
  eexists. split; [reflexivity|reflexivity].
Qed.

Variable Prot : Z -> Prop.
Hypothesis PT : forall anc x sz w z, reaches E M m0 v anc x -> looks E M m0 anc x (VPtr sz w) -> extent E M m0 (x :: anc) w z -> forall b, v_addr w <= b < v_addr w + z -> Prot b.
Variable sizes : Z -> Prop.
Hypothesis SZ : forall anc x sz w z, reaches E M m0 v anc x -> looks E M m0 anc x (VPtr sz w) -> extent E M m0 (x :: anc) w z -> sizes z.
Lemma tree_works : forall off tab e anc ancD dst s (U : Z -> Prop),
  reaches E M m0 v anc (me_val e) -> built_ok E M m0 anc e -> plc (me_val e) dst -> Forall2 plc anc ancD -> bytes_ok (c_mem s) ->
  (forall x, addr e <= x < addr e + me_size e -> Prot x) -> (forall x, Prot x -> c_mem s x = m0 x) -> (forall x, Prot x -> U x) ->
  0 < v_addr dst -> v_addr dst + me_size e < 2 ^ 64 ->
  (forall x, v_addr dst <= x < v_addr dst + me_size e -> U x /\ ~ Prot x) ->
  (forall x, ptr_place E m0 anc (map v_addr ancD) x -> U x /\ ~ (v_addr dst <= x < v_addr dst + me_size e)) ->
  (nulls_left -> forall x, v_addr dst <= x < v_addr dst + me_size e -> c_mem s x = 0) ->
  serves cal sizes U (c_calls s) (length (ptrs anc e)) ->
  exists s' zs, copy_tree E M cal off tab ancD e dst s = Ret (true, s') /\ c_log s' = rev (map evc (obtained cal (c_calls s) zs)) ++ c_log s /\
    c_calls s' = (c_calls s + length zs)%nat /\ length zs = length (ptrs anc e) /\ Forall sizes zs.
Proof.
  intros off tab e. induction e as [i0 v0 sz0 l0 ch0 F] using ment_ind2. set (e := ME i0 v0 sz0 l0 ch0) in *.
  intros anc ancD dst s U S Be Pl An OK PE PM PU D1 D2 DU PP Zr Sv. destruct (fits_node E M m0 v UF Tree _ _ S Be) as [Fe1 [Fe2 Fe3]].
  assert (Len : length anc = length ancD) by (eapply together_length; exact An).
  rewrite copy_tree_eq. destruct (built_info _ _ _ _ _ Be) as [i [Fi J]]. rewrite Fi. cbn [bind]. rewrite (not_call E M m0 v UF _ _ _ S Fi).
  rewrite ptrs_eq in Sv. rewrite ptrs_eq.
  assert (Leaf : me_ch e = [] -> (forall sz w, ~ looks E M m0 anc (me_val e) (VPtr sz w)) -> exists s' zs,
    (do '(h, s1) <- copy_here E M cal off tab ancD e dst s;
     match h with None => Ret (false, s1) | Some over => let ptr := match Some i with Some (IPointer _) => true | _ => false end in copy_list E M cal off tab ancD e over ptr dst (me_ch e) s1 end)%res = Ret (true, s') /\
     c_log s' = rev (map evc (obtained cal (c_calls s) zs)) ++ c_log s /\ c_calls s' = (c_calls s + length zs)%nat /\
     length zs = length ((if is_ptr (me_val e) && negb (match me_ch e with [] => true | _ => false end) then [(anc, me_val e)] else []) ++ ptrs_list (me_val e :: anc) (me_ch e)) /\ Forall sizes zs).
  { intros Ch NP. destruct (here_still off tab anc ancD e dst s S Be OK Pl An NP) as [m' Q]. rewrite Q. cbn [bind]. cbv zeta. rewrite Ch. cbn [copy_list negb]. rewrite andb_false_r. cbn [ptrs_list flat_map app length].
    exists (with_mem s m'), []. split; [reflexivity|]. split; [reflexivity|]. split; [cbn; lia|]. split; [reflexivity|constructor]. }
  destruct (built_looks _ _ _ _ _ Be) as [w [_ [Lw K]]].
  assert (Only : forall w', (forall sz t, w' <> VPtr sz t) -> w = w' -> forall sz t, ~ looks E M m0 anc (me_val e) (VPtr sz t)).
  { intros w' Nw -> sz t L. exact (Nw sz t (looks_fun _ _ _ _ _ _ _ Lw L)). }
  destruct w as [|sz1|sz1 lv|sz1 chs|sz1 t1|ca]; [contradiction|apply Leaf; [apply K|eapply Only; [|reflexivity]; discriminate]|apply Leaf; [apply K|eapply Only; [|reflexivity]; discriminate]| | |].
  - (* parts *)
    assert (NP : forall sz t, ~ looks E M m0 anc (me_val e) (VPtr sz t)) by (eapply Only; [|reflexivity]; discriminate).
    destruct (me_ch e) as [|c0 r0] eqn:Ch0; [apply Leaf; [reflexivity|exact NP]|]. rewrite <- Ch0 in *. assert (NE : me_ch e <> []) by congruence. clear Ch0 Leaf.
    destruct (here_still off tab anc ancD e dst s S Be OK Pl An NP) as [m' Q]. destruct (here_node E M cal m0 _ _ _ _ _ _ _ _ _ _ _ Lw NE Q) as [_ Qs]. rewrite Q. rewrite Qs. clear Q Qs m'. cbn [bind]. cbv zeta.
    destruct K as [_ [-> [FB _]]].
    destruct (node_info _ _ _ _ _ _ _ Lw) as [inf [HI Ki]].
    assert (NotPtr : forall t p, points d m0 (me_val e) t p -> False). { intros t p P. pose proof (has_info_fun _ _ _ _ HI (points_info _ _ _ _ _ P)) as ->. contradiction. }
    assert (IP : is_ptr (me_val e) = false). { unfold is_ptr. rewrite Fi. apply final_info_some in Fi. pose proof (has_info_fun _ _ _ _ HI Fi) as <-. destruct inf; try reflexivity; contradiction. }
    rewrite IP in *. cbn [andb app] in *.
    assert (PP' : forall x, ptr_place E m0 (me_val e :: anc) (map v_addr (dst :: ancD)) x -> U x /\ ~ (v_addr dst <= x < v_addr dst + me_size e)).
    { intros x X. cbn [map] in X. apply ptr_place_cons in X. destruct X as [X|[[t [p P]] _]]; [apply PP; exact X|destruct (NotPtr _ _ P)]. }
    set (o := v_addr dst - addr e).
    assert (G : forall l l1, me_ch e = l1 ++ l -> forall s2 (U2 : Z -> Prop), bytes_ok (c_mem s2) -> (forall x, Prot x -> c_mem s2 x = m0 x) -> (forall x, U x -> U2 x) ->
       (nulls_left -> forall c x, In c l -> o + addr c <= x < o + addr c + me_size c -> c_mem s2 x = 0) ->
       serves cal sizes U2 (c_calls s2) (length (ptrs_list (me_val e :: anc) l)) ->
       exists s3 zs, copy_list E M cal off tab ancD e None (match Some i with Some (IPointer _) => true | _ => false end) dst l s2 = Ret (true, s3) /\
         c_log s3 = rev (map evc (obtained cal (c_calls s2) zs)) ++ c_log s2 /\ c_calls s3 = (c_calls s2 + length zs)%nat /\
         length zs = length (ptrs_list (me_val e :: anc) l) /\ Forall sizes zs).
    { induction l as [|c l IH]; intros l1 Q s2 U2 OK2 PM2 UU2 Zr2 Sv2; cbn [copy_list].
      - exists s2, []. split; [reflexivity|]. split; [reflexivity|]. split; [cbn; lia|]. split; [reflexivity|constructor].
      - cbv zeta. assert (Ic : In c (me_ch e)) by (rewrite Q; apply in_or_app; right; left; reflexivity).
        destruct (part_in E M m0 v UF Tree _ _ _ _ _ S Be Lw Ic) as [P1 [P2 [Sc Bc]]]. destruct (fits_node E M m0 v UF Tree _ _ Sc Bc) as [Fc1 [Fc2 Fc3]].
        replace (uwrap 64 (v_addr dst + uwrap 64 (addr c - addr e))) with (o + addr c) by (rewrite (uwrap_small 64 (addr c - addr e)) by lia; unfold o; rewrite uwrap_small by lia; lia).
        replace (o + addr c =? 0) with false by (unfold o; lia).
        assert (Lp : length (ptrs_list (me_val e :: anc) (c :: l)) = (length (ptrs (me_val e :: anc) c) + length (ptrs_list (me_val e :: anc) l))%nat) by (unfold ptrs_list; cbn [flat_map]; apply app_length).
        rewrite Lp in *. rewrite Forall_forall in F.
        assert (Plc : plc (me_val c) (Build_value (v_entry (me_val c)) (o + addr c))).
        { split; [apply twin_self|]. intros z k Hb. exact (proj1 (WR _ _ Sc) _ _ Hb). }
        assert (C1 : forall x, addr c <= x < addr c + me_size c -> Prot x) by (intros x X; apply PE; lia).
        assert (C2 : forall x, Prot x -> U2 x) by (intros x X; apply UU2; apply PU; exact X).
        assert (C3 : forall x, o + addr c <= x < o + addr c + me_size c -> U2 x /\ ~ Prot x).
        { intros x X. destruct (DU x) as [Y1 Y2]; [unfold o in X; lia|]. split; [apply UU2; exact Y1|exact Y2]. }
        assert (C4 : forall x, ptr_place E m0 (me_val e :: anc) (map v_addr (dst :: ancD)) x -> U2 x /\ ~ (o + addr c <= x < o + addr c + me_size c)).
        { intros x X. destruct (PP' x X) as [Y1 Y2]. split; [apply UU2; exact Y1|]. intro Y. apply Y2. unfold o in Y. lia. }
        assert (C5 : nulls_left -> forall x, o + addr c <= x < o + addr c + me_size c -> c_mem s2 x = 0) by (intros NL x X; apply (Zr2 NL c); [left; reflexivity|exact X]).
        destruct (F c Ic (me_val e :: anc) (dst :: ancD) (Build_value (v_entry (me_val c)) (o + addr c)) s2 U2) as [s4 [z1 [H1 [L1 [N1 [Y1 Z1]]]]]]; cbn [v_addr]; try assumption.
        { constructor; assumption. }
        { unfold o. lia. }
        { unfold o. lia. }
        { eapply serves_less; [exact Sv2|lia]. }
        assert (Fr1 : fr U2 (obtained cal (c_calls s2) z1)) by (eapply serves_fr; [exact Z1|]; eapply serves_less; [exact Sv2|lia]).
        destruct (tree_done E M cal m0 v UF Tree Prot PT off tab c (me_val e :: anc) (dst :: ancD) (Build_value (v_entry (me_val c)) (o + addr c)) s2 s4 (obtained cal (c_calls s2) z1) U2) as [ps1 [_ [_ [OK4 Frm1]]]]; cbn [v_addr]; try assumption.
        { apply Plc. }
        { unfold o. lia. }
        { unfold o. lia. }
        { cbn. lia. }
        cbn [v_addr] in *. rewrite H1. cbn [bind].
        assert (Sib : forall c' x, In c' l -> o + addr c <= x < o + addr c + me_size c -> o + addr c' <= x < o + addr c' + me_size c' -> False).
        { intros c' x Ic' X Y. apply in_split in Ic'. destruct Ic' as [m1 [m2 ->]].
          assert (Ic2 : In c' (me_ch e)) by (rewrite Q; apply in_or_app; right; right; apply in_or_app; right; left; reflexivity). destruct (part_in E M m0 v UF Tree _ _ _ _ _ S Be Lw Ic2) as [_ [_ [_ Bc2]]].
          pose proof Lw as Lw2. rewrite Q, map_app in Lw2. cbn [map] in Lw2. rewrite map_app in Lw2. cbn [map] in Lw2.
          pose proof (uf_apart _ _ _ _ UF _ _ _ _ _ _ _ _ _ _ S Lw2 (built_extent _ _ _ _ _ Bc) (built_extent _ _ _ _ _ Bc2)) as Ap. unfold apart in Ap. lia. }
        assert (B1 : forall x, inb (obtained cal (c_calls s2) z1) x -> ~ U2 x) by (intros x X; eapply fr_out; eassumption).
        assert (InDst : forall c' x, In c' (me_ch e) -> o + addr c' <= x < o + addr c' + me_size c' -> v_addr dst <= x < v_addr dst + me_size e).
        { intros c' x Ic' X. destruct (part_in E M m0 v UF Tree _ _ _ _ _ S Be Lw Ic') as [X1 [X2 _]]. unfold o in X. lia. }
        destruct (IH (l1 ++ [c])) with (s2 := s4) (U2 := fun x => U2 x \/ inb (obtained cal (c_calls s2) z1) x) as [s5 [z2 [H2 [L2 [N2 [Y2 Z2]]]]]]; try assumption.
        { rewrite Q, <- app_assoc. reflexivity. }
        { intros x X. rewrite Frm1; [apply PM2; exact X| |intro Y; eapply B1; [exact Y|apply UU2; apply PU; exact X]].
          intro Y. apply C3 in Y. tauto. }
        { intros x X. left. apply UU2. exact X. }
        { intros NL c' x Ic' X. assert (Ic2 : In c' (me_ch e)) by (rewrite Q; apply in_or_app; right; right; exact Ic').
          rewrite Frm1; [apply (Zr2 NL c' x); [right; exact Ic'|exact X]| |].
          - intro Y. eapply Sib; eassumption.
          - intro Y. eapply B1; [exact Y|]. apply UU2. apply (DU x). eapply InDst; eassumption. }
        { rewrite N1. apply serves_next; [exact Z1|]. rewrite Y1. exact Sv2. }
        rewrite H2. cbn [bind negb andb]. exists s5, (z1 ++ z2). split; [reflexivity|]. split; [|split; [|split]].
        + rewrite L2, L1, N1, obtained_app, log_app. reflexivity.
        + rewrite N2, N1, app_length. lia.
        + rewrite app_length. lia.
        + apply Forall_app. auto. }
    apply (G (me_ch e) [] eq_refl s U OK PM (fun x X => X)).
    + intros NL c x Ic X. apply (Zr NL). destruct (part_in E M m0 v UF Tree _ _ _ _ _ S Be Lw Ic) as [A1 [A2 _]]. unfold o in X. lia.
    + exact Sv.
  - (* a pointer *)
    destruct K as [_ [_ [c [Ch [Qv _]]]]]. subst t1. destruct (ptr_in E M m0 v UF _ _ _ _ S Be Lw Ch) as [P1 [[t [p P2]] [P3 [Sc Bc]]]]. destruct (fits_node E M m0 v UF Tree _ _ Sc Bc) as [Fc1 [Fc2 Fc3]].
    assert (IP : is_ptr (me_val e) = true). { unfold is_ptr. rewrite Fi. apply final_info_some in Fi. pose proof (has_info_fun _ _ _ _ (points_info _ _ _ _ _ P2) Fi) as <-. reflexivity. }
    rewrite IP in *. rewrite Ch in *. cbn [negb andb app ptrs_list flat_map length] in *. rewrite app_nil_r in *.
    assert (Sc' : sizes (me_size c)) by (eapply SZ; [exact S|exact Lw|apply (built_extent _ _ _ _ _ Bc)]).
    set (a := cal (c_calls s) (me_size c)) in *. destruct (proj1 Sv (c_calls s) (me_size c) ltac:(lia) Sc') as [A1 [A2 [A3 A4]]]. fold a in A1, A3, A4.
    set (cm := zero_fill (c_mem s) a (me_size c)) in *.
    assert (Zin : forall x, a <= x < a + me_size c -> cm x = 0) by (intros x X; unfold cm, zero_fill; replace (_ && _) with true by lia; reflexivity).
    assert (Zout : forall x, ~ (a <= x < a + me_size c) -> cm x = c_mem s x) by (intros x X; unfold cm, zero_fill; replace (_ && _) with false by lia; reflexivity).
    assert (OKc : bytes_ok cm). { intro x. destruct (Z_le_dec a x), (Z_lt_dec x (a + me_size c)); try (rewrite Zout by lia; apply OK). rewrite Zin by lia. lia. }
    rewrite P3 in *.
    assert (Src : forall x, addr e <= x < addr e + 8 -> cm x = m0 x).
    { intros x X. assert (Px : Prot x) by (apply PE; exact X). rewrite Zout; [apply PM; exact Px|]. intro Y. eapply A4; [exact Y|]. apply PU. exact Px. }
    destruct (here_goes off tab anc ancD e c dst s _ S Be Pl Lw Ch Src) as [s1 [Hh N1]]; [fold a; lia|]. fold a in Hh.
    destruct (here_ptr E M cal m0 Tree _ _ _ _ _ _ _ _ _ _ _ Be (points_info _ _ _ _ _ P2) Ch Hh) as [a' [Qa [NZ [L1 M1]]]]. injection Qa as <-. cbv zeta in M1. fold cm in M1.
    rewrite Hh. cbn [bind]. cbv zeta. cbn [copy_list]. replace (a =? 0) with false by lia.
    assert (S1 : forall x, ~ (v_addr dst <= x < v_addr dst + 8) -> c_mem s1 x = cm x) by (intros x X; rewrite M1; apply store_out; exact X).
    assert (Ad : forall x, a <= x < a + me_size c -> ~ (v_addr dst <= x < v_addr dst + 8)) by (intros x X Y; eapply A4; [exact X|]; apply (DU x); exact Y).
    rewrite Forall_forall in F. assert (Ic : In c ch0) by (change ch0 with (me_ch e); rewrite Ch; left; reflexivity).
    destruct (F c Ic (me_val e :: anc) (dst :: ancD) (Build_value (v_entry (me_val c)) a) s1 (fun x => U x \/ inb [(a, me_size c)] x)) as [s2 [zs [H2 [L2 [N2 [Y2 Z2]]]]]]; cbn [v_addr]; try assumption.
    { split; [apply twin_self|]. intros z k Hb. exact (proj1 (WR _ _ Sc) _ _ Hb). }
    { constructor; assumption. }
    { rewrite M1. apply store_bytes_ok. exact OKc. }
    { intros x X. eapply PT; [exact S|exact Lw|apply (built_extent _ _ _ _ _ Bc)|exact X]. }
    { intros x X. rewrite S1; [|intro Y; apply DU in Y; tauto]. rewrite Zout; [apply PM; exact X|]. intro Y. eapply A4; [exact Y|]. apply PU. exact X. }
    { intros x X. left. apply PU. exact X. }
    { intros x X. split; [right; exists a, (me_size c); split; [left; reflexivity|exact X]|]. intro Y. eapply A4; [exact X|]. apply PU. exact Y. }
    { intros x X. cbn [map] in X. apply ptr_place_cons in X. destruct X as [X|[_ X]].
      - destruct (PP x X) as [B1 B2]. split; [left; exact B1|]. intro Y. eapply A4; eassumption.
      - destruct (DU x X) as [B1 _]. split; [left; exact B1|]. intro Y. eapply A4; eassumption. }
    { intros NL x X. rewrite S1 by (apply Ad; exact X). apply Zin. exact X. }
    { rewrite N1. pose proof (serves_next cal sizes U (c_calls s) [me_size c] (length (ptrs (me_val e :: anc) c)) (Forall_cons _ Sc' (Forall_nil _)) Sv) as Sn. cbn [length obtained] in Sn.
      replace (c_calls s + 1)%nat with (Datatypes.S (c_calls s)) in Sn by lia. exact Sn. }
    rewrite H2. cbn [bind negb andb]. exists s2, (me_size c :: zs). split; [reflexivity|]. split; [|split; [|split]].
    + rewrite L2, L1, N1. cbn [obtained map rev]. fold a. rewrite <- app_assoc. reflexivity.
    + rewrite N2, N1. cbn [length]. lia.
    + cbn [length]. rewrite Y2. reflexivity.
    + constructor; assumption.
  - destruct (call_info _ _ _ _ _ _ Lw) as [ic [Hc Kc]]. destruct (uf_data _ _ _ _ UF _ _ _ S Hc Kc).
Qed.
End Works.

(** * How many pointers there are *)
Section Count.
Variable E : env.
Variable M : mode.
Notation d := (en_db E).
Variable m0 : mem.
Variable v : value.
Hypothesis UF : unfoldable E M m0 v.
Lemma kids_reach : forall anc e c, reaches E M m0 v anc (me_val e) -> built_ok E M m0 anc e -> In c (me_ch e) ->
  reaches E M m0 v (me_val e :: anc) (me_val c) /\ built_ok E M m0 (me_val e :: anc) c.
Proof.
  intros anc e c S Be Ic. destruct (built_looks _ _ _ _ _ Be) as [w [_ [Lw K]]]. destruct w as [|sz1|sz1 lv|sz1 chs|sz1 t1|ca]; [contradiction| | | | |].
  - destruct K as [_ [_ K]]. rewrite K in Ic. destruct Ic.
  - destruct K as [_ [_ K]]. rewrite K in Ic. destruct Ic.
  - destruct K as [_ [-> [Fb _]]]. rewrite Forall_forall in Fb. split; [eapply re_node; [exact S|exact Lw|apply in_map; exact Ic]|apply Fb; exact Ic].
  - destruct K as [_ [_ [c' [K1 [K2 K3]]]]]. rewrite K1 in Ic. destruct Ic as [<-|[]]. split; [|exact K3]. subst t1. eapply re_ptr; eassumption.
  - destruct (call_info _ _ _ _ _ _ Lw) as [ic [Hc Kc]]. destruct (uf_data _ _ _ _ UF _ _ _ S Hc Kc).
Qed.
Lemma in_ptrs : forall e anc a x, In (a, x) (ptrs E anc e) -> (a, x) = (anc, me_val e) /\ is_ptr E (me_val e) = true /\ me_ch e <> [] \/ exists c, In c (me_ch e) /\ In (a, x) (ptrs E (me_val e :: anc) c).
Proof.
  intros e anc a x I. rewrite ptrs_eq in I. apply in_app_or in I. destruct I as [I|I].
  - left. destruct (is_ptr E (me_val e)); [|destruct I]. destruct (me_ch e); [destruct I|]. destruct I as [Q|[]]. split; [symmetry; exact Q|]. split; [reflexivity|discriminate].
  - right. unfold ptrs_list in I. apply in_flat_map in I. exact I.
Qed.
Lemma ptrs_reach : forall e anc a x, reaches E M m0 v anc (me_val e) -> built_ok E M m0 anc e -> In (a, x) (ptrs E anc e) ->
  reaches E M m0 v a x /\ exists sz w, looks E M m0 a x (VPtr sz w).
Proof.
  intros e. induction e as [i0 v0 sz0 l0 ch0 F] using ment_ind2. set (e := ME i0 v0 sz0 l0 ch0) in *. intros anc a x S Be I.
  apply in_ptrs in I. destruct I as [[Q [IP NE]]|[c [Ic I]]].
  - injection Q as -> ->. split; [exact S|]. unfold is_ptr in IP. destruct (final_info E (me_val e)) as [[[ ]|]| | | ] eqn:Fi; try discriminate. apply final_info_some in Fi.
    destruct (built_looks _ _ _ _ _ Be) as [w [_ [Lw K]]]. destruct w as [|sz1|sz1 lv|sz1 chs|sz1 t1|ca]; [contradiction| | | | |].
    + destruct NE. apply K.
    + destruct NE. apply K.
    + destruct (node_info _ _ _ _ _ _ _ Lw) as [i [HI Ki]]. pose proof (has_info_fun _ _ _ _ HI Fi) as ->. contradiction.
    + eauto.
    + destruct (call_info _ _ _ _ _ _ Lw) as [ic [Hc Kc]]. destruct (uf_data _ _ _ _ UF _ _ _ S Hc Kc).
  - destruct (kids_reach _ _ _ S Be Ic) as [Sc Bc]. rewrite Forall_forall in F. eapply (F c Ic); eassumption.
Qed.
Lemma ptrs_all : forall top, built_ok E M m0 [] top -> me_val top = v -> forall anc x sz w, reaches E M m0 v anc x -> looks E M m0 anc x (VPtr sz w) -> In (anc, x) (ptrs E [] top).
Proof.
  intros top Bu V anc x sz w R L.
  assert (G : exists e, built_ok E M m0 anc e /\ me_val e = x /\ incl (ptrs E anc e) (ptrs E [] top)).
  { clear L. induction R as [|anc x sz' ch y R [e [Be [Qe Ie]]] L I|anc x sz' y R [e [Be [Qe Ie]]] L|anc x la y R [e [Be [Qe Ie]]] L I].
    - exists top. split; [exact Bu|]. split; [exact V|apply incl_refl].
    - subst x. destruct (built_node E M m0 _ _ _ _ Be L) as [-> [Fb _]]. apply in_map_iff in I. destruct I as [c [Qc Ic]]. rewrite Forall_forall in Fb. exists c. split; [apply Fb; exact Ic|]. split; [exact Qc|].
      intros q Q. apply Ie. rewrite ptrs_eq. apply in_or_app. right. apply in_flat_map. exists c. auto.
    - subst x. destruct (built_ptr E M m0 _ _ _ _ Be L) as [c [Ch [Qc Bc]]]. exists c. split; [exact Bc|]. split; [exact Qc|].
      intros q Q. apply Ie. rewrite ptrs_eq, Ch. apply in_or_app. right. apply in_flat_map. exists c. split; [left; reflexivity|exact Q].
    - destruct (call_info _ _ _ _ _ _ L) as [ic [Hc Kc]]. destruct (uf_data _ _ _ _ UF _ _ _ R Hc Kc). }
  destruct G as [e [Be [Qe Ie]]]. apply Ie. rewrite ptrs_eq. apply in_or_app. left. subst x. destruct (ptr_info E M m0 _ _ _ _ L) as [t HI]. destruct (built_ptr E M m0 _ _ _ _ Be L) as [c [Ch _]].
  destruct (built_info _ _ _ _ _ Be) as [i [Fi _]]. unfold is_ptr. rewrite Fi, Ch. apply final_info_some in Fi. pose proof (has_info_fun _ _ _ _ HI Fi) as <-. left. reflexivity.
Qed.
Lemma ptrs_way : forall e anc a x, In (a, x) (ptrs E anc e) -> exists pre, x :: a = pre ++ me_val e :: anc.
Proof.
  intros e. induction e as [i0 v0 sz0 l0 ch0 F] using ment_ind2. set (e := ME i0 v0 sz0 l0 ch0) in *. intros anc a x I.
  apply in_ptrs in I. destruct I as [[Q _]|[c [Ic I]]]; [injection Q as -> ->; exists []; reflexivity|].
  rewrite Forall_forall in F. destruct (F c Ic _ _ _ I) as [pre Q]. exists (pre ++ [me_val c]). rewrite <- app_assoc. exact Q.
Qed.
Lemma app_same_tail : forall (p q : list value) x y l, p ++ x :: l = q ++ y :: l -> x = y.
Proof.
  intros p q x y l H. assert (L : length p = length q) by (apply (f_equal (@length _)) in H; rewrite !app_length in H; cbn in H; lia).
  revert q L H. induction p as [|a p IH]; intros [|b q] L H; try discriminate; cbn in H; injection H; intros; [assumption|]. eapply IH; [|eassumption]. cbn in L. lia.
Qed.
Hypothesis PD : parts_differ E M m0 v.
Lemma ptrs_once : forall e anc, reaches E M m0 v anc (me_val e) -> built_ok E M m0 anc e -> NoDup (ptrs E anc e).
Proof.
  intros e. induction e as [i0 v0 sz0 l0 ch0 F] using ment_ind2. set (e := ME i0 v0 sz0 l0 ch0) in *. intros anc S Be. rewrite ptrs_eq.
  assert (NDc : NoDup (map me_val (me_ch e))).
  { destruct (built_looks _ _ _ _ _ Be) as [w [_ [Lw K]]]. destruct w as [|sz1|sz1 lv|sz1 chs|sz1 t1|ca]; [contradiction| | | | |].
    - destruct K as [_ [_ ->]]. constructor.
    - destruct K as [_ [_ ->]]. constructor.
    - destruct K as [_ [<- _]]. eapply PD; eassumption.
    - destruct K as [_ [_ [c [-> _]]]]. constructor; [intros []|constructor].
    - destruct (call_info _ _ _ _ _ _ Lw) as [ic [Hc Kc]]. destruct (uf_data _ _ _ _ UF _ _ _ S Hc Kc). }
  assert (G : forall l, incl l (me_ch e) -> NoDup (map me_val l) -> NoDup (ptrs_list E (me_val e :: anc) l)).
  { induction l as [|c l IH]; intros Inc ND; [constructor|]. unfold ptrs_list. cbn [flat_map]. cbn [map] in ND. inversion ND as [|? ? N1 N2]; subst.
    assert (Ic : In c (me_ch e)) by (apply Inc; left; reflexivity). destruct (kids_reach _ _ _ S Be Ic) as [Sc Bc]. rewrite Forall_forall in F.
    apply nodup_app2; [apply (F c Ic); assumption|apply IH; [intros y Y; apply Inc; right; exact Y|exact N2]|].
    intros [a x] I J. apply in_flat_map in J. destruct J as [c' [Ic' J]]. destruct (ptrs_way _ _ _ _ I) as [p P]. destruct (ptrs_way _ _ _ _ J) as [q Q]. rewrite P in Q.
    apply app_same_tail in Q. apply N1. rewrite Q. apply in_map. exact Ic'. }
  apply nodup_app2; [|apply G; [apply incl_refl|exact NDc]|].
  - destruct (_ && _); [constructor; [intros []|constructor]|constructor].
  - intros [a x] I J. destruct (_ && _); [|destruct I]. destruct I as [Q|[]]. injection Q as <- <-. unfold ptrs_list in J. apply in_flat_map in J. destruct J as [c [Ic J]].
    destruct (ptrs_way _ _ _ _ J) as [p P]. apply (f_equal (@length _)) in P. rewrite app_length in P. cbn in P. lia.
Qed.
End Count.

Lemma copy_tree_total : forall E M n0, finite_types (en_db E) n0 -> en_fuel E = (n0 + 3)%nat -> tame E -> finite_calls E -> mo_tree M = true ->
  exists k0, forall k, (k0 <= k)%nat -> forall ord cal same_decl src dst s z B L,
  visible E M (c_mem s) src -> writable E M (c_mem s) src -> (forall y c, has_info (en_db E) src (IBase y c) -> ~ is_const (en_db E) dst) ->
  (forall f f', final_type (en_db E) (Some (v_entry src)) (Some f) -> final_type (en_db E) (Some (v_entry dst)) (Some f') -> same_decl (Some f) (Some f') = Ret true) ->
  unfoldable E M (c_mem s) src -> extent E M (c_mem s) [] src z -> same_type (en_db E) src dst ->
  covered E M (c_mem s) src B -> parts_differ E M (c_mem s) src ->
  (forall anc x sz w, reaches E M (c_mem s) src anc x -> looks E M (c_mem s) anc x (VPtr sz w) -> In (anc, x) L) ->
  0 < v_addr dst -> v_addr dst + z < 2 ^ 64 -> (forall b w, In (b, w) ((v_addr src, z) :: B) -> apart (v_addr dst) z b w) ->
  allocates cal (c_calls s) (length L) (fun y => exists anc x sz w, reaches E M (c_mem s) src anc x /\ looks E M (c_mem s) anc x (VPtr sz w) /\ extent E M (c_mem s) (x :: anc) w y)
    ((v_addr src, z) :: (v_addr dst, z) :: B) ->
  (mo_uptr M = UPTR_fail \/ mo_uptr M = UPTR_as_one_byte_ptr -> forall x, v_addr dst <= x < v_addr dst + z -> c_mem s x = 0) ->
  exists s' evs, copy_ex E M ord cal same_decl k src dst s = Ret (true, s') /\ calls s s' evs /\ fresh_blocks (allocs evs) ((v_addr src, z) :: (v_addr dst, z) :: B) /\
    unfolded E M (c_mem s) (c_mem s') src z (v_addr dst) (allocs evs).
Proof.
  intros E M n0 Fi N T Fc Tree. destruct (deep_terminates E M n0 Fi N T Fc) as [k0 K]. exists k0. intros k Le ord cal sd src dst s z B L Vi Wr Nc SD UF Ext ST Cov PD CL D1 D2 Adst Al Zd.
  pose proof (finite_acyclic _ _ Fi) as A.
  destruct (map_goes E M n0 A N k (c_mem s) src Vi) as [Q|[mm H]]; [destruct (K k Le (c_mem s) src (uf_bytes _ _ _ _ UF) Q)|].
  pose proof (map_built _ _ _ _ _ _ H) as [Bu V _ _ _ _ _ _]. set (m0 := c_mem s) in *. set (top := mm_top mm) in *.
  assert (Zt : z = me_size top). { eapply same_extent; [exact UF|exact Ext|]. rewrite <- V. apply built_extent. exact Bu. }
  assert (St : reaches E M m0 src [] (me_val top)) by (rewrite V; apply re_here).
  set (old := (v_addr src, z) :: (v_addr dst, z) :: B) in *.
  set (sizes := fun y => exists anc x sz w, reaches E M m0 src anc x /\ looks E M m0 anc x (VPtr sz w) /\ extent E M m0 (x :: anc) w y) in *.
  assert (SP : forall y, sizes y -> 0 < y). { intros y [anc [x [sz [w [S1 [S2 S3]]]]]]. pose proof (uf_inside _ _ _ _ UF _ _ _ _ _ S1 S2 S3). lia. }
  assert (Cnt : (length (ptrs E [] top) <= length L)%nat).
  { apply NoDup_incl_length; [apply (ptrs_once E M m0 src UF PD); assumption|]. intros [a x] I. destruct (ptrs_reach E M m0 src UF _ _ _ _ St Bu I) as [S1 [sz [w S2]]]. eapply CL; eassumption. }
  set (Prot := fun x => inb ((v_addr src, z) :: B) x). set (U := fun x => inb old x).
  assert (PU : forall x, Prot x -> U x). { intros x [p [w [[Q|I] X]]]; exists p, w; (split; [|exact X]); [left; exact Q|right; right; exact I]. }
  assert (Sv : serves cal sizes U (c_calls s) (length L)).
  { destruct Al as [A1 A2]. split; [|exact A2]. intros j y J Sy. destruct (A1 j y J Sy) as [Q1 [Q2 Q3]]. split; [exact Q1|]. split; [apply SP; exact Sy|]. split; [exact Q2|].
    intros x X [b [w [I Y]]]. specialize (Q3 _ _ I). lia. }
  destruct (tree_works E M n0 A N cal m0 src UF Tree Wr Prot) with (sizes := sizes) (off := mm_off mm) (tab := @nil (Z * Z)) (e := top) (anc := @nil value) (ancD := @nil value) (dst := dst) (s := s) (U := U)
    as [s2 [zs [T2 [Lg [_ [Lz Fz]]]]]]; try assumption.
  { intros anc x sz w z0 S Lk X q Q. destruct (Cov _ _ _ _ _ S Lk X) as [[b0 s0] [I [W1 W2]]]. cbn in W1, W2. exists b0, s0. split; [right; exact I|lia]. }
  { intros anc x sz w z0 S Lk X. exists anc, x, sz, w. auto. }
  { rewrite V. split; [exact ST|exact Nc]. }
  { constructor. }
  { apply (uf_bytes _ _ _ _ UF). }
  { intros x X. rewrite V, <- Zt in X. exists (v_addr src), z. split; [left; reflexivity|exact X]. }
  { reflexivity. }
  { rewrite <- Zt. exact D2. }
  { intros x X. rewrite <- Zt in X. split; [exists (v_addr dst), z; split; [right; left; reflexivity|exact X]|]. intros [p [w [I Y]]]. specialize (Adst _ _ I). unfold apart in Adst. lia. }
  { intros x [[|kk] [a0 [b0 [t [p [Q _]]]]]]; discriminate. }
  { rewrite <- Zt. exact Zd. }
  { eapply serves_less; [exact Sv|exact Cnt]. }
  assert (HC : copy_ex E M ord cal sd k src dst s = Ret (true, s2)).
  { destruct (built_info _ _ _ _ _ Bu) as [i [Fi2 _]]. apply final_info_some in Fi2. rewrite V in Fi2. destruct Fi2 as [f [Ff _]].
    pose proof (proj1 (proj1 ST _) Ff) as Fd.
    unfold copy_ex. rewrite N. rewrite (final_if_type (en_db E) n0 _ f) by assumption. cbn [bind]. rewrite (final_if_type (en_db E) n0 _ f) by assumption. cbn [bind].
    rewrite (SD _ _ Ff Fd). cbn [bind negb]. fold m0. rewrite H. cbn [bind]. rewrite Tree. cbn [negb]. fold top. rewrite T2. reflexivity. }
  assert (Fr : fresh_blocks (obtained cal (c_calls s) zs) old).
  { rewrite obtained_pairs. eapply pairs_apart; [exact Al|rewrite map_length, Lz; exact Cnt|]. intros h I. apply in_map_iff in I. destruct I as [y [<- I]]. cbn [fake h_size].
    rewrite Forall_forall in Fz. split; [apply Fz; exact I|apply SP; apply Fz; exact I]. }
  exists s2, (map evc (obtained cal (c_calls s) zs)). rewrite allocs_evc. split; [exact HC|]. split; [exact Lg|]. split; [exact Fr|].
  pose proof (copy_tree_sound E M ord cal sd Tree k src dst s s2 (map evc (obtained cal (c_calls s) zs)) z B HC Lg UF Ext ST Cov D1 D2 Adst) as So. rewrite allocs_evc in So. exact (So Fr Zd).
Qed.
