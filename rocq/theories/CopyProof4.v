(** Deep copies: soundness. *)
From Coq Require Import ZArith String List Bool Lia Permutation.
From Coq Require Import ZifyBool.
From Verif Require Import Base BaseProof EntryModel EntrySpec EntryProof ValueModel ValueSpec ValueProof ValueProof2
  DeepModel DeepSpec DeepProof DeepProof2 DeepProof3 DeepProof4 DeepProof5 DeepProof6 DeepProof7 DeepProof8 CopySpec CopyProof CopyProof2 CopyProof3.
Import ListNotations.
Open Scope Z_scope.

Lemma nodup_map_inj : forall {A B} (f : A -> B) l x y, NoDup (map f l) -> In x l -> In y l -> f x = f y -> x = y.
Proof.
  intros A B f l x y. induction l as [|a l IH]; intros N X Y Q; [destruct X|]. cbn in N. inversion N as [|? ? N1 N2]; subst.
  destruct X as [<-|X], Y as [<-|Y]; [reflexivity| | |apply IH; assumption]; exfalso; apply N1; apply in_map_iff; [exists y|exists x]; auto.
Qed.
Lemma allocs_pairs : forall (ps : list (hent * Z)), allocs (map (fun p => EvCalloc (snd p) (h_size (fst p))) ps) = map (fun p => (snd p, h_size (fst p))) ps.
Proof. induction ps as [|p ps IH]; [reflexivity|]. cbn. rewrite <- IH. reflexivity. Qed.


Section Prepared.
Variable E : env.
Variable M : mode.
Notation d := (en_db E).
Variable ord : list hent -> list hent.
Variable cal : nat -> Z -> Z.
Hypothesis Dag : mo_tree M = false.
Hypothesis PO : forall x, Permutation (ord x) x.
Variable m0 : mem.
Variable src : value.
Variable k : nat.
Variable mm : mmap.
Hypothesis N : new_memory_map E M k m0 src = Ret (Some mm).
Hypothesis CP : orderly E M m0 src.
Hypothesis CD : forall anc x i, sees E M m0 src anc x -> has_info d x i -> callable i -> anc = [].
Variable Rs : list region.
Variable B : list block.
Hypothesis OK : blocks_ok B.
Hypothesis Hd : held E M m0 src B.
Hypothesis RF0 : forall r, In r Rs -> 0 < r_src r /\ 0 <= r_size r /\ r_src r + r_size r < 2 ^ 64 /\ 0 < r_dst r /\ r_dst r + r_size r < 2 ^ 64.
Hypothesis RS0 : forall r r', In r Rs -> In r' Rs -> r = r' \/ r_src r + r_size r <= r_src r' \/ r_src r' + r_size r' <= r_src r.
Hypothesis RD0 : forall r r', In r Rs -> In r' Rs -> r = r' \/ r_dst r + r_size r <= r_dst r' \/ r_dst r' + r_size r' <= r_dst r.
Hypothesis RX0 : forall r r', In r Rs -> In r' Rs -> r_src r + r_size r <= r_dst r' \/ r_dst r' + r_size r' <= r_src r.
Hypothesis SB0 : forall r b w, In r Rs -> In (b, w) B -> apart (r_src r) (r_size r) b w.
Hypothesis DB0 : forall r b w, In r Rs -> In (b, w) B -> apart (r_dst r) (r_size r) b w.
Definition claimed : list block := map (fun r => (r_src r, r_size r)) Rs ++ map (fun r => (r_dst r, r_size r)) Rs ++ B.
Notation top := (mm_top mm).
Definition rp (p : hent * Z) : region := Build_region (h_addr (fst p)) (h_size (fst p)) (snd p).
Definition nb (p : hent * Z) : block := (snd p, h_size (fst p)).

Record ready (tab : list (Z * Z)) (s s1 : cst) (R : list region) (new : list block) : Prop := {
  rd_src : forall r, In r R -> 0 < r_src r /\ 0 <= r_size r /\ r_src r + r_size r < 2 ^ 64 /\ 0 < r_dst r /\ r_dst r + r_size r < 2 ^ 64;
  rd_rs : forall r r', In r R -> In r' R -> r = r' \/ r_src r + r_size r <= r_src r' \/ r_src r' + r_size r' <= r_src r;
  rd_rd : forall r r', In r R -> In r' R -> r = r' \/ r_dst r + r_size r <= r_dst r' \/ r_dst r' + r_size r' <= r_dst r;
  rd_rx : forall r r', In r R -> In r' R -> r_src r + r_size r <= r_dst r' \/ r_dst r' + r_size r' <= r_src r;
  rd_roots : incl Rs R;
  rd_cases : forall r, In r R -> In r Rs \/ (In (r_dst r, r_size r) new /\ (exists w, pointee E M m0 src w (r_size r) /\ v_addr w = r_src r) /\
    forall x, r_dst r <= x < r_dst r + r_size r -> c_mem s1 x = 0);
  rd_cb : forall e c t, in_tree e top -> In c (me_ch e) -> has_info d (me_val e) (IPointer t) ->
    exists rc, In rc R /\ in_region rc (v_addr (me_val c)) (me_size c) /\ 0 < me_size c /\
      forall st, child_block M cal (mm_off mm) tab c st = (0, st) \/ child_block M cal (mm_off mm) tab c st = (moved rc (v_addr (me_val c)), st);
  rd_zero : forall e c t st st', in_tree e top -> In c (me_ch e) -> has_info d (me_val e) (IPointer t) -> child_block M cal (mm_off mm) tab c st = (0, st') ->
    (forall w, ~ In (v_addr (me_val c), w) B) /\ ~ In (hb c) (hash_of mm);
  rd_keep : forall x, (forall a z, In (a, z) new -> ~ (a <= x < a + z)) -> c_mem s1 x = c_mem s x;
  rd_bytes : bytes_ok (c_mem s1);
  rd_used : forall n z, In (n, z) new -> exists r, In r R /\ r_dst r = n /\ r_size r = z /\ exists w, pointee E M m0 src w z /\ v_addr w = r_src r;
}.

Lemma prepared : forall s s1 tab, c_mem s = m0 -> preallocate cal (mm_off mm) (ord (hash_of mm)) s [] = (true, s1, tab) ->
  exists ps, c_log s1 = rev (map (fun p => EvCalloc (snd p) (h_size (fst p))) ps) ++ c_log s /\
    (fresh_blocks (map nb ps) claimed -> ready tab s s1 (Rs ++ map rp ps) (map nb ps)).
Proof.
  intros s s1 tab C0 Pr. pose proof N as N0. apply map_built in N0. destruct N0 as [Bu V Ni NA NI From All Off]. specialize (All Dag). rewrite Dag in Off.
  destruct CP as [cb cl cc cba cfi cpa cvi cin cop].
  pose proof (pointee_target E M m0 src top Bu V cl cc) as PT. pose proof (target_pointee _ _ _ _ _ Bu V) as TP.
  (* the hash map and the blocks *)
  assert (HP : forall h, In h (hash_of mm) -> exists w, v_addr w = h_addr h /\ pointee E M m0 src w (h_size h)).
  { intros h I. destruct (From h I) as [c [T ->]]. exists (me_val c). split; [reflexivity|]. apply TP. exact T. }
  assert (PH : forall w z, pointee E M m0 src w z -> exists h, In h (hash_of mm) /\ h_addr h = v_addr w /\ z <= h_size h).
  { intros w z0 P. destruct (PT w z0 P) as [c [T [<- <-]]]. apply All. exact T. }
  assert (BL : forall h, In h (hash_of mm) -> exists b s, In (b, s) B /\ start B (h_addr h) = b /\ 0 < h_size h /\ b <= h_addr h /\ h_addr h + h_size h <= b + s).
  { intros h I. destruct (HP h I) as [w [W P]]. destruct (Hd w _ P) as [Z0 [[b sb] [Ib [[W1 W2] _]]]]. cbn in W1, W2. exists b, sb. split; [exact Ib|].
    split; [|split; [exact Z0|lia]]. eapply start_block; [exact OK|exact Ib|]. lia. }
  assert (OFF : forall h, In h (hash_of mm) -> off_of (mm_off mm) (h_id h) = h_addr h - start B (h_addr h)).
  { intros h I. rewrite Off. apply (identify_offsets (fun h => start B (h_addr h))); try assumption.
    - intros x X. destruct (BL x X) as [b [sb [Ib [S [Z0 [L1 L2]]]]]]. destruct OK as [OKa _]. specialize (OKa _ _ Ib). lia.
    - intros x X. destruct (HP x X) as [w [W P]]. destruct (Hd w _ P) as [Z0 [[b sb] [Ib [[W1 W2] [w' [z' [P' [A' [[A1 A2] A3]]]]]]]]]. cbn in *.
      destruct (PH _ _ P') as [o [O1 [O2 O3]]]. exists o.
      assert (Sx : start B (h_addr x) = b) by (eapply start_block; [exact OK|exact Ib|lia]).
      destruct (Hd w' _ P') as [Z' _].
      assert (So : start B (h_addr o) = b) by (eapply start_block; [exact OK|exact Ib|lia]).
      split; [exact O1|]. split; [congruence|]. split; [congruence|]. lia.
    - intros x o X Xo Q Lt. destruct (BL x X) as [b [sb [Ib [S [Z0 [L1 L2]]]]]]. destruct (BL o Xo) as [b' [sb' [Ib' [S' [Z' [L1' L2']]]]]].
      rewrite S, S' in *. destruct OK as [_ OKb]. destruct (OKb _ _ _ _ Ib Ib') as [K|[K|K]]; [injection K as -> ->; lia|lia|lia]. }
  apply preallocate_pairs in Pr. destruct Pr as [ps [P1 [P2 [P3 P4]]]]. cbn [app] in P2.
  exists ps. split; [exact P3|]. intro Fr. clear P3. destruct Fr as [F1 [F2 F3]]. rewrite map_map in F1. cbn [fst nb] in F1.
  assert (PsH : forall p, In p ps -> In (fst p) (hash_of mm) /\ h_addr (fst p) = start B (h_addr (fst p))).
  { intros p I. assert (I2 : In (fst p) (map fst ps)) by (apply in_map; exact I). rewrite P1 in I2. apply filter_In in I2. destruct I2 as [I2 Q].
    apply (Permutation_in _ (PO _)) in I2. split; [exact I2|]. rewrite (OFF _ I2) in Q. lia. }
  assert (HPs : forall h, In h (hash_of mm) -> h_addr h = start B (h_addr h) -> exists a, In (h, a) ps).
  { intros h I Q. assert (I2 : In h (map fst ps)). { rewrite P1. apply filter_In. split; [apply (Permutation_in _ (Permutation_sym (PO _))); exact I|]. rewrite (OFF _ I). lia. }
    apply in_map_iff in I2. destruct I2 as [[h' a] [Q2 I2]]. cbn in Q2. subst h'. exists a. exact I2. }
  assert (NS : NoDup (map (fun p => h_addr (fst p)) ps)).
  { rewrite <- (map_map fst h_addr), P1. apply nodup_map_filter. eapply Permutation_NoDup; [apply Permutation_map, Permutation_sym, PO|exact NA]. }
  assert (PsA : forall p, In p ps -> In (nb p) (map nb ps)).
  { intros p I. apply in_map_iff. exists p. auto. }
  set (R := Rs ++ map rp ps).
  assert (InR : forall r, In r R -> In r Rs \/ exists p, In p ps /\ r = rp p).
  { intros r I. apply in_app_or in I. destruct I as [I|I]; [left; exact I|]. apply in_map_iff in I. destruct I as [p [<- I]]. right. exists p. auto. }
  assert (RpR : forall p, In p ps -> In (rp p) R) by (intros p I; apply in_or_app; right; apply in_map; exact I).
  assert (CS : forall r, In r Rs -> In (r_src r, r_size r) claimed).
  { intros r I. unfold claimed. apply in_or_app. left. apply in_map_iff. exists r. auto. }
  assert (CDs : forall r, In r Rs -> In (r_dst r, r_size r) claimed).
  { intros r I. unfold claimed. apply in_or_app. right. apply in_or_app. left. apply in_map_iff. exists r. auto. }
  assert (CBk : forall b w, In (b, w) B -> In (b, w) claimed).
  { intros b w I. unfold claimed. apply in_or_app. right. apply in_or_app. right. exact I. }
  assert (PsB : forall p, In p ps -> exists sb, In (h_addr (fst p), sb) B /\ 0 < h_size (fst p) <= sb).
  { intros p I. destruct (PsH p I) as [I1 I2]. destruct (BL _ I1) as [b [sb [B1 [B2 [B3 [B4 B5]]]]]]. exists sb. rewrite <- I2 in B2. rewrite B2. split; [exact B1|lia]. }
  assert (RF : forall r, In r R -> 0 < r_src r /\ 0 <= r_size r /\ r_src r + r_size r < 2 ^ 64 /\ 0 < r_dst r /\ r_dst r + r_size r < 2 ^ 64).
  { intros r I. destruct (InR r I) as [J|[p [Ip ->]]]; [apply RF0; exact J|]. cbn [rp r_src r_size r_dst]. destruct (PsB p Ip) as [sb [B1 B2]].
    destruct OK as [OKa _]. specialize (OKa _ _ B1). destruct F2 as [F2 _]. specialize (F2 _ _ (PsA p Ip)). lia. }
  assert (RS : forall r r', In r R -> In r' R -> r = r' \/ r_src r + r_size r <= r_src r' \/ r_src r' + r_size r' <= r_src r).
  { intros r r' I I'. destruct (InR r I) as [J|[p [Ip ->]]]; destruct (InR r' I') as [J'|[p' [Ip' ->]]]; cbn [rp r_src r_size]; [apply RS0; assumption| | |].
    - right. destruct (PsB _ Ip') as [sb [B1 B2]]. pose proof (SB0 _ _ _ J B1) as Q. unfold apart in Q. lia.
    - right. destruct (PsB _ Ip) as [sb [B1 B2]]. pose proof (SB0 _ _ _ J' B1) as Q. unfold apart in Q. lia.
    - destruct (PsB _ Ip) as [sb [B1 B2]]. destruct (PsB _ Ip') as [sb' [B1' B2']]. destruct OK as [_ OKb]. destruct (OKb _ _ _ _ B1 B1') as [Q|Q]; [|right; lia].
      left. f_equal. eapply nodup_map_inj; [exact NS|exact Ip|exact Ip'|congruence]. }
  assert (RD : forall r r', In r R -> In r' R -> r = r' \/ r_dst r + r_size r <= r_dst r' \/ r_dst r' + r_size r' <= r_dst r).
  { intros r r' I I'. destruct (InR r I) as [J|[p [Ip ->]]]; destruct (InR r' I') as [J'|[p' [Ip' ->]]]; cbn [rp r_dst r_size]; [apply RD0; assumption| | |].
    - right. specialize (F3 _ _ _ _ (PsA _ Ip') (CDs _ J)). lia.
    - right. specialize (F3 _ _ _ _ (PsA _ Ip) (CDs _ J')). lia.
    - destruct F2 as [_ F2]. destruct (F2 _ _ _ _ (PsA _ Ip) (PsA _ Ip')) as [Q|Q]; [|right; lia]. left. f_equal. eapply nodup_map_inj; [exact F1|exact Ip|exact Ip'|congruence]. }
  assert (RX : forall r r', In r R -> In r' R -> r_src r + r_size r <= r_dst r' \/ r_dst r' + r_size r' <= r_src r).
  { intros r r' I I'. destruct (InR r I) as [J|[p [Ip ->]]]; destruct (InR r' I') as [J'|[p' [Ip' ->]]]; cbn [rp r_src r_dst r_size]; [apply RX0; assumption| | |].
    - specialize (F3 _ _ _ _ (PsA _ Ip') (CS _ J)). lia.
    - destruct (PsB _ Ip) as [sb [B1 B2]]. pose proof (DB0 _ _ _ J' B1) as Q. unfold apart in Q. lia.
    - destruct (PsB _ Ip) as [sb [B1 B2]]. specialize (F3 _ _ _ _ (PsA _ Ip') (CBk _ _ B1)). lia. }
  assert (CB : forall e c t, in_tree e top -> In c (me_ch e) -> has_info d (me_val e) (IPointer t) ->
    exists rc, In rc R /\ in_region rc (v_addr (me_val c)) (me_size c) /\ 0 < me_size c /\
      forall st, child_block M cal (mm_off mm) tab c st = (0, st) /\ (forall w, ~ In (v_addr (me_val c), w) B) /\ ~ In (hb c) (hash_of mm) \/
        child_block M cal (mm_off mm) tab c st = (moved rc (v_addr (me_val c)), st) /\ moved rc (v_addr (me_val c)) <> 0).
  { intros e c t Te Ic HI.
    assert (It : In c (targets E top)).
    { destruct (tree_sees E M m0 src top Bu V e Te) as [anc [_ [_ Be]]]. destruct (built_info _ _ _ _ _ Be) as [f0 [F0 _]].
      eapply in_targets; [exact Te|exact Ic|]. exists t. rewrite F0. apply final_info_some in F0. pose proof (has_info_fun _ _ _ _ HI F0) as <-. reflexivity. }
    destruct (Hd _ _ (TP c It)) as [Z0 [[b sb] [Ib [[W1 W2] [w' [z' [P' [A' [[A1 A2] A3]]]]]]]]]. cbn in W1, W2, A', A1, A2, A3.
    destruct (PH _ _ P') as [o [O1 [O2 O3]]]. destruct (Hd w' _ P') as [Z' _].
    assert (So : start B (h_addr o) = b) by (eapply start_block; [exact OK|exact Ib|lia]).
    assert (Sc : start B (v_addr (me_val c)) = b) by (eapply start_block; [exact OK|exact Ib|lia]).
    destruct (HPs o O1) as [a Ia]; [lia|]. exists (rp (o, a)). split; [apply RpR; exact Ia|].
    assert (Pos : 0 < a /\ a + h_size o < 2 ^ 64). { destruct F2 as [F2 _]. specialize (F2 _ _ (PsA _ Ia)). cbn in F2. lia. }
    split; [unfold in_region; cbn; lia|]. split; [exact Z0|]. intro st. unfold child_block. rewrite Dag.
    destruct (Z.eqb_spec (off_of (mm_off mm) (me_id c)) 0) as [Q|Q]; cbn [negb].
    - rewrite P2. destruct (Z.eq_dec (v_addr (me_val c)) b) as [E1|E1].
      + right. replace (v_addr (me_val c)) with (h_addr o) by lia. rewrite (dst_of_in ps o a NS Ia). unfold moved. cbn. split; [f_equal; lia|lia].
      + left. rewrite dst_of_out; [|intros p Ip Ep; destruct (PsH p Ip) as [_ Sp]; rewrite Ep in Sp; lia]. split; [reflexivity|]. split.
        * intros w Iw. assert (start B (v_addr (me_val c)) = v_addr (me_val c)) by (eapply start_block; [exact OK|exact Iw|]; destruct OK as [OKa _]; specialize (OKa _ _ Iw); lia). lia.
        * intro Ih. pose proof (OFF _ Ih) as Q2. cbn in Q2. lia.
    - right.
      assert (Oc : off_of (mm_off mm) (me_id c) = v_addr (me_val c) - b).
      { unfold off_of in Q. destruct (find _ _) as [[i0 o0]|] eqn:Fi; [|congruence]. apply find_some in Fi. destruct Fi as [Fi Ei]. cbn in Ei. apply Nat.eqb_eq in Ei. subst i0.
        rewrite Off in Fi. unfold identify in Fi. apply sweep_ids in Fi. destruct Fi as [h [Ih [Eh _]]].
        assert (Ih' : In h (hash_of mm)) by (eapply Permutation_in; [apply Permutation_sym, sort_perm|exact Ih]).
        destruct (From h Ih') as [c' [Tc' ->]]. cbn in Eh. assert (c' = c).
        { destruct (targets_in _ _ _ Tc') as [e' [t' [Te' [Ic' _]]]]. eapply id_unique; [exact Ni|exact (child_in top e' c' Te' Ic')|exact (child_in top e c Te Ic)|exact Eh]. } subst c'.
        replace (me_id c) with (h_id (hb c)) by reflexivity. rewrite (OFF _ Ih'). cbn. lia. }
      rewrite Oc, P2. destruct OK as [OKa _]. specialize (OKa _ _ Ib). rewrite (uwrap_small 64 (v_addr (me_val c) - _)) by lia.
      replace (v_addr (me_val c) - (v_addr (me_val c) - b)) with (h_addr o) by lia. rewrite (dst_of_in ps o a NS Ia).
      replace (a =? 0) with false by lia. rewrite uwrap_small by lia. unfold moved. cbn. split; [f_equal; lia|lia]. }
  (* the state after the blocks have been obtained *)
  assert (Ex : forall x, existsb (fun p : hent * Z => (snd p <=? x) && (x <? snd p + h_size (fst p))) ps = true <-> exists p, In p ps /\ snd p <= x < snd p + h_size (fst p)).
  { intro x. rewrite existsb_exists. split; intros [p [A1 A2]]; exists p; split; try assumption; lia. }
  constructor.
  - exact RF.
  - exact RS.
  - exact RD.
  - exact RX.
  - intros r I. apply in_or_app. left. exact I.
  - intros r I. destruct (InR r I) as [J|[p [Ip ->]]]; [left; exact J|]. right. split; [exact (PsA p Ip)|]. split.
    + destruct (PsH p Ip) as [Ih _]. destruct (HP _ Ih) as [wh [Wh P]]. exists wh. split; [exact P|exact Wh].
    + intros x X. rewrite P4. replace (existsb _ ps) with true; [reflexivity|]. symmetry. apply Ex. exists p. split; [exact Ip|exact X].
  - intros e c t Q1 Q2 Q3. destruct (CB e c t Q1 Q2 Q3) as [rc [C1 [C2 [C3 C4]]]]. exists rc. split; [exact C1|]. split; [exact C2|]. split; [exact C3|].
    intro st. destruct (C4 st) as [[Q _]|[Q _]]; [left|right]; exact Q.
  - intros e c t st st' Q1 Q2 Q3 Q4. destruct (CB e c t Q1 Q2 Q3) as [rc [C1 [C2 [C3 C4]]]]. destruct (C4 st) as [[_ Q]|[Q Q']]; [exact Q|].
    rewrite Q in Q4. injection Q4 as Q4 _. destruct (Q' Q4).
  - intros x X. rewrite P4. destruct (existsb _ ps) eqn:Q; [|reflexivity]. apply Ex in Q. destruct Q as [p [Ip Q]]. destruct (X _ _ (PsA p Ip) Q).
  - intro x. rewrite P4. destruct (existsb _ _); [lia|rewrite C0; apply cb].
  - intros a z I. apply in_map_iff in I. destruct I as [p [Q Ip]]. injection Q as <- <-. exists (rp p). split; [exact (RpR p Ip)|]. split; [reflexivity|]. split; [reflexivity|].
    destruct (PsH p Ip) as [Ih _]. destruct (HP _ Ih) as [wh [Wh P]]. exists wh. split; [exact P|exact Wh].
Qed.

(** the end of a successful traversal *)
Lemma finish : forall tab s s1 R new cm W, ready tab s s1 R new -> c_mem s = m0 ->
  Inv E M m0 top R W cm -> (forall x b, in_tree x top -> msc E M x b -> W (v_addr (me_val x)) (me_size x) b) ->
  (forall e, in_tree e top -> (forall i, has_info d (me_val e) i -> ~ callable i) -> exists r, In r R /\ in_region r (v_addr (me_val e)) (me_size e)) ->
  spread E M m0 cm src Rs new R.
Proof.
  intros tab s s1 R new cm W [RF RS RD RX RR RC CB CZ RK RB RU] C0 IW All2 Rg.
  pose proof N as N0. apply map_built in N0. destruct N0 as [Bu V Ni NA NI From All Off]. specialize (All Dag). rewrite Dag in Off.
  assert (CR : forall e c t, in_tree e top -> In c (me_ch e) -> has_info d (me_val e) (IPointer t) -> exists rc, In rc R /\ in_region rc (v_addr (me_val c)) (me_size c)).
  { intros e c t Q1 Q2 Q3. destruct (CB e c t Q1 Q2 Q3) as [rc [C1 [C2 _]]]. exists rc. auto. }
  assert (Sc : forall anc x sz b, sees E M m0 src anc x -> scalar E M m0 anc x sz b -> done R m0 cm (v_addr x) sz b).
  { intros anc x sz b S Sx. destruct (seen E M m0 src top Bu V CP _ _ S) as [anc' [e [T [<- [_ [Be C]]]]]]. assert (Sx' : scalar E M m0 anc' (me_val e) sz b) by (eapply scalar_local; eassumption).
    destruct (scalar_msc E M m0 src top V CP _ _ _ _ Be Sx') as [Ms ->]. apply (iv_done _ _ _ _ _ _ _ IW). apply All2; assumption. }
  constructor.
  - exact RR.
  - intros r I. destruct (RC r I) as [J|[J _]]; auto.
  - intros r I. destruct (RC r I) as [J|[_ [J _]]]; auto.
  - exact RS.
  - exact RD.
  - intros x N1 N2. apply (iv_frame _ _ _ _ _ _ _ IW). intros [r [I A]]. destruct (RC r I) as [J|[J _]]; [exact (N1 _ J A)|exact (N2 _ _ J A)].
  - intros anc x sz S NCx X. destruct (seen E M m0 src top Bu V CP _ _ S) as [anc' [e [T [<- [_ [Be C]]]]]].
    assert (sz = me_size e). { eapply extent_fun; [exact (cp_local _ _ _ _ CP)|exact X|exact C|apply built_extent; exact Be]. } subst sz. apply Rg; assumption.
  - intros anc x sz r S Sx I A. exact (Sc _ _ _ _ S Sx r I A).
  - intros anc x t r S P I A. pose proof (Sc _ _ _ _ S (points_scalar E M m0 anc x t 0 P) r I A) as Im. cbn [image] in Im.
    destruct P as [_ P]. rewrite <- P in Im. exact Im.
  - intros anc x t p r S P NZ I A. pose proof (Sc _ _ _ _ S (points_scalar E M m0 anc x t p P) r I A) as Im. cbn [image] in Im.
    destruct (pointer_place E M m0 src top Bu V CP CD R CR _ _ _ _ S P NZ) as [q [Iq Aq]]. exists q. split; [exact Iq|]. split; [exact Aq|].
    destruct P as [_ P]. rewrite <- P in Im. replace (p =? 0) with false in Im by lia. rewrite Im. apply tau_in; assumption.
  - exact RU.
  - exact (iv_ok _ _ _ _ _ _ _ IW).
Qed.
End Prepared.
Section Sound.
Variable E : env.
Variable M : mode.
Notation d := (en_db E).
Variable ord : list hent -> list hent.
Variable cal : nat -> Z -> Z.
Variable sd : option eptr -> option eptr -> res bool.
Hypothesis Dag : mo_tree M = false.
Hypothesis UI : mo_union M <> UNION_ignore.
Hypothesis PO : forall x, Permutation (ord x) x.

Lemma copy_sound : forall k src dst s s' evs z B,
  copy_ex E M ord cal sd k src dst s = Ret (true, s') -> calls s s' evs ->
  copyable E M (c_mem s) src -> extent E M (c_mem s) [] src z -> same_type d src dst ->
  blocks_ok B -> held E M (c_mem s) src B ->
  (forall b w, In (b, w) B -> apart (v_addr src) z b w) ->
  0 < v_addr dst -> v_addr dst + z < 2 ^ 64 -> (forall b w, In (b, w) ((v_addr src, z) :: B) -> apart (v_addr dst) z b w) ->
  fresh_blocks (allocs evs) ((v_addr src, z) :: (v_addr dst, z) :: B) ->
  (mo_uptr M = UPTR_fail \/ mo_uptr M = UPTR_as_one_byte_ptr -> forall x, v_addr dst <= x < v_addr dst + z -> c_mem s x = 0) ->
  exists R, copied E M (c_mem s) (c_mem s') src z (v_addr dst) (allocs evs) R.
Proof.
  intros k src dst s s' evs z B H Cl CP Ext ST OK Hd Asrc D1 D2 Adst Fr Zd.
  unfold copy_ex in H. apply bind_ret in H. destruct H as [[f1|] [_ H]]; [|apply bind_ret in H; destruct H as [f2 [_ H]]; discriminate].
  apply bind_ret in H. destruct H as [[f2|] [_ H]]; [|discriminate]. apply bind_ret in H. destruct H as [sm [_ H]]. destruct sm; [cbn [negb] in H|discriminate].
  apply bind_ret in H. destruct H as [[mm|] [N H]]; [|discriminate]. rewrite Dag in H.
  destruct (preallocate _ _ _ _ _) as [[ok s1] tab] eqn:Pr in H. destruct ok; cbn [negb] in H; [|discriminate].
  apply bind_ret in H. destruct H as [[b s2] [H1 H]]. injection H as -> <-.
  destruct CP as [CP cda]. pose proof CP as CP0. destruct CP0 as [cb cl cc cba cfi cpa cvi cin cop].
  set (m0 := c_mem s) in *. set (top := mm_top mm) in *.
  assert (CD : forall anc x i, sees E M m0 src anc x -> has_info d x i -> callable i -> anc = []) by (intros anc x i Q1 Q2 Q3; destruct (cda _ _ _ Q1 Q2 Q3)).
  pose proof N as N0. apply map_built in N0. destruct N0 as [Bu V _ _ _ _ _ _]. fold top in Bu, V.
  assert (Zt : z = me_size top).
  { eapply extent_fun; [exact cl|exact Ext|apply same_ctx_refl|]. rewrite <- V. apply built_extent. exact Bu. }
  assert (Fsrc : 0 < v_addr src /\ 0 <= z /\ v_addr src + z < 2 ^ 64).
  { pose proof (extent_nonneg _ _ _ _ _ _ Ext). destruct (cfi [] src z (se_here _ _ _ _) Ext). lia. }
  set (rt := Build_region (v_addr src) z (v_addr dst)).
  destruct (prepared E M ord cal Dag PO m0 src k mm N CP [rt] B OK Hd) with (s := s) (s1 := s1) (tab := tab) as [ps [P3 RDY]]; try assumption; try reflexivity.
  { intros r [<-|[]]. cbn. lia. }
  { intros r r' [<-|[]] [<-|[]]. left. reflexivity. }
  { intros r r' [<-|[]] [<-|[]]. left. reflexivity. }
  { intros r r' [<-|[]] [<-|[]]. cbn. specialize (Adst _ _ (or_introl eq_refl)). unfold apart in Adst. lia. }
  { intros r b w [<-|[]] I. cbn. apply Asrc. exact I. }
  { intros r b w [<-|[]] I. cbn. apply Adst. right. exact I. }
  assert (Al : allocs evs = map nb ps).
  { pose proof (copy_tree_log E M cal Dag _ _ _ _ _ _ _ _ H1) as Lg. unfold calls in Cl. rewrite Lg, P3 in Cl. apply app_inv_tail in Cl.
    rewrite <- (rev_involutive evs), <- Cl, rev_involutive. apply allocs_pairs. }
  rewrite Al in *. specialize (RDY Fr). set (R := [rt] ++ map rp ps) in *.
  assert (RtR : In rt R) by (left; reflexivity).
  assert (I0 : Inv E M m0 top R (fun _ _ _ => False) (c_mem s1)).
  { destruct RDY as [RF RS RD RX RR RC CB CZ RK RB RU]. constructor.
    - exact RB.
    - intros x Nx. apply RK. intros a w I X. apply in_map_iff in I. destruct I as [p [Q I]]. injection Q as <- <-. apply Nx. exists (rp p). split; [right; apply in_map; exact I|exact X].
    - intros NL a It Na r Ir Ar. cbn [image]. rewrite Na. cbn [Z.eqb]. apply number_zero. intros x X. unfold in_region, moved in *.
      assert (XR : r_dst r <= x < r_dst r + r_size r) by lia. destruct (RC r Ir) as [[<-|[]]|[_ [_ J]]]; [|apply J; exact XR].
      rewrite RK; [apply Zd; [exact NL|exact XR]|]. intros b w I Y. destruct Fr as [_ [_ F3]]. specialize (F3 _ _ (v_addr dst) z I (or_intror (or_introl eq_refl))). cbn in XR. lia.
    - intros a z0 b [] . }
  assert (Rt : in_region rt (v_addr (me_val top)) (me_size top)) by (unfold in_region; cbn; rewrite V; lia).
  destruct RDY as [RF RS RD RX RR RC CB CZ RK RB RU] eqn:QR. clear QR. fold top in CB.
  destruct (tree_inv E M cal m0 src top Bu V CP UI R RF RS RD RX (mm_off mm) tab CB Dag CD top (fun _ _ _ => False) s1 dst rt [] [] s2) as [W [IW [_ All2]]].
  { intros i Hi Ki. rewrite V in Hi. exact (cda _ _ _ (se_here _ _ _ _) Hi Ki). }
  { exact I0. }
  { apply it_here. }
  { rewrite V. apply se_here. }
  { exact Bu. }
  { exact RtR. }
  { exact Rt. }
  { unfold moved. cbn. rewrite V. lia. }
  { rewrite V. exact ST. }
  { constructor. }
  { exact H1. }
  assert (SP : spread E M m0 (c_mem s2) src [rt] (map nb ps) R).
  { eapply (finish E M cal Dag m0 src k mm N CP CD [rt] B tab s s1 R (map nb ps) (c_mem s2) W RDY eq_refl IW); [exact All2|].
    intros e Te _. assert (CR : forall e c t, in_tree e top -> In c (me_ch e) -> has_info d (me_val e) (IPointer t) -> exists rc, In rc R /\ in_region rc (v_addr (me_val c)) (me_size c)).
    { intros e' c t Q1 Q2 Q3. destruct (CB e' c t Q1 Q2 Q3) as [rc [C1 [C2 _]]]. exists rc. auto. }
    eapply (tree_region E M m0 src top V CP CD R CR e top Te []); [apply it_here|rewrite V; apply se_here|exact Bu| |exists rt; split; [exact RtR|exact Rt]].
    intros i Hi Ki. rewrite V in Hi. exact (cda _ _ _ (se_here _ _ _ _) Hi Ki). }
  exists R. destruct SP as [q1 q2 q3 q4 q5 q6 q7 q8 q9 q10 q11 q12]. constructor; try assumption.
  - intros r I. destruct (q2 r I) as [[<-|[]]|J]; [left; reflexivity|right; exact J].
  - intros r I. destruct (q3 r I) as [[<-|[]]|J]; [left; reflexivity|right; exact J].
  - intros x N1 N2. apply q6; [|exact N2]. intros r [<-|[]]. exact N1.
  - intros anc x w S X. apply (q7 _ _ _ S); [|exact X]. intros i Hi Ki. exact (cda _ _ _ S Hi Ki).
Qed.
End Sound.
