(** Whole copies: allocation, and the result. *)
From Coq Require Import ZArith String List Bool Permutation Lia ZifyBool.
From Verif Require Import Base BaseProof EntryModel EntrySpec EntryProof ValueModel ValueSpec ValueProof ValueProof2 DeepModel DeepSpec DeepProof DeepProof2 DeepProof3 DeepProof4 DeepProof5 DeepProof6 DeepProof7 DeepProof8
  CopySpec CopyProof CopyProof2 CopyProof3 CopyProof4 MoveSpec MoveProof MoveProof4 EqualSpec CompleteSpec CompleteProof CompleteProof2.
Import ListNotations.
Open Scope Z_scope.

(** the blocks obtained for the entries of the list that are not inside others: one call each *)
Fixpoint number_pairs (cal : nat -> Z -> Z) (j : nat) (l : list hent) : list (hent * Z) :=
  match l with [] => [] | h :: r => (h, cal j (h_size h)) :: number_pairs cal (S j) r end.
Lemma preallocate_makes : forall cal off l s tab,
  (forall h j, In h l -> (c_calls s <= j < c_calls s + length (filter (fun h => (off_of off (h_id h) =? 0)%Z) l))%nat -> cal j (h_size h) <> 0) ->
  exists s' tab', preallocate cal off l s tab = (true, s', tab') /\
    c_log s' = rev (map (fun p => EvCalloc (snd p) (h_size (fst p))) (number_pairs cal (c_calls s) (filter (fun h => off_of off (h_id h) =? 0) l))) ++ c_log s.
Proof.
  intros cal off l. induction l as [|h l IH]; intros s tab C; cbn [preallocate filter]; [eexists _, _; split; reflexivity|]. cbn [filter] in C.
  destruct (off_of off (h_id h) =? 0).
  - unfold calloc. cbn [length] in C. pose proof (C h (c_calls s) (or_introl eq_refl) ltac:(lia)) as Z0. replace (cal (c_calls s) (h_size h) =? 0) with false by lia.
    match goal with |- context [preallocate cal off l ?st ?tb] => destruct (IH st tb) as [s' [tab' [Q1 Q2]]] end.
    { cbn [c_calls]. intros h' j I J. apply C; [right; exact I|lia]. }
    exists s', tab'. split; [exact Q1|]. rewrite Q2. cbn [c_calls c_log number_pairs map rev fst snd]. rewrite <- app_assoc. reflexivity.
  - apply IH. intros h' j I J. apply C; [right; exact I|exact J].
Qed.
Lemma pairs_in : forall cal l j h a, In (h, a) (number_pairs cal j l) -> In h l /\ exists i, (j <= i < j + length l)%nat /\ a = cal i (h_size h).
Proof.
  intros cal l. induction l as [|x l IH]; intros j h a I; [destruct I|]. cbn [length]. destruct I as [I|I].
  - injection I as <- <-. split; [left; reflexivity|]. exists j. split; [lia|reflexivity].
  - destruct (IH _ _ _ I) as [I1 [i [I2 I3]]]. split; [right; exact I1|]. exists i. split; [lia|exact I3].
Qed.
Lemma pairs_apart : forall cal sizes old j n l, allocates cal j n sizes old -> (length l <= n)%nat -> (forall h, In h l -> sizes (h_size h) /\ 0 < h_size h) ->
  fresh_blocks (map nb (number_pairs cal j l)) old.
Proof.
  intros cal sizes old j n l [A1 A2] Le P.
  assert (Two : forall j' l', (j <= j')%nat -> (j' + length l' <= j + n)%nat -> (forall h, In h l' -> sizes (h_size h) /\ 0 < h_size h) ->
    NoDup (map fst (map nb (number_pairs cal j' l'))) /\
    forall b s b' s', In (b, s) (map nb (number_pairs cal j' l')) -> In (b', s') (map nb (number_pairs cal j' l')) -> (b, s) = (b', s') \/ b + s <= b' \/ b' + s' <= b).
  { clear l P Le. intros j' l'. revert j'. induction l' as [|h l' IH]; intros j' J Le P; [split; [constructor|intros b s b' s' []]|]. cbn [length] in Le.
    destruct (IH (S j') ltac:(lia) ltac:(lia) (fun x I => P x (or_intror I))) as [N Q]. destruct (P h (or_introl eq_refl)) as [Ph Pz].
    assert (Later : forall b s, In (b, s) (map nb (number_pairs cal (S j') l')) -> 0 < s /\ (cal j' (h_size h) + h_size h <= b \/ b + s <= cal j' (h_size h))).
    { intros b s I. apply in_map_iff in I. destruct I as [[x a] [X I]]. unfold nb in X. cbn in X. injection X as <- <-. destruct (pairs_in _ _ _ _ _ I) as [Ix [i [Li ->]]].
      destruct (P x (or_intror Ix)) as [Px Pxz]. split; [exact Pxz|]. exact (A2 j' i _ _ J ltac:(lia) Ph Px). }
    cbn [number_pairs map nb fst snd]. split.
    - constructor; [|exact N]. intro I. apply in_map_iff in I. destruct I as [[b s] [X I]]. cbn in X. subst b. destruct (Later _ _ I). lia.
    - intros b s b' s' [I|I] [I'|I'].
      + left. congruence.
      + injection I as <- <-. destruct (Later _ _ I'). right. lia.
      + injection I' as <- <-. destruct (Later _ _ I). right. lia.
      + apply Q; assumption. }
  destruct (Two j l (le_n _) ltac:(lia) P) as [N Q].
  assert (One : forall b s, In (b, s) (map nb (number_pairs cal j l)) -> exists i z, (j <= i < j + n)%nat /\ sizes z /\ 0 < z /\ b = cal i z /\ s = z).
  { intros b s I. apply in_map_iff in I. destruct I as [[x a] [X I]]. unfold nb in X. cbn in X. injection X as <- <-. destruct (pairs_in _ _ _ _ _ I) as [Ix [i [Li ->]]].
    destruct (P x Ix) as [Px Pxz]. exists i, (h_size x). split; [lia|auto]. }
  split; [exact N|]. split; [split; [|exact Q]|].
  - intros b s I. destruct (One _ _ I) as [i [z [Li [Sz [Pz [-> ->]]]]]]. destruct (A1 i z Li Sz) as [Q1 [Q2 _]]. lia.
  - intros a z b s I Io. destruct (One _ _ I) as [i [z' [Li [Sz [Pz [-> ->]]]]]]. destruct (A1 i z' Li Sz) as [_ [_ Q3]]. exact (Q3 _ _ Io).
Qed.

(** * Entries by the way to them *)
Section Ways.
Variable E : env.
Variable M : mode.
Variable m : mem.
Variable v : value.
Variable top : ment.
Hypothesis Bu : built_ok E M m [] top.
Hypothesis V : me_val top = v.
Hypothesis PD : parts_differ E M m v.
Hypothesis NC : forall anc x i, reaches E M m v anc x -> has_info (en_db E) x i -> ~ callable i.
Inductive way : list value -> ment -> Prop :=
| wy_top : way [] top
| wy_next anc e c : way anc e -> In c (me_ch e) -> way (me_val e :: anc) c.
Lemma tree_way : forall e0 anc0, way anc0 e0 -> forall e, in_tree e e0 -> exists anc, way anc e.
Proof. intros e0 anc0 W e T. revert anc0 W. induction T as [|e0 c I T IH]; intros anc0 W; [exists anc0; exact W|]. eapply IH. eapply wy_next; eassumption. Qed.
Lemma way_reaches : forall anc e, way anc e -> reaches E M m v anc (me_val e) /\ built_ok E M m anc e.
Proof.
  intros anc e W. induction W as [|anc e c W [R B] I]; [split; [rewrite V; apply re_here|exact Bu]|].
  destruct (built_looks _ _ _ _ _ B) as [w [_ [L K]]]. destruct w as [|sz1|sz1 lv|sz1 chs|sz1 t1|ca]; [contradiction| | | | |].
  - destruct K as [_ [_ K]]. rewrite K in I. destruct I.
  - destruct K as [_ [_ K]]. rewrite K in I. destruct I.
  - destruct K as [_ [-> [F _]]]. rewrite Forall_forall in F. split; [eapply re_node; [exact R|exact L|apply in_map; exact I]|apply F; exact I].
  - destruct K as [_ [_ [c' [K1 [K2 K3]]]]]. rewrite K1 in I. destruct I as [<-|[]]. split; [rewrite K2; eapply re_ptr; eassumption|exact K3].
  - destruct K as [_ [_ [-> F]]]. rewrite Forall_forall in F. split; [eapply re_call; [exact R|exact L|apply in_map; exact I]|apply F; exact I].
Qed.
Lemma way_end : forall e, way [] e -> e = top.
Proof. intros e W. inversion W. reflexivity. Qed.
Lemma way_last : forall x anc c, way (x :: anc) c -> exists e, way anc e /\ In c (me_ch e) /\ me_val e = x.
Proof. intros x anc c W. inversion W as [|anc' e c' We Ic]. exists e. auto. Qed.
Lemma way_one : forall anc e, way anc e -> forall e', way anc e' -> me_val e = me_val e' -> e = e'.
Proof.
  induction anc as [|x anc IH]; intros c W c' W' Q; [rewrite (way_end _ W), (way_end _ W'); reflexivity|].
  destruct (way_last _ _ _ W) as [e [We [I X]]]. destruct (way_last _ _ _ W') as [e' [We' [I' X']]].
  assert (e = e') by (apply IH; [assumption|assumption|congruence]). subst e'.
  destruct (way_reaches _ _ We) as [R B]. destruct (built_looks _ _ _ _ _ B) as [w [_ [L K]]]. destruct w as [|sz1|sz1 lv|sz1 chs|sz1 t1|ca]; [contradiction| | | | |].
  - destruct K as [_ [_ K]]. rewrite K in I. destruct I.
  - destruct K as [_ [_ K]]. rewrite K in I. destruct I.
  - destruct K as [_ [-> _]]. eapply nodup_map_inj; [exact (PD _ _ _ _ R L)|exact I|exact I'|exact Q].
  - destruct K as [_ [_ [c0 [K1 _]]]]. rewrite K1 in I, I'. destruct I as [<-|[]]. destruct I' as [<-|[]]. reflexivity.
  - exfalso. destruct (call_info _ _ _ _ _ _ L) as [i [Hi Ci]]. exact (NC _ _ _ R Hi Ci).
Qed.
End Ways.

Section Whole.
Variable E : env.
Variable M : mode.
Variable n0 : nat.
Notation d := (en_db E).
Hypothesis A : acyclic d n0.
Hypothesis N : en_fuel E = (n0 + 3)%nat.
Variable ord : list hent -> list hent.
Variable cal : nat -> Z -> Z.
Variable sd : option eptr -> option eptr -> res bool.
Hypothesis Dag : mo_tree M = false.
Hypothesis UI : mo_union M <> UNION_ignore.
Hypothesis PO : forall x, Permutation (ord x) x.

(** targets whose place in the middle of a block is pointed to once are in the hash map *)
Lemma once_kept : forall k m v mm B, new_memory_map E M k m v = Ret (Some mm) -> parts_differ E M m v -> inner_once E M m v B ->
  (forall anc x i, reaches E M m v anc x -> has_info d x i -> ~ callable i) ->
  forall e c t, in_tree e (mm_top mm) -> In c (me_ch e) -> has_info d (me_val e) (IPointer t) -> (exists w, In (v_addr (me_val c), w) B) \/ In (hb c) (hash_of mm).
Proof.
  intros k m v mm B H PD IO NC e c t Te Ic HI. pose proof (map_built _ _ _ _ _ _ H) as [Bu V Ni NA NI From All Off]. specialize (All Dag).
  assert (Fi : forall e0 t0, has_info d (me_val e0) (IPointer t0) -> final_info E (me_val e0) = Ret (Some (IPointer t0))) by (intros e0 t0 I0; apply (info_ret E n0 A N); exact I0).
  assert (It : In c (targets E (mm_top mm))) by (eapply in_targets; [exact Te|exact Ic|exists t; apply Fi; exact HI]).
  destruct (All c It) as [h [Ih [Ah _]]]. destruct (From h Ih) as [c' [Ic' ->]]. cbn [hb h_addr] in Ah.
  destruct (targets_in _ _ _ Ic') as [e' [t' [Te' [Jc' Fi']]]]. apply final_info_some in Fi'.
  destruct (tree_way (mm_top mm) _ _ (wy_top _) e Te) as [anc W]. destruct (tree_way (mm_top mm) _ _ (wy_top _) e' Te') as [anc' W'].
  destruct (way_reaches E M m v _ Bu V _ _ W) as [R Be]. destruct (way_reaches E M m v _ Bu V _ _ W') as [R' Be'].
  assert (PV : forall a p q x, built_ok E M m a p -> In q (me_ch p) -> has_info d (me_val p) (IPointer x) -> me_ch p = [q] /\ exists sz, looks E M m a (me_val p) (VPtr sz (me_val q))).
  { clear. intros a p q x Bp Iq Ip. destruct (built_looks _ _ _ _ _ Bp) as [w [_ [L K]]]. destruct w as [|sz1|sz1 lv|sz1 chs|sz1 t1|ca]; [contradiction| | | | |].
    - destruct K as [_ [_ K]]. rewrite K in Iq. destruct Iq.
    - destruct K as [_ [_ K]]. rewrite K in Iq. destruct Iq.
    - exfalso. eapply node_not_ptr; eassumption.
    - destruct K as [_ [_ [c0 [K1 [K2 K3]]]]]. rewrite K1 in Iq. destruct Iq as [<-|[]]. split; [exact K1|]. exists sz1. rewrite K2. exact L.
    - exfalso. destruct (call_info _ _ _ _ _ _ L) as [i [Hi Ci]]. pose proof (has_info_fun _ _ _ _ Ip Hi) as <-. destruct Ci. }
  destruct (PV _ _ _ _ Be Ic HI) as [C1 [sz L]]. destruct (PV _ _ _ _ Be' Jc' Fi') as [C2 [sz' L']].
  destruct (IO _ _ _ _ _ _ _ _ R L R' L' (eq_sym Ah)) as [Q|[Q1 Q2]]; [left; exact Q|right]. subst anc'.
  assert (e' = e) by (symmetry; eapply (way_one E M m v _ Bu V PD NC); eassumption). subst e'.
  rewrite C1 in C2. injection C2 as <-. exact Ih.
Qed.

(** offsets are the distances to the starts of blocks *)
Lemma off_start : forall k m v mm B, new_memory_map E M k m v = Ret (Some mm) -> local E m -> coherent E M m v -> blocks_ok B -> held E M m v B ->
  (forall h, In h (hash_of mm) -> off_of (mm_off mm) (h_id h) = h_addr h - start B (h_addr h)) /\
  (forall h, In h (hash_of mm) -> exists b s, In (b, s) B /\ start B (h_addr h) = b /\ 0 < h_size h /\ b <= h_addr h /\ h_addr h + h_size h <= b + s) /\
  (forall w z, pointee E M m v w z -> exists h, In h (hash_of mm) /\ h_addr h = v_addr w /\ z <= h_size h).
Proof.
  intros k m v mm B H cl cc OK Hd. pose proof (map_built _ _ _ _ _ _ H) as [Bu V Ni NA NI From All Off]. specialize (All Dag). rewrite Dag in Off.
  pose proof (pointee_target E M m v (mm_top mm) Bu V cl cc) as PT. pose proof (target_pointee _ _ _ _ _ Bu V) as TP.
  assert (HP : forall h, In h (hash_of mm) -> exists w, v_addr w = h_addr h /\ pointee E M m v w (h_size h)).
  { intros h I. destruct (From h I) as [c [T ->]]. exists (me_val c). split; [reflexivity|]. apply TP. exact T. }
  assert (PH : forall w z, pointee E M m v w z -> exists h, In h (hash_of mm) /\ h_addr h = v_addr w /\ z <= h_size h).
  { intros w z0 P. destruct (PT w z0 P) as [c [T [<- <-]]]. apply All. exact T. }
  assert (BL : forall h, In h (hash_of mm) -> exists b s, In (b, s) B /\ start B (h_addr h) = b /\ 0 < h_size h /\ b <= h_addr h /\ h_addr h + h_size h <= b + s).
  { intros h I. destruct (HP h I) as [w [W P]]. destruct (Hd w _ P) as [Z0 [[b sb] [Ib [[W1 W2] _]]]]. cbn in W1, W2. exists b, sb. split; [exact Ib|].
    split; [|split; [exact Z0|lia]]. eapply start_block; [exact OK|exact Ib|]. lia. }
  assert (OFF : forall h, In h (hash_of mm) -> off_of (mm_off mm) (h_id h) = h_addr h - start B (h_addr h)).
  { intros h I. rewrite Off. apply (identify_offsets (fun h => start B (h_addr h))); try assumption.
    - intros x X. destruct (BL x X) as [b [sb [Ib [S [Z0 [L1 L2]]]]]]. destruct OK as [OKa _]. specialize (OKa _ _ Ib). lia.
    - intros x X. destruct (HP x X) as [w [W P]]. destruct (Hd w _ P) as [Z0 [[b sb] [Ib [[W1 W2] [w' [z' [P' [A' [[A1 A2] A3]]]]]]]]]. cbn in *.
      destruct (PH _ _ P') as [o [O1 [O2 O3]]]. exists o.
      assert (Sx : start B (h_addr x) = b) by (eapply start_block; [exact OK|exact Ib|lia]).
      destruct (Hd w' _ P') as [Z' _].
      assert (So : start B (h_addr o) = b) by (eapply start_block; [exact OK|exact Ib|lia]).
      split; [exact O1|]. split; [congruence|]. split; [congruence|]. lia.
    - intros x o X Xo Q Lt. destruct (BL x X) as [b [sb [Ib [S [Z0 [L1 L2]]]]]]. destruct (BL o Xo) as [b' [sb' [Ib' [S' [Z' [L1' L2']]]]]].
      rewrite S, S' in *. destruct OK as [_ OKb]. destruct (OKb _ _ _ _ Ib Ib') as [K|[K|K]]; [injection K as -> ->; lia|lia|lia]. }
  auto.
Qed.
(** no more blocks are obtained than there are *)
Lemma outer_count : forall k m v mm B, new_memory_map E M k m v = Ret (Some mm) -> local E m -> coherent E M m v -> blocks_ok B -> held E M m v B ->
  (length (filter (fun h => (off_of (mm_off mm) (h_id h) =? 0)%Z) (ord (hash_of mm))) <= length B)%nat.
Proof.
  intros k m v mm B H cl cc OK Hd. pose proof (map_built _ _ _ _ _ _ H) as [Bu V Ni NA NI From All Off]. specialize (All Dag). rewrite Dag in Off.
  destruct (off_start k m v mm B H cl cc OK Hd) as [OFF [BL PH]].
  set (l := filter _ _).
  assert (ND : NoDup (map h_addr l)) by (apply nodup_map_filter; eapply Permutation_NoDup; [apply Permutation_map, Permutation_sym, PO|exact NA]).
  assert (IN : incl (map h_addr l) (map fst B)).
  { intros a I. apply in_map_iff in I. destruct I as [h [<- I]]. apply filter_In in I. destruct I as [I Q]. apply (Permutation_in _ (PO _)) in I. rewrite (OFF _ I) in Q.
    destruct (BL _ I) as [b [sb [Ib [Sb _]]]]. apply in_map_iff. exists (b, sb). split; [cbn; lia|exact Ib]. }
  pose proof (NoDup_incl_length ND IN) as Q. rewrite !map_length in Q. exact Q.
Qed.

Lemma copy_makes : forall k src dst s z B,
  new_memory_map E M k (c_mem s) src <> OutOfFuel -> visible E M (c_mem s) src -> writable E M (c_mem s) src ->
  (forall y c, has_info d src (IBase y c) -> ~ is_const d dst) ->
  (forall f f', final_type d (Some (v_entry src)) (Some f) -> final_type d (Some (v_entry dst)) (Some f') -> sd (Some f) (Some f') = Ret true) ->
  copyable E M (c_mem s) src -> extent E M (c_mem s) [] src z -> same_type d src dst ->
  blocks_ok B -> held E M (c_mem s) src B -> parts_differ E M (c_mem s) src -> inner_once E M (c_mem s) src B ->
  (forall b w, In (b, w) B -> apart (v_addr src) z b w) ->
  0 < v_addr dst -> v_addr dst + z < 2 ^ 64 -> (forall b w, In (b, w) ((v_addr src, z) :: B) -> apart (v_addr dst) z b w) ->
  allocates cal (c_calls s) (length B) (fun y => exists w, pointee E M (c_mem s) src w y) ((v_addr src, z) :: (v_addr dst, z) :: B) ->
  (mo_uptr M = UPTR_fail \/ mo_uptr M = UPTR_as_one_byte_ptr -> forall x, v_addr dst <= x < v_addr dst + z -> c_mem s x = 0) ->
  exists s' evs R, copy_ex E M ord cal sd k src dst s = Ret (true, s') /\ calls s s' evs /\ fresh_blocks (allocs evs) ((v_addr src, z) :: (v_addr dst, z) :: B) /\
    copied E M (c_mem s) (c_mem s') src z (v_addr dst) (allocs evs) R.
Proof.
  intros k src dst s z B NF Vi Wr Ncd SD CP Ext ST OK Hd PD IO Asrc D1 D2 Adst Al Zd.
  destruct (map_goes E M n0 A N k (c_mem s) src Vi) as [Q|[mm H]]; [contradiction|].
  pose proof (map_built _ _ _ _ _ _ H) as [Bu V Ni NA NI From All Off].
  destruct CP as [CP cda]. pose proof CP as CP0. destruct CP0 as [cb cl cc cba cfi cpa cvi cin cop].
  assert (TP : forall h, In h (hash_of mm) -> (exists w, pointee E M (c_mem s) src w (h_size h)) /\ 0 < h_size h).
  { intros h I. destruct (From h I) as [c [T ->]]. pose proof (target_pointee _ _ _ _ _ Bu V c T) as P. cbn [hb h_size]. split; [exists (me_val c); exact P|]. exact (proj1 (Hd _ _ P)). }
  assert (TO : forall h, In h (ord (hash_of mm)) -> In h (hash_of mm)) by (intros h I; eapply Permutation_in; [apply PO|exact I]).
  pose proof (outer_count k (c_mem s) src mm B H cl cc OK Hd) as Cnt.
  destruct (preallocate_makes cal (mm_off mm) (ord (hash_of mm)) s []) as [s1 [tab [Pr Lg]]].
  { intros h j I J. destruct (TP _ (TO _ I)) as [Ph _]. destruct (proj1 Al j _ ltac:(lia) Ph). lia. }
  set (qs := number_pairs cal (c_calls s) (filter (fun h => off_of (mm_off mm) (h_id h) =? 0) (ord (hash_of mm)))) in *.
  assert (Fr : fresh_blocks (map nb qs) ((v_addr src, z) :: (v_addr dst, z) :: B)).
  { eapply pairs_apart; [exact Al|exact Cnt|]. intros h I. apply filter_In in I. apply TP. apply TO. apply I. }
  (* the traversal *)
  assert (HC : exists s', copy_ex E M ord cal sd k src dst s = Ret (true, s') /\ c_log s' = c_log s1).
  { set (m0 := c_mem s) in *. set (top := mm_top mm) in *.
    assert (CD : forall anc x i, sees E M m0 src anc x -> has_info d x i -> callable i -> anc = []) by (intros anc x i Q1 Q2 Q3; destruct (cda _ _ _ Q1 Q2 Q3)).
    assert (Zt : z = me_size top). { eapply extent_fun; [exact cl|exact Ext|apply same_ctx_refl|]. rewrite <- V. apply built_extent. exact Bu. }
    assert (Fsrc : 0 < v_addr src /\ 0 <= z /\ v_addr src + z < 2 ^ 64).
    { pose proof (extent_nonneg _ _ _ _ _ _ Ext). destruct (cfi [] src z (se_here _ _ _ _) Ext). lia. }
    set (rt := Build_region (v_addr src) z (v_addr dst)).
    destruct (prepared E M ord cal Dag PO m0 src k mm H CP [rt] B OK Hd) with (s := s) (s1 := s1) (tab := tab) as [ps [P3 RDY]]; try assumption; try reflexivity.
    { intros r [<-|[]]. cbn. lia. }
    { intros r r' [<-|[]] [<-|[]]. left. reflexivity. }
    { intros r r' [<-|[]] [<-|[]]. left. reflexivity. }
    { intros r r' [<-|[]] [<-|[]]. cbn. specialize (Adst _ _ (or_introl eq_refl)). unfold apart in Adst. lia. }
    { intros r b w [<-|[]] I. cbn. apply Asrc. exact I. }
    { intros r b w [<-|[]] I. cbn. apply Adst. right. exact I. }
    assert (Al2 : map nb ps = map nb qs).
    { rewrite P3 in Lg. apply app_inv_tail in Lg. rewrite <- (rev_involutive (map _ ps)), Lg, rev_involutive in *. clear - Lg P3.
      apply (f_equal (@rev _)) in Lg. rewrite !rev_involutive in Lg. apply (f_equal allocs) in Lg. rewrite !allocs_pairs in Lg. exact Lg. }
    rewrite Al2 in RDY. specialize (RDY Fr). set (R := [rt] ++ map rp ps) in *.
    assert (RtR : In rt R) by (left; reflexivity).
    assert (I0 : Inv E M m0 top R (fun _ _ _ => False) (c_mem s1)).
    { destruct RDY as [RF RS RD RX RR RC CB CZ RK RB RU]. constructor.
      - exact RB.
      - intros x Nx. apply RK. intros a w I X. rewrite <- Al2 in I. apply in_map_iff in I. destruct I as [p [Q I]]. injection Q as <- <-. apply Nx. exists (rp p). split; [right; apply in_map; exact I|exact X].
      - intros NL a It Na r Ir Ar. cbn [image]. rewrite Na. cbn [Z.eqb]. apply number_zero. intros x X. unfold in_region, moved in *.
        assert (XR : r_dst r <= x < r_dst r + r_size r) by lia. destruct (RC r Ir) as [[<-|[]]|[_ [_ J]]]; [|apply J; exact XR].
        rewrite RK; [apply Zd; [exact NL|exact XR]|]. intros b w I Y. destruct Fr as [_ [_ F3]]. specialize (F3 _ _ (v_addr dst) z I (or_intror (or_introl eq_refl))). cbn in XR. lia.
      - intros a z0 b [] . }
    assert (Rt : in_region rt (v_addr (me_val top)) (me_size top)) by (unfold in_region; cbn; rewrite V; lia).
    destruct RDY as [RF RS RD RX RR RC CB CZ RK RB RU]. fold top in CB, CZ.
    assert (NCr : forall anc x i, reaches E M m0 src anc x -> has_info d x i -> ~ callable i) by (intros anc x i Q1 Q2 Q3; exact (cda _ _ _ (reaches_sees _ _ _ _ _ _ Q1) Q2 Q3)).
    assert (CN : forall e c t st st', in_tree e top -> In c (me_ch e) -> has_info d (me_val e) (IPointer t) -> child_block M cal (mm_off mm) tab c st <> (0, st')).
    { intros e c t st st' Q1 Q2 Q3 Q4. destruct (CZ _ _ _ _ _ Q1 Q2 Q3 Q4) as [Z1 Z2].
      destruct (once_kept _ _ _ _ _ H PD IO NCr _ _ _ Q1 Q2 Q3) as [[w Q]|Q]; [exact (Z1 _ Q)|exact (Z2 Q)]. }
    destruct (tree_makes E M n0 A N cal m0 src top Bu V CP UI R RF RS RD RX (mm_off mm) tab CB CN Dag CD Wr top (fun _ _ _ => False) s1 dst rt [] []) as [s2 T2].
    { intros i Hi Ki. rewrite V in Hi. exact (cda _ _ _ (se_here _ _ _ _) Hi Ki). }
    { exact I0. }
    { apply it_here. }
    { rewrite V. apply re_here. }
    { exact Bu. }
    { exact RtR. }
    { exact Rt. }
    { unfold moved. cbn. rewrite V. lia. }
    { rewrite V. split; [exact ST|exact Ncd]. }
    { constructor. }
    { constructor. }
    exists s2. split; [|exact (copy_tree_log E M cal Dag _ _ _ _ _ _ _ _ T2)].
    destruct (built_info _ _ _ _ _ Bu) as [i [Fi _]]. apply final_info_some in Fi. rewrite V in Fi. destruct Fi as [f [Ff _]].
    pose proof (proj1 (proj1 ST _) Ff) as Fd.
    unfold copy_ex. rewrite N. rewrite (final_if_type d n0 _ f) by assumption. cbn [bind]. rewrite (final_if_type d n0 _ f) by assumption. cbn [bind].
    rewrite (SD _ _ Ff Fd). cbn [bind negb]. fold m0. rewrite H. cbn [bind]. rewrite Dag, Pr. cbn [negb]. fold top. rewrite T2. reflexivity. }
  destruct HC as [s' [HC Lg']].
  set (evs := map (fun p => EvCalloc (snd p) (h_size (fst p))) qs) in *.
  assert (Cl : calls s s' evs) by (unfold calls; rewrite Lg'; exact Lg).
  assert (Ae : allocs evs = map nb qs) by apply allocs_pairs.
  rewrite <- Ae in Fr.
  destruct (copy_sound E M ord cal sd Dag UI PO k src dst s s' evs z B HC Cl (Build_copyable _ _ _ _ CP cda) Ext ST OK Hd Asrc D1 D2 Adst Fr Zd) as [R CO].
  exists s', evs, R. auto.
Qed.
End Whole.
