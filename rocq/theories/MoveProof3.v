(** The memory map of moved data is the moved memory map. *)
From Coq Require Import ZArith String List Bool Lia ZifyBool.
From Verif Require Import Base BaseProof EntryModel EntrySpec EntryProof ValueModel ValueSpec ValueProof ValueProof2 DeepModel DeepSpec DeepProof DeepProof2 DeepProof3 DeepProof4 DeepProof5 DeepProof8 CopySpec CopyProof MoveSpec MoveProof MoveProof2.
Import ListNotations.
Open Scope Z_scope.

Lemma built_noload : forall E M m anc e, built_ok E M m anc e -> noload E (me_val e).
Proof. intros E M m anc e B. inversion B; subst; eapply look_noload; eassumption. Qed.

Section Move.
Variable E : env.
Variable M : mode.
Variable n0 : nat.
Notation n := (en_fuel E).
Notation d := (en_db E).
Hypothesis A : acyclic d n0.
Hypothesis N : n = (n0 + 3)%nat.
Variable m : mem.
Variable v : value.
Variable m' : mem.
Variable v' : value.
Variable R : list region.
Hypothesis RL : relocated E M m v m' v' R.
Hypothesis MV : movable E M m v.
Hypothesis NV : mo_uptr M <> UPTR_as_values.
Notation addr e := (v_addr (me_val e)).
Notation link := (link E M m v R).

Definition mplace (x x' : value) (s : Z) : Prop := same_type d x x' /\ exists r, In r R /\ in_region r (v_addr x) s /\ v_addr x' = moved r (v_addr x).
Inductive mirror : ment -> ment -> Prop :=
| mi i x x' s l ch ch' : mplace x x' s -> Forall2 mirror ch ch' -> mirror (ME i x s l ch) (ME i x' s l ch').
Definition hmirror (h h' : hent) : Prop := h_id h' = h_id h /\ h_size h' = h_size h /\ 0 < h_size h /\
  exists r, In r R /\ in_region r (h_addr h) (h_size h) /\ h_addr h' = moved r (h_addr h).
Record smirror (s s' : bst) : Prop := { sm_next : b_next s' = b_next s; sm_dead : b_dead s = [] /\ b_dead s' = []; sm_hash : Forall2 hmirror (b_hash s) (b_hash s') }.

Lemma mirror_size : forall e e', mirror e e' -> me_size e' = me_size e /\ me_id e' = me_id e /\ me_loop e' = me_loop e /\ Forall2 mirror (me_ch e) (me_ch e').
Proof. intros e e' H. inversion H; subst; auto. Qed.
Lemma fits_node : forall anc e, sees E M m v anc (me_val e) -> built_ok E M m anc e -> 0 < addr e /\ 0 <= me_size e /\ addr e + me_size e < 2 ^ 64.
Proof.
  intros anc e S Be. pose proof (built_extent _ _ _ _ _ Be) as X. destruct (mv_fits _ _ _ _ MV _ _ _ S X). pose proof (extent_nonneg _ _ _ _ _ _ X). lia.
Qed.
Lemma part_inside : forall anc x sz sz' ch c, sees E M m v anc x -> looks E M m anc x (VNode sz (map me_val ch)) -> 0 < v_addr x ->
  Forall (built_ok E M m (x :: anc)) ch -> grow x sz ch = Ret sz' -> In c ch -> v_addr x <= addr c /\ addr c + me_size c <= v_addr x + sz'.
Proof.
  intros anc x sz sz' ch c S L A0 F G Ic. rewrite Forall_forall in F. pose proof (F c Ic) as Bc.
  assert (Sc : sees E M m v (x :: anc) (me_val c)) by (eapply se_node; [exact S|exact L|apply in_map; exact Ic]).
  pose proof (mv_parts _ _ _ _ MV _ _ _ _ _ S L (in_map me_val _ _ Ic)) as P. destruct (fits_node _ _ Sc Bc) as [F1 [F2 F3]].
  apply grow_ends in G.
  assert (J : In ((addr c - v_addr x + me_size c) mod 2 ^ 64) (ends x (map me_val ch) (map me_size ch))).
  { clear - Ic. induction ch as [|y l IH]; [destruct Ic|]. destruct Ic as [->|Ic]; [left; reflexivity|right; apply IH; exact Ic]. }
  apply (fold_max_in _ sz) in J. rewrite <- G in J. rewrite Z.mod_small in J by lia. lia.
Qed.
Lemma grow_move : forall x x' ch ch' sz, Forall2 mirror ch ch' -> Forall2 (fun c c' => addr c' = addr c - v_addr x + v_addr x') ch ch' ->
  grow x' sz ch' = grow x sz ch.
Proof.
  intros x x' ch ch' sz F G. revert sz. induction F as [|c c' ch ch' H F IH]; intro sz; [reflexivity|]. inversion G as [|? ? ? ? G1 G2]; subst.
  destruct (mirror_size _ _ H) as [Q _]. cbn [grow]. rewrite Q, G1. replace (addr c - v_addr x + v_addr x' <? v_addr x') with (addr c <? v_addr x) by lia.
  replace (addr c - v_addr x + v_addr x' - v_addr x') with (addr c - v_addr x) by lia. destruct (addr c <? v_addr x); [reflexivity|]. apply IH. exact G2.
Qed.
Lemma place_eq : forall r a z a' r2 z2 b', In r R -> in_region r a z -> 0 < z -> a' = moved r a -> In r2 R -> in_region r2 a z2 -> 0 < z2 -> b' = moved r2 a -> b' = a'.
Proof.
  intros r a z a' r2 z2 b' I1 I2 Z1 -> I3 I4 Z2 ->. f_equal. unfold in_region in *. eapply region_eq; [exact (rl_src _ _ _ _ _ _ _ RL)| | |instantiate (1 := a)|]; auto; lia.
Qed.
Lemma hfind_move : forall l l' a a' r z, Forall2 hmirror l l' -> In r R -> in_region r a z -> 0 < z -> a' = moved r a ->
  match hfind l a, hfind l' a' with None, None => True | Some h, Some h' => hmirror h h' | _, _ => False end.
Proof.
  intros l l' a a' r z F I1 I2 Z1 Q. induction F as [|h h' l l' H F IH]; cbn; [exact I|].
  pose proof H as [_ [_ [Z2 [r2 [I3 [I4 Q2]]]]]].
  destruct (h_addr h =? a) eqn:X.
  - assert (h_addr h = a) by lia. assert (h_addr h' = a') as ->. { eapply (place_eq r a z a' r2 (h_size h)); try eassumption; subst; assumption. } rewrite Z.eqb_refl. exact H.
  - destruct (h_addr h' =? a') eqn:Y; [|exact IH]. exfalso. assert (h_addr h' = a') by lia. unfold in_region in *.
    destruct (moved_inj R (rl_dst _ _ _ _ _ _ _ RL) r2 r (h_addr h) a I3 I1) as [_ K]; try lia; congruence.
Qed.
Lemma hput_move : forall l l' x x', Forall2 hmirror l l' -> hmirror x x' -> Forall2 hmirror (hput l x) (hput l' x').
Proof.
  intros l l' x x' F X. induction F as [|h h' l l' H F IH]; cbn; [constructor; [exact X|constructor]|].
  pose proof H as [_ [_ [Z2 [r2 [I3 [I4 Q2]]]]]]. pose proof X as [_ [_ [Z3 [r3 [J3 [J4 Q3]]]]]].
  destruct (h_addr h =? h_addr x) eqn:K.
  - assert (h_addr h = h_addr x) by lia. assert (h_addr h' = h_addr x') as ->. { eapply (place_eq r3 (h_addr x) (h_size x) _ r2 (h_size h)); try eassumption; congruence. }
    rewrite Z.eqb_refl. constructor; assumption.
  - destruct (h_addr h' =? h_addr x') eqn:Y; [|constructor; assumption]. exfalso. unfold in_region in *.
    destruct (moved_inj R (rl_dst _ _ _ _ _ _ _ RL) r2 r3 (h_addr h) (h_addr x) I3 J3) as [_ K2]; try lia.
Qed.
Lemma register_move : forall s s' c c' s1 r, smirror s s' -> mirror c c' -> register M s c = Ret s1 -> 0 < me_size c -> In r R -> in_region r (addr c) (me_size c) -> addr c' = moved r (addr c) ->
  exists s1', register M s' c' = Ret s1' /\ smirror s1 s1'.
Proof.
  intros s s' c c' s1 r [S1 [S2 S2'] S3] MI H Z1 Ir Rr Q. unfold register in *. destruct (mirror_size _ _ MI) as [Q1 [Q2 _]].
  destruct (mo_tree M); [exists s'; split; [reflexivity|]; injection H as <-; constructor; auto|]. cbn [h_addr h_id h_size] in *.
  assert (X : hmirror (Build_hent (addr c) (me_id c) (me_size c)) (Build_hent (addr c') (me_id c') (me_size c'))).
  { split; [exact Q2|]. split; [exact Q1|]. split; [exact Z1|]. exists r. auto. }
  pose proof (hfind_move _ _ _ _ r (me_size c) S3 Ir Rr Z1 Q) as K.
  destruct (hfind (b_hash s) (addr c)) as [h|]; destruct (hfind (b_hash s') (addr c')) as [h'|]; try contradiction.
  - rewrite S2 in H. rewrite S2'. cbn [existsb] in *. destruct K as [K1 [K2 _]]. rewrite K2, Q1. destruct (h_size h <? me_size c); injection H as <-; eexists; (split; [reflexivity|]).
    + constructor; cbn; auto. apply hput_move; [exact S3|]. destruct X as [X1 [X2 X]]. split; [exact X1|]. split; [reflexivity|exact X].
    + constructor; auto.
  - injection H as <-. eexists. split; [reflexivity|]. constructor; cbn; auto. apply hput_move; assumption.
Qed.
Lemma fresh_move : forall s s', smirror s s' -> fst (fresh s') = fst (fresh s) /\ smirror (snd (fresh s)) (snd (fresh s')).
Proof. intros s s' [S1 S2 S3]. cbn. split; [exact S1|]. constructor; cbn; auto. Qed.

Lemma build_dead : forall k anc x s e s1, bst_ok s -> build E M k m anc x s = Ret (Some e, s1) -> b_dead s1 = b_dead s.
Proof. intros k anc x s e s1 O H. destruct (build_ok_gen E M k m anc x s e s1 O H) as [_ [_ [_ [G _]]]]. apply (gr_dead _ _ _ _ _ G). Qed.
Lemma build_move : forall k anc x s e s1 anc' x' s' r, bst_ok s -> build E M k m anc x s = Ret (Some e, s1) -> sees E M m v anc x -> Forall2 link anc anc' ->
  same_type d x x' -> noload E x' -> In r R -> in_region r (v_addr x) (me_size e) -> v_addr x' = moved r (v_addr x) -> smirror s s' ->
  exists e' s1', build E M k m' anc' x' s' = Ret (Some e', s1') /\ me_val e' = x' /\ mirror e e' /\ smirror s1 s1'.
Proof.
  induction k as [|k IH]; intros anc x s e s1 anc' x' s' r O H S F T NL Ir Rr Q SM; [discriminate|].
  destruct (build_ok_gen E M _ m anc x s e s1 O H) as [Be [Ve _]].
  pose proof (built_extent _ _ _ _ _ Be) as X. rewrite Ve in X. destruct (mv_fits _ _ _ _ MV _ _ _ S X) as [A0 A1]. pose proof (extent_nonneg _ _ _ _ _ _ X) as A2.
  assert (Lx : link x x').
  { split; [exact T|]. exists anc, r. split; [exact S|]. split; [exact Ir|]. split; [|split; [unfold in_region in Rr; lia|exact Q]].
    intros t p P. inversion X as [anc0 v0 sz i I K Sz|anc0 v0 sz ch zs Nd|anc0 v0 ic Ic Kc]; subst.
    - pose proof (info_size E _ _ _ (points_info _ _ _ _ _ P) Sz) as K8. cbn in K8. rewrite <- K8. exact Rr.
    - exfalso. destruct (node_info _ _ _ _ _ _ _ Nd) as [i [I K]]. pose proof (has_info_fun _ _ _ _ I (points_info _ _ _ _ _ P)) as ->. contradiction.
    - exfalso. pose proof (has_info_fun _ _ _ _ Ic (points_info _ _ _ _ _ P)) as ->. contradiction. }
  assert (F2 : Forall2 link (x :: anc) (x' :: anc')) by (constructor; assumption).
  assert (NZ : v_addr x' <> 0). { rewrite Q. pose proof (rl_fits _ _ _ _ _ _ _ RL r Ir). unfold moved, in_region in *. lia. }
  rewrite build_eq in H. apply bind_ret in H. destruct H as [w [W H]].
  assert (WL : w <> VFail) by (intros ->; discriminate). pose proof (look_sound _ _ _ _ _ _ W WL) as L.
  assert (NP : forall sz ch, w = VNode sz ch -> exists i l sz' s2, e = ME i x sz' 0 l /\ build_list E M k m (x :: anc) ch s = Ret (map Some l, s2) /\ grow x sz l = Ret sz' /\
     Forall (built_ok E M m (x :: anc)) l /\ ch = map me_val l /\ i = fst (fresh s2) /\ s1 = snd (fresh s2)).
  { intros sz ch ->. apply bind_ret in H. destruct H as [[rs s2] [B H]]. destruct (all_some rs) as [l|] eqn:AS; [|discriminate]. apply bind_ret in H. destruct H as [sz' [G H]].
    apply all_some_map in AS. subst rs. cbn [fresh] in H. injection H as <- <-. exists (b_next s2), l, sz', s2. split; [reflexivity|]. split; [exact B|]. split; [exact G|].
    inversion Be as [? ? ? ? L0|? ? ? ? ? L0|? ? ? ? ? ? L0 F0 G0|? ? ? ? ? L0|? ? ? ? L0]; subst; rewrite W in L0; try discriminate L0. injection L0 as _ Q0. auto. }
  assert (RG : forall sz ch, w = VNode sz ch -> forall y, In y ch -> r_src r <= v_addr y <= r_src r + r_size r).
  { intros sz ch QW y Y. destruct (NP _ _ QW) as [i [l [sz' [s2 [-> [B [G [F0 [-> [_ _]]]]]]]]]]. subst w. cbn [me_size] in Rr.
    apply in_map_iff in Y. destruct Y as [c [<- Ic]]. destruct (part_inside _ _ _ _ _ c S L A0 F0 G Ic). pose proof F0 as F1. rewrite Forall_forall in F1. specialize (F1 c Ic).
    assert (0 <= me_size c) by (eapply extent_nonneg; eapply built_extent; exact F1). unfold in_region in Rr. lia. }
  destruct (looks_move E M m v m' v' R RL MV NV anc x anc' x' w r S F2 L Ir Q RG) as [w' [L' VM]].
  pose proof (look_complete E M n0 A N m' anc' x' w' NZ NL L') as W'. rewrite build_eq, W'. cbn [bind].
  assert (MP : mplace x x' (me_size e)) by (split; [exact T|exists r; auto]).
  destruct (fresh_move _ _ SM) as [FR1 FR2].
  destruct w as [|sz|sz lv|sz ch|sz t|ca]; cbn [view_moved] in VM; [contradiction| | | | |contradiction].
  - subst w'. unfold fresh in *. cbn [fst snd] in *. injection H as <- <-. eexists. eexists. split; [reflexivity|]. split; [reflexivity|]. split; [|exact FR2]. rewrite FR1. constructor; [exact MP|constructor].
  - subst w'. unfold fresh in *. cbn [fst snd] in *. injection H as <- <-. eexists. eexists. split; [reflexivity|]. split; [reflexivity|]. split; [|exact FR2]. rewrite FR1. constructor; [exact MP|constructor].
  - subst w'. destruct (NP _ _ eq_refl) as [i [l [sz' [s2 [-> [B [G [F0 [-> [-> ->]]]]]]]]]]. clear NP RG H. cbn [me_size] in *.
    assert (BL : forall post s s' s2, bst_ok s -> smirror s s' -> incl post l -> build_list E M k m (x :: anc) (map me_val post) s = Ret (map Some post, s2) ->
      exists post' s2', build_list E M k m' (x' :: anc') (map (fun y => rebase y (v_addr x) (v_addr x')) (map me_val post)) s' = Ret (map Some post', s2') /\
        Forall2 mirror post post' /\ Forall2 (fun c c' => addr c' = addr c - v_addr x + v_addr x') post post' /\ smirror s2 s2').
    { clear s s' s2 O SM FR1 FR2 B Be Ve X MP. induction post as [|c post IHp]; intros s s' s2 O SM IN B; cbn in B |- *.
      - injection B as <-. exists [], s'. repeat split; try constructor; apply SM.
      - apply bind_ret in B. destruct B as [[y sA] [B1 B]]. apply bind_ret in B. destruct B as [[ys sB] [B2 B]]. injection B as -> -> ->.
        assert (Ic : In c l) by (apply IN; left; reflexivity).
        destruct (build_ok_gen E M _ m _ _ _ _ _ O B1) as [Bc [_ [Oc _]]].
        assert (Sc : sees E M m v (x :: anc) (me_val c)) by (eapply se_node; [exact S|exact L|apply in_map; exact Ic]).
        destruct (part_inside _ _ _ _ _ c S L A0 F0 G Ic) as [P1 P2]. unfold in_region in Rr.
        edestruct (IH (x :: anc) (me_val c) s c sA (x' :: anc') (rebase (me_val c) (v_addr x) (v_addr x')) s' r) as [e' [s1' [D1 [D2 [D3 D4]]]]]; try eassumption.
        + apply type_rebase.
        + exact (built_noload _ _ _ _ _ Bc).
        + unfold in_region. lia.
        + cbn [rebase v_addr]. rewrite Q. unfold moved. lia.
        + destruct (IHp sA s1' s2 Oc D4 (fun z Iz => IN z (or_intror Iz)) B2) as [post' [s2' [E1 [E2 [E3 E4]]]]].
          exists (e' :: post'), s2'. rewrite D1. cbn [bind]. rewrite E1. cbn [bind]. split; [reflexivity|]. split; [constructor; assumption|]. split; [|exact E4].
          constructor; [|exact E3]. rewrite D2. reflexivity. }
    destruct (BL l s s' s2 O SM (fun z Iz => Iz) B) as [l' [s2' [B1 [B2 [B3 B4]]]]]. cbn [view_moved]. rewrite B1. cbn [bind].
    assert (AS : all_some (map Some l') = Some l') by (clear; induction l' as [|a l' IHl]; [reflexivity|cbn; rewrite IHl; reflexivity]). rewrite AS.
    rewrite (grow_move x x' l l' sz B2 B3), G. cbn [bind]. destruct (fresh_move _ _ B4) as [FR3 FR4]. unfold fresh in *. cbn [fst snd] in *.
    eexists. eexists. split; [reflexivity|]. split; [reflexivity|]. split; [|exact FR4]. rewrite FR3. constructor; assumption.
  - destruct VM as [p [q [[ty P] [NZp [Iq [Rq ->]]]]]]. apply bind_ret in H. destruct H as [[y sA] [B1 H]]. destruct y as [c|]; [|discriminate]. cbn [fresh] in H. apply bind_ret in H. destruct H as [s2 [B2 H]]. injection H as <- <-.
    inversion L as [| | | |sz' p' w' TG NLp S'| | | | |]; subst. destruct (target_points _ _ _ _ _ _ _ TG) as [_ [t' P']]. destruct (points_fun _ _ _ _ _ _ _ P P') as [_ <-]. clear t' P'.
    destruct (build_ok_gen E M _ m _ _ _ _ _ O B1) as [Bc [Vc [Oc [Gc _]]]].
    assert (Sc : sees E M m v (x :: anc) t) by (eapply se_ptr; [exact S|exact TG]).
    pose proof (built_extent _ _ _ _ _ Bc) as Xc. rewrite Vc in Xc. pose proof (mv_inside _ _ _ _ MV _ _ _ _ _ S TG Xc) as PI.
    destruct (rl_all _ _ _ _ _ _ _ RL _ _ _ Sc Xc) as [q2 [Iq2 Rq2]].
    assert (q2 = q). { unfold in_region in Rq2. eapply region_eq; [exact (rl_src _ _ _ _ _ _ _ RL)|exact Iq2|exact Iq|instantiate (1 := p); lia|exact Rq]. } subst q2.
    assert (Qt : v_addr (rebase t p (moved q p)) = moved q (v_addr t)) by (cbn [rebase v_addr]; unfold moved; lia).
    edestruct (IH (x :: anc) t s c sA (x' :: anc') (rebase t p (moved q p)) s' q) as [e' [s1' [D1 [D2 [D3 D4]]]]]; try eassumption.
    + apply type_rebase.
    + rewrite <- Vc. exact (built_noload _ _ _ _ _ Bc).
    + rewrite D1. cbn [bind]. destruct (fresh_move _ _ D4) as [FR3 FR4]. unfold fresh in *. cbn [fst snd] in *.
      destruct (register_move _ _ c e' s2 q FR4 D3 B2) as [s2' [G1 G2]]; [lia|exact Iq|rewrite Vc; exact Rq2|rewrite D2, Vc; exact Qt|].
      rewrite G1. cbn [bind]. eexists. eexists. split; [reflexivity|]. split; [reflexivity|]. split; [|exact G2]. rewrite FR3. constructor; [exact MP|]. constructor; [exact D3|constructor].
Qed.
End Move.

(** * Offsets *)
Lemma sweep_ids : forall l a z p, In p (sweep l a z) -> In (fst p) (map h_id l).
Proof.
  induction l as [|h l IH]; intros a z p I; [destruct I|]. cbn [sweep] in I. cbn [map].
  destruct (h_size h <=? 0); [right; eapply IH; exact I|]. destruct (a =? 0); [right; eapply IH; exact I|].
  destruct (uwrap 64 (a + z) <=? h_addr h); [right; eapply IH; exact I|]. destruct I as [<-|I]; [left; reflexivity|right; eapply IH; exact I].
Qed.
Lemma insert_ids : forall x l i, In i (map h_id (insert x l)) -> i = h_id x \/ In i (map h_id l).
Proof.
  intros x l i. induction l as [|h l IH]; cbn [insert]; intro I; [destruct I as [<-|[]]; left; reflexivity|].
  destruct (h_addr x <=? h_addr h); [destruct I as [<-|I]; auto|]. destruct I as [<-|I]; [right; left; reflexivity|]. destruct (IH I); [left|right; right]; assumption.
Qed.
Lemma sort_ids : forall l i, In i (map h_id (sort l)) -> In i (map h_id l).
Proof. induction l as [|h l IH]; intros i I; [exact I|]. cbn [sort] in I. apply insert_ids in I. destruct I as [->|I]; [left; reflexivity|right; apply IH; exact I]. Qed.
Lemma off_other : forall l i, ~ In i (map h_id l) -> off_of (identify l) i = 0.
Proof.
  intros l i H. unfold off_of. destruct (find _ (identify l)) as [p|] eqn:F; [|reflexivity]. apply find_some in F. destruct F as [F1 F2].
  exfalso. apply H. apply sweep_ids in F1. apply sort_ids in F1. apply Nat.eqb_eq in F2. congruence.
Qed.
Lemma forall2_in_r : forall {A B} (P : A -> B -> Prop) l l' y, Forall2 P l l' -> In y l' -> exists x, In x l /\ P x y.
Proof. intros A B P l l' y F. induction F as [|a b l l' H F IH]; intros I; [destruct I|]. destruct I as [<-|I]; [exists a; split; [left; reflexivity|exact H]|]. destruct (IH I) as [x [X1 X2]]. exists x. split; [right|]; assumption. Qed.
Lemma forall2_in_l : forall {A B} (P : A -> B -> Prop) l l' x, Forall2 P l l' -> In x l -> exists y, In y l' /\ P x y.
Proof. intros A B P l l' y F. induction F as [|a b l l' H F IH]; intros I; [destruct I|]. destruct I as [<-|I]; [exists b; split; [left; reflexivity|exact H]|]. destruct (IH I) as [x [X1 X2]]. exists x. split; [right|]; assumption. Qed.
Lemma nodup_map_eq : forall {A B} (f : A -> B) l x y, NoDup (map f l) -> In x l -> In y l -> f x = f y -> x = y.
Proof.
  intros A B f l x y. induction l as [|a l IH]; intros N I J Q; [destruct I|]. inversion N as [|? ? N1 N2]; subst. destruct I as [->|I], J as [->|J]; [reflexivity| | |apply IH; assumption].
  - exfalso. apply N1. rewrite Q. apply in_map. exact J.
  - exfalso. apply N1. rewrite <- Q. apply in_map. exact I.
Qed.

Section Offsets.
Variable R : list region.
Hypothesis RF : forall r, In r R -> 0 < r_dst r /\ 0 <= r_size r /\ r_dst r + r_size r < 2 ^ 64.
Hypothesis RS : forall r r', In r R -> In r' R -> r = r' \/ r_src r + r_size r <= r_src r' \/ r_src r' + r_size r' <= r_src r.
Hypothesis RD : forall r r', In r R -> In r' R -> r = r' \/ r_dst r + r_size r <= r_dst r' \/ r_dst r' + r_size r' <= r_dst r.
Lemma offsets_move : forall bs l l',
  (forall h, In h l -> 0 < h_addr h /\ 0 < h_size h /\ h_addr h + h_size h < 2 ^ 64 /\ bs h <= h_addr h) ->
  (forall h, In h l -> exists o, In o l /\ h_addr o = bs h /\ bs o = bs h /\ h_addr h + h_size h <= h_addr o + h_size o) ->
  (forall h o, In h l -> In o l -> h_addr o = bs o -> bs o < bs h -> h_addr o + h_size o <= bs h) ->
  NoDup (map h_addr l) -> NoDup (map h_id l) -> NoDup (map h_addr l') -> NoDup (map h_id l') -> Forall2 (hmirror R) l l' ->
  forall i, off_of (identify l') i = off_of (identify l) i.
Proof.
  intros bs l l' C1 C2 C3 NA NI NA' NI' F i.
  pose proof (identify_offsets bs l C1 C2 C3 NA NI) as OF.
  assert (IDS : map h_id l' = map h_id l). { clear - F. induction F as [|h h' l l' [H _] F IH]; cbn; congruence. }
  destruct (in_dec Nat.eq_dec i (map h_id l)) as [I|I].
  2: { rewrite !off_other; [reflexivity|exact I|rewrite IDS; exact I]. }
  rewrite <- IDS in I. apply in_map_iff in I. destruct I as [h' [<- I']].
  set (bs' := fun h' : hent => h_addr h' - off_of (identify l) (h_id h')).
  assert (P : forall h', In h' l' -> exists h r o o', In h l /\ hmirror R h h' /\ In r R /\ in_region r (h_addr h) (h_size h) /\ h_addr h' = moved r (h_addr h) /\ bs' h' = moved r (bs h) /\
     h_size h' = h_size h /\ In o l /\ h_addr o = bs h /\ bs o = bs h /\ h_addr h + h_size h <= h_addr o + h_size o /\ In o' l' /\ hmirror R o o' /\ h_addr o' = bs' h' /\ in_region r (h_addr o) (h_size o) /\ h_size o' = h_size o).
  { intros x' X'. destruct (forall2_in_r _ _ _ _ F X') as [h [Ih Hm]]. pose proof Hm as [Hi [Hs [Hz [r [Ir [Rr Q]]]]]].
    destruct (C2 h Ih) as [o [Io [O1 [O2 O3]]]]. destruct (forall2_in_l _ _ _ _ F Io) as [o' [Io' Om]]. pose proof Om as [_ [Os [Oz [r2 [Ir2 [Rr2 Q2]]]]]].
    destruct (C1 h Ih) as [K1 [K2 [K3 K4]]].
    assert (r2 = r). { unfold in_region in *. eapply (region_eq R RS r2 r (h_addr h)); try assumption; lia. } subst r2.
    assert (BQ : bs' x' = moved r (bs h)). { unfold bs'. rewrite Hi, (OF h Ih), Q. unfold moved. lia. }
    exists h, r, o, o'. repeat (split; [assumption|]). split; [rewrite BQ, Q2, O1; reflexivity|]. split; assumption. }
  destruct (P h' I') as [h [r [o [o' [Ih [Hm [Ir [Rr [Q [BQ _]]]]]]]]]]. destruct Hm as [Hi _]. rewrite Hi at 2. rewrite (OF h Ih).
  rewrite (identify_offsets bs' l'); try assumption.
  - rewrite BQ, Q. unfold moved. lia.
  - intros x X. destruct (P x X) as [y [ry [oy [oy' [Iy [Hy [Iry [Rry [Qy [By [Sy [Ioy [O1 [O2 [O3 [Io' [Oy [Q' [Roy So]]]]]]]]]]]]]]]]]]]. destruct (C1 y Iy) as [K1 [K2 [K3 K4]]].
    specialize (RF ry Iry). unfold in_region, moved in *. rewrite Sy, Qy, By. lia.
  - intros x X. destruct (P x X) as [y [ry [oy [oy' [Iy [Hy [Iry [Rry [Qy [By [Sy [Ioy [O1 [O2 [O3 [Io' [Oy [Q' [Roy So]]]]]]]]]]]]]]]]]]]. exists oy'. split; [exact Io'|]. split; [exact Q'|].
    split.
    + unfold bs' at 1. destruct Oy as [Oi _]. rewrite Oi, (OF oy Ioy). lia.
    + rewrite Sy, So, Qy, Q', By. unfold moved. lia.
  - intros x z X Z Q0 Lt.
    destruct (P x X) as [y [ry [oy [oy' [Iy [Hy [Iry [Rry [Qy [By [Sy [Ioy [O1 [O2 [O3 [Io' [Oy [Q' [Roy So]]]]]]]]]]]]]]]]]]].
    destruct (P z Z) as [y2 [r2 [oy2 [oy2' [Iy2 [Hy2 [Iry2 [Rry2 [Qy2 [By2 [Sy2 _]]]]]]]]]]].
    assert (Z0 : h_addr y2 = bs y2) by (rewrite Qy2, By2 in Q0; unfold moved in Q0; lia).
    destruct (C1 y2 Iy2) as [_ [K2 _]]. destruct (C1 oy Ioy) as [_ [K2' _]].
    destruct (Z.lt_trichotomy (bs y2) (bs y)) as [T|[T|T]].
    + pose proof (C3 y y2 Iy Iy2 Z0 T). rewrite By, Qy2, By2, Sy2 in *. unfold moved, in_region in *. destruct (RD ry r2 Iry Iry2) as [<-|K]; lia.
    + exfalso. assert (y2 = oy) by (eapply (nodup_map_eq h_addr l); [exact NA|exact Iy2|exact Ioy|lia]). subst y2.
      assert (r2 = ry). { unfold in_region in *. eapply (region_eq R RS r2 ry (h_addr oy)); try assumption; lia. } subst r2. rewrite By, By2 in Lt. unfold moved in Lt. lia.
    + pose proof (C3 y2 oy Iy2 Ioy ltac:(lia) ltac:(lia)). rewrite By, Qy2, By2, Sy2 in *. unfold moved, in_region in *. destruct (RD ry r2 Iry Iry2) as [<-|K]; lia.
Qed.
End Offsets.
