(** Deep copies: the translation of addresses and the result. *)
From Coq Require Import ZArith String List Bool Lia Permutation.
From Coq Require Import ZifyBool.
From Verif Require Import Base BaseProof EntryModel EntrySpec EntryProof ValueModel ValueSpec ValueProof ValueProof2
  DeepModel DeepSpec DeepProof DeepProof2 DeepProof3 DeepProof4 DeepProof5 DeepProof6 DeepProof7 DeepProof8 CopySpec CopyProof CopyProof2.
Import ListNotations.
Open Scope Z_scope.

(** * Blocks are obtained for the entries at the start of blocks *)
Lemma preallocate_pairs : forall cal off l s tab s' tab', preallocate cal off l s tab = (true, s', tab') ->
  exists ps : list (hent * Z), map fst ps = filter (fun h => off_of off (h_id h) =? 0) l /\ tab' = tab ++ map (fun p => (h_addr (fst p), snd p)) ps /\
    c_log s' = rev (map (fun p => EvCalloc (snd p) (h_size (fst p))) ps) ++ c_log s /\
    (forall x, c_mem s' x = if existsb (fun p => (snd p <=? x) && (x <? snd p + h_size (fst p))) ps then 0 else c_mem s x).
Proof.
  intros cal off l. induction l as [|h l IH]; intros s tab s' tab' H; cbn [preallocate] in H.
  - injection H as <- <-. exists []. rewrite app_nil_r. repeat split; auto; intros.
  - cbn [filter]. destruct (off_of off (h_id h) =? 0); [|apply IH; exact H].
    destruct (calloc cal s (h_size h)) as [a s1] eqn:C. destruct (a =? 0) eqn:A; [discriminate|].
    apply IH in H. destruct H as [ps [P1 [P2 [P3 P4]]]]. exists ((h, a) :: ps). cbn [map fst snd].
    unfold calloc in C. injection C as C1 <-. rewrite C1, A in P3, P4. cbn [c_log c_mem] in P3, P4.
    split; [rewrite P1; reflexivity|]. split; [rewrite P2, <- app_assoc; reflexivity|]. split; [rewrite P3; cbn [rev]; rewrite <- app_assoc; reflexivity|].
    intro x. rewrite P4. cbn [existsb fst snd]. unfold zero_fill. destruct (existsb _ ps); [rewrite orb_true_r; reflexivity|]. rewrite orb_false_r. reflexivity.
Qed.
Lemma dst_of_in : forall (ps : list (hent * Z)) h a, NoDup (map (fun p => h_addr (fst p)) ps) -> In (h, a) ps ->
  dst_of (map (fun p => (h_addr (fst p), snd p)) ps) (h_addr h) = a.
Proof.
  induction ps as [|[h' a'] ps IH]; intros h a N I; [destruct I|]. unfold dst_of. cbn [map find fst snd]. cbn [map fst] in N. inversion N as [|x l N1 N2]; subst.
  destruct I as [I|I].
  - injection I as -> ->. rewrite Z.eqb_refl. reflexivity.
  - destruct (Z.eqb_spec (h_addr h') (h_addr h)) as [Q|Q]; [|apply IH; assumption].
    exfalso. apply N1. apply in_map_iff. exists (h, a). cbn. split; [congruence|exact I].
Qed.
Lemma dst_of_out : forall (ps : list (hent * Z)) x, (forall p, In p ps -> h_addr (fst p) <> x) -> dst_of (map (fun p => (h_addr (fst p), snd p)) ps) x = 0.
Proof.
  intros ps x N. unfold dst_of. destruct (find _ _) as [p|] eqn:F; [|reflexivity]. apply find_some in F. destruct F as [F Q].
  apply in_map_iff in F. destruct F as [q [<- I]]. cbn in Q. specialize (N q I). lia.
Qed.
Lemma number_zero : forall m k a, (forall x, a <= x < a + Z.of_nat k -> m x = 0) -> number_at m a k = 0.
Proof.
  intros m k. induction k as [|k IH]; intros a H; [reflexivity|]. cbn [number_at]. rewrite (H a) by lia. rewrite IH; [reflexivity|]. intros x X. apply H. lia.
Qed.

(** * Identities *)
Lemma in_flat_once : forall {A B} (f : A -> list B) l x y b, NoDup (flat_map f l) -> In x l -> In y l -> In b (f x) -> In b (f y) -> x = y.
Proof.
  intros A B f l x y b. induction l as [|a l IH]; intros N X Y Bx By; [destruct X|]. cbn in N.
  assert (D : forall z, In z l -> In b (f a) -> In b (f z) -> False).
  { intros z Z1 Z2 Z3. revert N Z2. generalize (f a) as fa. intros fa N Z2. induction fa as [|c fa IHf]; [destruct Z2|]. cbn in N. inversion N as [|? ? N1 N2]; subst.
    destruct Z2 as [->|Z2]; [apply N1; apply in_or_app; right; apply in_flat_map; exists z; split; assumption|apply IHf; assumption]. }
  assert (N2 : NoDup (flat_map f l)).
  { revert N. generalize (f a) as fa. intro fa. induction fa as [|c fa IHf]; intro N; [exact N|]. inversion N; subst. apply IHf. assumption. }
  destruct X as [<-|X], Y as [<-|Y]; [reflexivity|destruct (D y Y Bx By)|destruct (D x X By Bx)|apply IH; assumption].
Qed.
Lemma in_tree_id : forall x e, in_tree x e -> In (me_id x) (ids e).
Proof.
  intros x e T. induction T as [|e c I T IH].
  - destruct x as [i v s l ch]. left. reflexivity.
  - destruct e as [i v s l ch]. cbn [ids]. right. apply in_flat_map. exists c. split; [exact I|exact IH].
Qed.
Lemma nodup_part : forall {A B} (f : A -> list B) l x, NoDup (flat_map f l) -> In x l -> NoDup (f x).
Proof.
  intros A B f l x. induction l as [|a l IH]; intros N I; [destruct I|]. cbn in N. destruct I as [->|I].
  - revert N. generalize (f x) as fa. intro fa. induction fa as [|c fa IHf]; intro N; [constructor|]. cbn in N. inversion N as [|? ? N1 N2]; subst. constructor; [|apply IHf; exact N2].
    intro K. apply N1. apply in_or_app. left. exact K.
  - apply IH; [|exact I]. revert N. generalize (f a) as fa. intro fa. induction fa as [|c fa IHf]; intro N; [exact N|]. inversion N; subst. apply IHf. assumption.
Qed.
Lemma id_unique : forall e, NoDup (ids e) -> forall x y, in_tree x e -> in_tree y e -> me_id x = me_id y -> x = y.
Proof.
  intro e. induction e as [i v s l ch F] using ment_ind2. intros N x y X Y Q. cbn [ids] in N. inversion N as [|? ? N1 N2]; subst.
  assert (Lo : forall z c, In c ch -> in_tree z c -> me_id z = i -> False).
  { intros z c C Zc Zi. apply N1. apply in_flat_map. exists c. split; [exact C|]. rewrite <- Zi. apply in_tree_id. exact Zc. }
  inversion X as [|e1 c1 C1 T1]; subst; inversion Y as [|e2 c2 C2 T2]; subst; cbn [me_ch me_id] in *.
  - reflexivity.
  - exfalso. eapply Lo; [exact C2|exact T2|congruence].
  - exfalso. eapply Lo; [exact C1|exact T1|congruence].
  - assert (c1 = c2). { eapply (in_flat_once ids); [exact N2|exact C1|exact C2|apply in_tree_id; exact T1|]. rewrite Q. apply in_tree_id. exact T2. } subst c2.
    rewrite Forall_forall in F. apply (F c1 C1); [eapply nodup_part; eassumption|exact T1|exact T2|exact Q].
Qed.

(** * The result *)
Section Result.
Variable E : env.
Variable M : mode.
Notation d := (en_db E).
Variable m0 : mem.
Variable v : value.
Variable top : ment.
Hypothesis B0 : built_ok E M m0 [] top.
Hypothesis V0 : me_val top = v.
Hypothesis CP : orderly E M m0 v.
Hypothesis CD : forall anc x i, sees E M m0 v anc x -> has_info d x i -> callable i -> anc = [].
Variable R : list region.
Hypothesis RF : forall r, In r R -> 0 < r_src r /\ 0 <= r_size r /\ r_src r + r_size r < 2 ^ 64 /\ 0 < r_dst r /\ r_dst r + r_size r < 2 ^ 64.
Hypothesis RS : forall r r', In r R -> In r' R -> r = r' \/ r_src r + r_size r <= r_src r' \/ r_src r' + r_size r' <= r_src r.
Notation addr e := (v_addr (me_val e)).
Hypothesis CR : forall e c t, in_tree e top -> In c (me_ch e) -> has_info d (me_val e) (IPointer t) ->
  exists rc, In rc R /\ in_region rc (addr c) (me_size c).

Lemma tree_region : forall x e, in_tree x e -> forall anc, in_tree e top -> sees E M m0 v anc (me_val e) -> built_ok E M m0 anc e ->
  (forall i, has_info d (me_val e) i -> ~ callable i) -> (exists r, In r R /\ in_region r (addr e) (me_size e)) -> exists r, In r R /\ in_region r (addr x) (me_size x).
Proof.
  intros x e T. induction T as [|e c I T IH]; intros anc Te S Be NC Re; [exact Re|].
  assert (Tc : in_tree c top) by (eapply child_in; eassumption).
  destruct (reach_child E M m0 v top V0 CP _ _ _ S Be I) as [Sc Bc]. apply (IH _ Tc Sc Bc); [intros i Hi Ki; pose proof (CD _ _ _ Sc Hi Ki); discriminate|].
  destruct (built_looks _ _ _ _ _ Be) as [w [_ [Lw K]]].
  destruct w as [|sz1|sz1 lv|sz1 chs|sz1 t1|ca]; [contradiction| | | | |].
  - destruct K as [_ [_ K]]. rewrite K in I. destruct I.
  - destruct K as [_ [_ K]]. rewrite K in I. destruct I.
  - destruct Re as [r [R1 R2]]. exists r. split; [exact R1|]. exact (proj1 (part_region E M m0 v top V0 CP R _ _ _ _ _ _ S Be Lw I R1 R2)).
  - inversion Lw as [| | | |sz' p' w' T' NL' S'| | | | |]; subst. destruct (target_points _ _ _ _ _ _ _ T') as [_ [t' P']].
    eapply CR; [exact Te|exact I|eapply points_info; exact P'].
  - exfalso. destruct (call_info _ _ _ _ _ _ Lw) as [ic [Hc Kc]]. exact (NC _ Hc Kc).
Qed.
(** what is seen is in the tree *)
Lemma seen : forall anc x, sees E M m0 v anc x -> exists anc' e, in_tree e top /\ me_val e = x /\ reaches E M m0 v anc' x /\ built_ok E M m0 anc' e /\ same_ctx d m0 anc anc'.
Proof.
  intros anc x S. destruct (sees_reaches E M m0 v top B0 V0 (cp_local _ _ _ _ CP) (cp_coherent _ _ _ _ CP) _ _ S) as [anc' [Rc C]].
  destruct (reaches_tree _ _ _ _ _ B0 V0 _ _ Rc) as [e [T [Q Be]]]. exists anc', e. auto.
Qed.
Lemma scalar_local : forall anc anc' x z b, same_ctx d m0 anc anc' -> scalar E M m0 anc x z b -> scalar E M m0 anc' x z b.
Proof.
  intros anc anc' x z b C S. inversion S as [i z' I K Sz|t I|z' l sz I U L]; subst; [eapply sr_plain; eassumption|eapply sr_pointer; eassumption|].
  eapply sr_union; [exact I|exact U|]. eapply node_local; [apply (cp_local _ _ _ _ CP)|exact C|exact L].
Qed.
Lemma points_scalar : forall anc x t p, points d m0 x t p -> scalar E M m0 anc x 8 true.
Proof. intros anc x t p P. eapply sr_pointer. eapply points_info. exact P. Qed.
(** the address a pointer holds has a place *)
Lemma pointer_place : forall anc x t p, sees E M m0 v anc x -> points d m0 x t p -> p <> 0 -> exists q, In q R /\ r_src q <= p < r_src q + r_size q.
Proof.
  intros anc x t p S P NZ. destruct (seen _ _ S) as [anc' [e [T [Q [Rc [Be _]]]]]]. subst x.
  assert (PT : forall anc e p w sz, in_tree e top -> built_ok E M m0 anc e -> sees E M m0 v anc (me_val e) -> looks E M m0 anc (me_val e) (VPtr sz w) -> points d m0 (me_val e) t p \/ (exists t, points d m0 (me_val e) t p) ->
     exists q, In q R /\ r_src q <= p < r_src q + r_size q).
  { clear - B0 V0 CP RF CR. intros anc e p w sz T Be S L P. inversion L as [| | | |sz' p' w' T' NL' S'| | | | |]; subst. destruct (target_points _ _ _ _ _ _ _ T') as [_ [t' P']].
    assert (p' = p). { destruct P as [P|[t2 P]]; destruct (points_fun _ _ _ _ _ _ _ P P') as [_ <-]; reflexivity. } subst p'.
    destruct (built_target _ _ _ _ _ _ _ Be T' NL') as [_ [c [C1 [C2 C3]]]]. subst w.
    destruct (CR e c t' T) as [rc [Rc1 Rc2]]; [rewrite C1; left; reflexivity|eapply points_info; exact P'|]. exists rc. split; [exact Rc1|].
    pose proof (built_extent _ _ _ _ _ C3) as X. pose proof (cp_inside _ _ _ _ CP _ _ _ _ _ S T' X). unfold in_region in Rc2. lia. }
  destruct (built_looks _ _ _ _ _ Be) as [w [_ [Lw K]]].
  inversion Lw as [sz' i' I' K' S'|sz' t' P' S'|sz' t' p' P' N1 N2 O H U S'|sz' t' p' l' P' N1 LA S'|sz' p' w' T' NL' S'|? ? ? ? I'|? ? ? ? I'|? ? ? ? ? I'|? ? ? I' |]; subst;
    try (pose proof (has_info_fun _ _ _ _ (points_info _ _ _ _ _ P) I') as <-; contradiction);
    try (pose proof (has_info_fun _ _ _ _ (points_info _ _ _ _ _ P) I') as Q; discriminate).
  - destruct (points_fun _ _ _ _ _ _ _ P P'). congruence.
  - exfalso. eapply (cp_opaque _ _ _ _ CP); [exact U|apply reaches_sees; exact Rc|exact P'|exact N1|exact O|exact H].
  - destruct (points_fun _ _ _ _ _ _ _ P P') as [<- <-]. destruct LA as [pre [a [post [t2 [Q [_ [Pa _]]]]]]].
    destruct (reaches_mid _ _ _ _ _ _ Rc _ _ _ Q) as [R2 [sz2 [w2 [L2 R3]]]]; [exists t2, p; exact Pa|].
    destruct (reaches_tree _ _ _ _ _ B0 eq_refl _ _ R2) as [e2 [T2 [<- Be2]]].
    eapply PT; [exact T2|exact Be2|apply reaches_sees; exact R2|exact L2|right; exists t2; exact Pa].
  - eapply PT; [exact T|exact Be|apply reaches_sees; exact Rc|exact Lw|left; exact P].
  - exfalso. eapply call_not_ptr; eassumption.
Qed.
End Result.
