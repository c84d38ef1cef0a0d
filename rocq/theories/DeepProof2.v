(** What the traversal builds: every entry of the tree is what the start state found out about its value, and the
    hash map holds the biggest target at every address. *)
From Coq Require Import ZArith String List Bool Lia ZifyBool Permutation.
From Verif Require Import Base BaseProof EntryModel EntrySpec EntryProof ValueModel ValueSpec ValueProof ValueProof2 DeepModel DeepSpec DeepProof.
Import ListNotations.
Open Scope Z_scope.

Section MentInd.
Variable P : ment -> Prop.
Hypothesis H : forall i v s l ch, Forall P ch -> P (ME i v s l ch).
Fixpoint ment_ind2 (e : ment) : P e :=
  match e with
  | ME i v s l ch =>
    H i v s l ch ((fix go (l : list ment) : Forall P l :=
                     match l with [] => Forall_nil P | c :: r => @Forall_cons _ P c r (ment_ind2 c) (go r) end) ch)
  end.
End MentInd.

Lemma in_tree_trans : forall x y z, in_tree x y -> in_tree y z -> in_tree x z.
Proof.
  intros x y z A B. induction B as [|e c I B IH]; [exact A|]. eapply it_child; [exact I|exact IH].
Qed.
Lemma in_tree_child : forall e c, In c (me_ch e) -> in_tree c e.
Proof. intros e c I. eapply it_child; [exact I|apply it_here]. Qed.

Section Build.
Variable E : env.
Variable M : mode.

Inductive built_ok (m : mem) : list value -> ment -> Prop :=
| bo_leaf anc i v sz : look E M m anc v = Ret (VLeaf sz) -> built_ok m anc (ME i v sz 0 [])
| bo_loop anc i v sz l : look E M m anc v = Ret (VLoop sz l) -> built_ok m anc (ME i v sz l [])
| bo_node anc i v sz sz' ch : look E M m anc v = Ret (VNode sz (map me_val ch)) -> Forall (built_ok m (v :: anc)) ch ->
    grow v sz ch = Ret sz' -> built_ok m anc (ME i v sz' 0 ch)
| bo_ptr anc i v sz c : look E M m anc v = Ret (VPtr sz (me_val c)) -> built_ok m (v :: anc) c ->
    built_ok m anc (ME i v sz 0 [c])
| bo_call anc i v ch : look E M m anc v = Ret (VCall (map me_val ch)) -> Forall (built_ok m (v :: anc)) ch ->
    built_ok m anc (ME i v 0 0 ch).

(** the loop over the children of [build] *)
Definition build_list (k : nat) (m : mem) (anc : list value) :=
  fix go (l : list value) (s : bst) : res (list (option ment) * bst) :=
    match l with
    | [] => Ret ([], s)
    | c :: r => (do '(x, s) <- build E M k m anc c s; do '(xs, s) <- go r s; Ret (x :: xs, s))%res
    end.
Lemma build_eq : forall k m anc v s, build E M (S k) m anc v s =
  (do w <- look E M m anc v;
    match w with
    | VFail => Ret (None, s)
    | VLeaf sz => let '(i, s) := fresh s in Ret (Some (ME i v sz 0 []), s)
    | VLoop sz l => let '(i, s) := fresh s in Ret (Some (ME i v sz l []), s)
    | VNode sz ch =>
      do '(rs, s) <- build_list k m (v :: anc) ch s;
      match all_some rs with
      | None => Ret (None, kill s (built rs))
      | Some l => do sz <- grow v sz l;
                  let '(i, s) := fresh s in Ret (Some (ME i v sz 0 l), s)
      end
    | VPtr sz t =>
      do '(x, s) <- build E M k m (v :: anc) t s;
      match x with
      | None => Ret (None, s)
      | Some c => let '(i, s) := fresh s in
                  do s <- register M s c;
                  Ret (Some (ME i v sz 0 [c]), s)
      end
    | VCall ch =>
      do '(rs, s) <- build_list k m (v :: anc) ch s;
      match all_some rs with
      | None => Ret (None, kill s (built rs))
      | Some l => let '(i, s) := fresh s in Ret (Some (ME i v 0 0 l), s)
      end
    end)%res.
Proof. reflexivity. Qed.

(** targets of the pointers of a tree: the entries that are children of an entry for a pointer *)
Fixpoint targets (e : ment) : list ment :=
  match e with
  | ME _ v _ _ ch =>
    (match final_info E v with Ret (Some (IPointer _)) => ch | _ => [] end) ++ flat_map targets ch
  end.
Definition targets_of (l : list (option ment)) : list ment :=
  flat_map (fun o => match o with Some e => targets e | None => [] end) l.

Lemma bind_ret : forall {A B} (x : res A) (f : A -> res B) b, bind x f = Ret b -> exists a, x = Ret a /\ f a = Ret b.
Proof. intros A B x f b H. destruct x; try discriminate. exists a. split; [reflexivity|exact H]. Qed.

Lemma all_some_map : forall {A} (l : list (option A)) r, all_some l = Some r -> l = map Some r.
Proof.
  intros A l. induction l as [|[a|] l IH]; intros r H; cbn in H; [injection H as <-; reflexivity| |discriminate].
  destruct (all_some l) as [q|] eqn:Q; [|discriminate]. injection H as <-. cbn. f_equal. apply IH. reflexivity.
Qed.

(** What the view says about the kind of the value. *)
Lemma look_kind : forall m anc v w, look E M m anc v = Ret w ->
  match w with
  | VFail => True
  | VLeaf _ => True
  | VLoop _ _ | VPtr _ _ => exists t, final_info E v = Ret (Some (IPointer t))
  | VNode _ _ => exists i, final_info E v = Ret (Some i) /\
      match i with IAggr AStruct _ _ | IAggr AUnion _ _ | IArray _ _ => True | _ => False end
  | VCall l => (exists i, final_info E v = Ret (Some i) /\ callable i) /\ l = en_items E (v_addr v) /\ Forall (fun w => v_addr w <> 0) l
  end.
Proof.
  intros m anc v w H. unfold look in H. destruct (en_va E (v_entry v)); [discriminate|]. rename H into K.
  apply bind_ret in K. destruct K as [f [F K]]. rewrite F.
  assert (NP : forall k, look_aggr E M m k anc v = Ret w -> match w with VFail | VNode _ _ => True | _ => False end).
  { intros k L. unfold look_aggr in L. apply bind_ret in L. destruct L as [[z|z] [_ L]]; [|injection L as <-; exact I].
    apply bind_ret in L. destruct L as [c [_ L]].
    assert (S : forall mc, bind (members_from E v mc 0) (fun l => Ret (match l with Some l => VNode z l | None => VFail end)) = Ret w ->
      match w with VFail | VNode _ _ => True | _ => False end).
    { intros mc S. apply bind_ret in S. destruct S as [[l|] [_ S]]; injection S as <-; exact I. }
    destruct k; try (eapply S; exact L).
    destruct (0 <? c); [|injection L as <-; exact I].
    apply bind_ret in L. destruct L as [h [_ L]]. destruct (negb (fst h =? 0)); [injection L as <-; exact I|].
    destruct (snd h); [injection L as <-; exact I|]. destruct (mo_union M); injection L as <-; exact I. }
  assert (NA : look_array E M m anc v = Ret w -> match w with VFail | VNode _ _ => True | _ => False end).
  { intros L. unfold look_array in L. apply bind_ret in L. destruct L as [c [_ L]].
    apply bind_ret in L. destruct L as [[loc|] [_ L]]; [|injection L as <-; exact I].
    apply bind_ret in L. destruct L as [c' [_ L]]. apply bind_ret in L. destruct L as [[[|x l]|] [_ L]]; try (injection L as <-; exact I).
    apply bind_ret in L. destruct L as [[z|z] [_ L]]; injection L as <-; exact I. }
  assert (PT : look_pointer E M m anc v = Ret w -> match w with VNode _ _ | VCall _ => False | _ => True end).
  { intros L. unfold look_pointer in L. apply bind_ret in L. destruct L as [[z|z] [_ L]]; [|injection L as <-; exact I].
    apply bind_ret in L. destruct L as [[er|p] [_ L]]; [injection L as <-; exact I|].
    destruct (p =? 0); [injection L as <-; exact I|]. apply bind_ret in L. destruct L as [l [_ L]].
    destruct (0 <? l); [injection L as <-; exact I|]. apply bind_ret in L. destruct L as [h [_ L]].
    destruct (negb (fst h =? 0)); [injection L as <-; exact I|].
    apply bind_ret in L. destruct L as [vp [_ L]]. apply bind_ret in L. destruct L as [dp [_ L]].
    assert (LS : forall q, bind q (fun w0 => match w0 with None => Ret VFail | Some w0 => bind (value_kind_is E w0 is_array_info) (fun ha => Ret (if ha : bool then VPtr z w0 else VFail)) end) = Ret w ->
      match w with VNode _ _ | VCall _ => False | _ => True end).
    { intros q S. apply bind_ret in S. destruct S as [[w0|] [_ S]]; [|injection S as <-; exact I].
      apply bind_ret in S. destruct S as [[|] [_ S]]; injection S as <-; exact I. }
    destruct (snd h), (vp || dp), (mo_uptr M); try (injection L as <-; exact I); eapply LS; exact L. }
  assert (BT : bind (byte_size (en_fuel E) (en_db E) (Some (v_entry v))) (fun z => Ret (match z with inl sz => VLeaf sz | inr _ => VFail end)) = Ret w ->
    match w with VFail | VLeaf _ => True | _ => False end).
  { intros L. apply bind_ret in L. destruct L as [[z|z] [_ L]]; injection L as <-; exact I. }
  assert (CT : forall i, f = Some i -> callable i -> Ret (look_call E v) = Ret w -> match w with
    | VFail => True | VCall l => (exists i, Ret f = Ret (Some i) /\ callable i) /\ l = en_items E (v_addr v) /\ Forall (fun w => v_addr w <> 0) l | _ => False end).
  { intros i Fi Ci L. unfold look_call in L. destruct (existsb _ _) eqn:X; injection L as <-; [exact I|].
    split; [exists i; split; [rewrite Fi; reflexivity|exact Ci]|]. split; [reflexivity|]. apply Forall_forall. intros a A.
    rewrite <- Bool.not_true_iff_false in X. intro Z0. apply X. apply existsb_exists. exists a. split; [exact A|lia]. }
  destruct f as [f|]; [|injection K as <-; exact I].
  destruct f as [ | |z c|t| |z l|t c| |k z l| |[|] ?|? ?|? ?| ]; try (injection K as <-; exact I); try discriminate K;
    try (specialize (CT _ eq_refl I K); destruct w; try exact I; try contradiction; exact CT);
    try (apply BT in K; destruct w; try exact I; contradiction).
  - apply PT in K. destruct w; try exact I; try contradiction; exists t; reflexivity.
  - apply NA in K. destruct w; try exact I; try contradiction. exists (IArray t c). split; [reflexivity|exact I].
  - destruct k; try (injection K as <-; exact I); apply NP in K; destruct w; try exact I; try contradiction; eexists; (split; [reflexivity|exact I]).
Qed.

Definition hb (c : ment) : hent := Build_hent (v_addr (me_val c)) (me_id c) (me_size c).

(** Entries of the hash map come from targets built so far or deleted ones; identities are below the counter. *)
Lemma hfind_some : forall l a h, hfind l a = Some h -> In h l /\ h_addr h = a.
Proof.
  induction l as [|x l IH]; intros a h H; cbn in H; [discriminate|].
  destruct (h_addr x =? a) eqn:Q; [injection H as <-; split; [left; reflexivity|lia]|].
  destruct (IH a h H). split; [right|]; assumption.
Qed.
Lemma hfind_none : forall l a, hfind l a = None -> forall h, In h l -> h_addr h <> a.
Proof.
  induction l as [|x l IH]; intros a H h I; [destruct I|]. cbn in H. destruct (h_addr x =? a) eqn:Q; [discriminate|].
  destruct I as [<-|I]; [lia|eapply IH; eassumption].
Qed.
Lemma hput_in : forall l x h, In h (hput l x) -> h = x \/ In h l.
Proof.
  induction l as [|y l IH]; intros x h I; cbn in I; [destruct I as [<-|[]]; left; reflexivity|].
  destruct (h_addr y =? h_addr x) eqn:Q.
  - destruct I as [<-|I]; [left; reflexivity|right; right; exact I].
  - destruct I as [<-|I]; [right; left; reflexivity|]. destruct (IH x h I) as [->|J]; [left; reflexivity|right; right; exact J].
Qed.
Lemma hput_here : forall l x, In x (hput l x).
Proof. induction l as [|y l IH]; intro x; cbn; [left; reflexivity|]. destruct (h_addr y =? h_addr x); [left; reflexivity|right; apply IH]. Qed.
Lemma hput_keep : forall l x h, In h l -> h_addr h <> h_addr x -> In h (hput l x).
Proof.
  induction l as [|y l IH]; intros x h I N; [destruct I|]. cbn. destruct (h_addr y =? h_addr x) eqn:Q.
  - destruct I as [<-|I]; [lia|right; exact I].
  - destruct I as [<-|I]; [left; reflexivity|right; apply IH; assumption].
Qed.
Lemma hput_addrs : forall l x, map h_addr (hput l x) = map h_addr l \/
  ((forall h, In h l -> h_addr h <> h_addr x) /\ map h_addr (hput l x) = map h_addr l ++ [h_addr x]).
Proof.
  induction l as [|y l IH]; intro x; cbn; [right; split; [intros h []|reflexivity]|].
  destruct (h_addr y =? h_addr x) eqn:Q; [left; cbn; f_equal; lia|].
  destruct (IH x) as [R|[N R]]; cbn; [left; rewrite R; reflexivity|].
  right. split; [|rewrite R; reflexivity]. intros h [<-|I]; [lia|apply N; exact I].
Qed.
Lemma nodup_snoc : forall {A} (l : list A) a, NoDup l -> ~ In a l -> NoDup (l ++ [a]).
Proof.
  intros A l a N I. apply (Permutation_NoDup (l := a :: l)).
  - apply Permutation_cons_append.
  - constructor; assumption.
Qed.
Lemma hput_nodup : forall l x, NoDup (map h_addr l) -> NoDup (map h_addr (hput l x)).
Proof.
  intros l x N. destruct (hput_addrs l x) as [->|[R ->]]; [exact N|].
  apply nodup_snoc; [exact N|]. intro I. apply in_map_iff in I. destruct I as [h [H1 H2]]. apply (R h H2 H1).
Qed.
Lemma hput_ids : forall l x, NoDup (map h_id l) -> ~ In (h_id x) (map h_id l) -> NoDup (map h_id (hput l x)).
Proof.
  induction l as [|y l IH]; intros x N I; cbn; [repeat constructor; intros []|].
  cbn in N, I. inversion N as [|? ? N1 N2]. subst. destruct (h_addr y =? h_addr x); cbn.
  - constructor; [|exact N2]. intro J. apply I. right. exact J.
  - constructor; [|apply IH; [exact N2|intro J; apply I; right; exact J]].
    intro J. apply in_map_iff in J. destruct J as [h [H1 H2]]. apply hput_in in H2. destruct H2 as [->|H2].
    + apply I. left. symmetry. exact H1.
    + apply N1. apply in_map_iff. exists h. split; assumption.
Qed.

(** ids *)
Lemma ids_targets : forall e c, In c (targets e) -> in_tree c e.
Proof.
  induction e as [i v s l ch F] using ment_ind2. intros c I. cbn [targets] in I. apply in_app_or in I. destruct I as [I|I].
  - apply in_tree_child. cbn [me_ch]. destruct (final_info E v) as [[[]|]| | |]; try (destruct I; fail); exact I.
  - apply in_flat_map in I. destruct I as [x [X1 X2]]. eapply it_child; [exact X1|].
    rewrite Forall_forall in F. apply F; assumption.
Qed.
Lemma ids_tree : forall e c, in_tree c e -> In (me_id c) (ids e).
Proof.
  intros e c H. induction H as [|e x I H IH]; [destruct c; left; reflexivity|].
  destruct e as [i v s l ch]. cbn [me_ch] in I. right. apply in_flat_map. exists x. split; assumption.
Qed.

(** The result of a successful construction. *)
Record grown (s s' : bst) (l : list ment) (tg : list ment) : Prop := {
  gr_next : (b_next s <= b_next s')%nat;
  gr_ids : forall i, In i (flat_map ids l) -> (b_next s <= i < b_next s')%nat;
  gr_nodup : NoDup (flat_map ids l);
  gr_dead : b_dead s' = b_dead s;
  gr_from : forall h, In h (b_hash s') -> In h (b_hash s) \/ (mo_tree M = false /\ exists c, In c tg /\ h = hb c);
  gr_old : forall h, In h (b_hash s) -> exists h', In h' (b_hash s') /\ h_addr h' = h_addr h /\ h_size h <= h_size h';
  gr_new : mo_tree M = false -> forall c, In c tg -> exists h', In h' (b_hash s') /\ h_addr h' = v_addr (me_val c) /\ me_size c <= h_size h';
}.
(** invariant of the state *)
Record bst_ok (s : bst) : Prop := {
  bo_addrs : NoDup (map h_addr (b_hash s));
  bo_hids : NoDup (map h_id (b_hash s));
  bo_bound : forall h, In h (b_hash s) -> (h_id h < b_next s)%nat;
}.

Lemma nodup_app2 : forall {A} (l1 l2 : list A), NoDup l1 -> NoDup l2 -> (forall a, In a l1 -> ~ In a l2) -> NoDup (l1 ++ l2).
Proof.
  intros A l1. induction l1 as [|a l1 IH]; intros l2 N1 N2 D; [exact N2|]. cbn. inversion N1 as [|? ? X Y]. subst.
  constructor.
  - intro I. apply in_app_or in I. destruct I as [I|I]; [exact (X I)|]. apply (D a (or_introl eq_refl) I).
  - apply IH; [exact Y|exact N2|]. intros b I. apply D. right. exact I.
Qed.
Lemma grown_refl : forall s, grown s s [] [].
Proof.
  intro s. constructor; [lia|intros i []|constructor|reflexivity|intros h I; left; exact I| |intros _ c []].
  intros h I. exists h. repeat split; [exact I|lia].
Qed.
Lemma grown_trans : forall s1 s2 s3 l1 l2 t1 t2, grown s1 s2 l1 t1 -> grown s2 s3 l2 t2 -> grown s1 s3 (l1 ++ l2) (t1 ++ t2).
Proof.
  intros s1 s2 s3 l1 l2 t1 t2 A B. destruct A as [A1 A2 AN A3 A4 A5 A6], B as [B1 B2 BN B3 B4 B5 B6]. constructor.
  - lia.
  - intros i I. rewrite flat_map_app in I. apply in_app_or in I. destruct I as [I|I]; [specialize (A2 i I)|specialize (B2 i I)]; lia.
  - rewrite flat_map_app. apply nodup_app2; [exact AN|exact BN|]. intros i I J. specialize (A2 i I). specialize (B2 i J). lia.
  - congruence.
  - intros h I. apply B4 in I. destruct I as [I|[T [c [C1 C2]]]].
    + apply A4 in I. destruct I as [I|[T [c [C1 C2]]]]; [left; exact I|right; split; [exact T|exists c]].
      split; [apply in_or_app; left|]; assumption.
    + right. split; [exact T|]. exists c. split; [apply in_or_app; right|]; assumption.
  - intros h I. destruct (A5 h I) as [h' [X1 [X2 X3]]]. destruct (B5 h' X1) as [h2 [Y1 [Y2 Y3]]].
    exists h2. repeat split; [exact Y1|congruence|lia].
  - intros T c I. apply in_app_or in I. destruct I as [I|I]; [|apply B6; assumption].
    destruct (A6 T c I) as [h' [X1 [X2 X3]]]. destruct (B5 h' X1) as [h2 [Y1 [Y2 Y3]]].
    exists h2. repeat split; [exact Y1|congruence|lia].
Qed.
Lemma grown_fresh : forall s1 s2 l t v sz lp, grown s1 s2 l t ->
  grown s1 (snd (fresh s2)) [ME (fst (fresh s2)) v sz lp l] t.
Proof.
  intros s1 s2 l t v sz lp [A1 A2 AN A3 A4 A5 A6]. constructor; cbn; try assumption.
  - lia.
  - intros i I. rewrite app_nil_r in I. destruct I as [<-|I]; [lia|]. specialize (A2 i I). lia.
  - rewrite app_nil_r. constructor; [|exact AN]. intro I. specialize (A2 _ I). lia.
Qed.
Lemma fresh_ok : forall s, bst_ok s -> bst_ok (snd (fresh s)).
Proof. intros s [A B C]. constructor; cbn; try assumption. intros h I. specialize (C h I). lia. Qed.

(** the entry of a pointer's target goes to the hash map *)
Lemma register_ok : forall s s' c, bst_ok s -> (forall h, In h (b_hash s) -> (h_id h < me_id c)%nat) -> (me_id c < b_next s)%nat ->
  register M s c = Ret s' ->
  bst_ok s' /\ b_next s' = b_next s /\ b_dead s' = b_dead s /\
  (forall h, In h (b_hash s') -> In h (b_hash s) \/ (mo_tree M = false /\ h = hb c)) /\
  (forall h, In h (b_hash s) -> exists h', In h' (b_hash s') /\ h_addr h' = h_addr h /\ h_size h <= h_size h') /\
  (mo_tree M = false -> exists h', In h' (b_hash s') /\ h_addr h' = v_addr (me_val c) /\ me_size c <= h_size h').
Proof.
  intros s s' c [N1 N2 N3] Lt Lc R. unfold register in R.
  assert (Id : forall h, In h (b_hash s) -> exists h', In h' (b_hash s) /\ h_addr h' = h_addr h /\ h_size h <= h_size h').
  { intros h I. exists h. repeat split; [exact I|lia]. }
  destruct (mo_tree M) eqn:T.
  { injection R as <-. split; [constructor; assumption|]. split; [reflexivity|]. split; [reflexivity|].
    split; [intros h I; left; exact I|]. split; [exact Id|intro; discriminate]. }
  cbn [h_addr h_size] in R. fold (hb c) in R.
  assert (Put : (forall h, In h (b_hash s) -> h_addr h = h_addr (hb c) -> h_size h <= h_size (hb c)) ->
    s' = Build_bst (b_next s) (hput (b_hash s) (hb c)) (b_dead s) ->
    bst_ok s' /\ b_next s' = b_next s /\ b_dead s' = b_dead s /\
    (forall h, In h (b_hash s') -> In h (b_hash s) \/ (false = false /\ h = hb c)) /\
    (forall h, In h (b_hash s) -> exists h', In h' (b_hash s') /\ h_addr h' = h_addr h /\ h_size h <= h_size h') /\
    (false = false -> exists h', In h' (b_hash s') /\ h_addr h' = v_addr (me_val c) /\ me_size c <= h_size h')).
  { intros Le ->. cbn [b_next b_dead b_hash]. split; [constructor; cbn|].
    - apply hput_nodup. exact N1.
    - apply hput_ids; [exact N2|]. intro J. apply in_map_iff in J. destruct J as [h [J1 J2]]. specialize (Lt h J2). cbn in J1. lia.
    - intros h I. apply hput_in in I. destruct I as [->|I]; [cbn; lia|]. apply N3. exact I.
    - split; [reflexivity|]. split; [reflexivity|]. split.
      { intros h I. apply hput_in in I. destruct I as [->|I]; [right; split; reflexivity|left; exact I]. }
      split.
      { intros h I. destruct (Z.eq_dec (h_addr h) (h_addr (hb c))) as [Q|Q].
        - exists (hb c). split; [apply hput_here|]. split; [symmetry; exact Q|]. apply Le; assumption.
        - exists h. split; [apply hput_keep; assumption|]. split; [reflexivity|lia]. }
      intros _. exists (hb c). split; [apply hput_here|]. cbn. split; [reflexivity|lia]. }
  destruct (hfind (b_hash s) (v_addr (me_val c))) as [prev|] eqn:F.
  - destruct (hfind_some _ _ _ F) as [F1 F2].
    destruct (existsb (Nat.eqb (h_id prev)) (b_dead s)); [discriminate|].
    destruct (h_size prev <? me_size c) eqn:C.
    + injection R as <-. apply Put; [|reflexivity]. intros h I Q.
      rewrite (nodup_addr_eq (b_hash s) h prev N1 I F1) by (cbn in Q; congruence). cbn. lia.
    + injection R as <-. split; [constructor; assumption|]. split; [reflexivity|]. split; [reflexivity|].
      split; [intros h I; left; exact I|]. split; [exact Id|]. intros _. exists prev. repeat split; [exact F1|exact F2|lia].
  - injection R as <-. apply Put; [|reflexivity]. intros h I Q. exfalso. apply (hfind_none _ _ F h I). exact Q.
Qed.

Lemma build_ok_gen : forall k m,
  (forall anc v s e s', bst_ok s -> build E M k m anc v s = Ret (Some e, s') ->
     built_ok m anc e /\ me_val e = v /\ bst_ok s' /\ grown s s' [e] (targets e) /\
     (forall h, In h (b_hash s') -> (h_id h < me_id e)%nat) /\ S (me_id e) = b_next s').
Proof.
  induction k as [|k IH1]; intro m; [intros; discriminate|]. specialize (IH1 m).
  assert (BL1 : forall anc vs s l s', bst_ok s -> build_list k m anc vs s = Ret (map Some l, s') ->
    Forall (built_ok m anc) l /\ map me_val l = vs /\ bst_ok s' /\ grown s s' l (flat_map targets l)).
  { intros anc vs. induction vs as [|v vs IHv]; intros s l s' O H; cbn in H.
    - injection H as H1 H2. destruct l as [|a l]; [|discriminate]. subst s'.
      split; [constructor|]. split; [reflexivity|]. split; [exact O|]. apply grown_refl.
    - apply bind_ret in H. destruct H as [[x s1] [H1 H]]. apply bind_ret in H. destruct H as [[xs s2] [H2 H]].
      injection H as HE HS. destruct l as [|a l]; [discriminate|]. cbn in HE. injection HE as Hx Hxs. subst x xs s2.
      destruct (IH1 _ _ _ _ _ O H1) as [B1 [B2 [B3 [B4 _]]]].
      destruct (IHv _ _ _ B3 H2) as [C1 [C2 [C3 C4]]].
      split; [constructor; assumption|]. split; [cbn; congruence|]. split; [exact C3|].
      cbn [flat_map]. exact (grown_trans _ _ _ _ _ _ _ B4 C4). }
  intros anc v s e s' O H. rewrite build_eq in H. apply bind_ret in H. destruct H as [w [W H]].
  pose proof (look_kind m anc v w W) as K. destruct w as [|sz|sz lv|sz ch|sz t|ch].
  + discriminate.
  + cbn [fresh] in H. injection H as <- <-. split; [apply bo_leaf; exact W|]. split; [reflexivity|].
    split; [apply (fresh_ok s O)|]. split.
    { cbn [targets flat_map]. rewrite app_nil_r.
      assert (Q : match final_info E v with Ret (Some (IPointer _)) => ([] : list ment) | _ => [] end = []) by (destruct (final_info E v) as [[[]|]| | |]; reflexivity).
      rewrite Q. apply (grown_fresh s s [] [] v sz 0). apply grown_refl. }
    split; [|reflexivity]. cbn. apply O.
  + cbn [fresh] in H. injection H as <- <-. split; [apply bo_loop; exact W|]. split; [reflexivity|].
    split; [apply (fresh_ok s O)|]. split.
    { cbn [targets flat_map]. rewrite app_nil_r. destruct K as [t ->].
      apply (grown_fresh s s [] [] v sz lv). apply grown_refl. }
    split; [|reflexivity]. cbn. apply O.
  + apply bind_ret in H. destruct H as [[rs s1] [H1 H]]. destruct (all_some rs) as [l|] eqn:Q; [|discriminate].
    apply bind_ret in H. destruct H as [sz' [G H]]. cbn [fresh] in H. injection H as <- <-.
    apply all_some_map in Q. subst rs. destruct (BL1 _ _ _ _ _ O H1) as [B1 [B2 [B3 B4]]].
    split; [eapply bo_node; [rewrite B2; exact W|exact B1|exact G]|]. split; [reflexivity|].
    split; [apply (fresh_ok s1 B3)|]. split.
    { cbn [targets]. destruct K as [i [-> Ki]].
      assert (Q : match i with IPointer _ => l | _ => [] end = []) by (destruct i; try reflexivity; destruct Ki).
      rewrite Q. cbn [app]. apply (grown_fresh s s1 l (flat_map targets l) v sz' 0). exact B4. }
    split; [|reflexivity]. cbn. apply B3.
  + apply bind_ret in H. destruct H as [[x s1] [H1 H]]. destruct x as [c|]; [|discriminate]. cbn [fresh] in H.
    apply bind_ret in H. destruct H as [s2 [R H]]. injection H as <- <-.
    destruct (IH1 _ _ _ _ _ O H1) as [B1 [B2 [B3 [B4 [B5 B6]]]]].
    split; [apply bo_ptr; [rewrite B2; exact W|exact B1]|]. split; [reflexivity|].
    destruct K as [t' Kt]. cbn [targets]. rewrite Kt. cbn [flat_map app]. rewrite app_nil_r.
    pose proof (fresh_ok s1 B3) as O1. cbn [fresh snd] in O1.
    pose proof (grown_fresh s s1 [c] (targets c) v sz 0 B4) as G1. cbn [fresh fst snd] in G1.
    assert (Lc : (me_id c < b_next (Build_bst (S (b_next s1)) (b_hash s1) (b_dead s1)))%nat) by (cbn; lia).
    destruct (register_ok _ _ _ O1 B5 Lc R) as [R1 [R2 [R3 [R4 [R5 R6]]]]]. cbn [b_next b_dead b_hash] in *.
    split; [exact R1|]. split.
    { destruct G1 as [G1 G2 GN G3 G4 G5 G6]. cbn [b_next b_dead b_hash] in *. constructor.
      - lia.
      - intros i I. specialize (G2 i I). lia.
      - exact GN.
      - congruence.
      - intros h I. apply R4 in I. destruct I as [I|[T ->]].
        + apply G4 in I. destruct I as [I|[T [x [X1 X2]]]]; [left; exact I|]. right. split; [exact T|]. exists x. split; [right|]; assumption.
        + right. split; [exact T|]. exists c. split; [left; reflexivity|reflexivity].
      - intros h I. destruct (G5 h I) as [h1 [X1 [X2 X3]]]. destruct (R5 h1 X1) as [h2 [Y1 [Y2 Y3]]].
        exists h2. repeat split; [exact Y1|congruence|lia].
      - intros T x [<-|X]; [apply R6; exact T|]. destruct (G6 T x X) as [h1 [X1 [X2 X3]]].
        destruct (R5 h1 X1) as [h2 [Y1 [Y2 Y3]]]. exists h2. repeat split; [exact Y1|congruence|lia]. }
    cbn [me_id]. split; [|congruence]. intros h I. apply R4 in I. destruct I as [I|[_ ->]].
    - specialize (B5 h I). lia.
    - cbn [hb h_id]. lia.
  + apply bind_ret in H. destruct H as [[rs s1] [H1 H]]. destruct (all_some rs) as [l|] eqn:Q; [|discriminate].
    cbn [fresh] in H. injection H as <- <-.
    apply all_some_map in Q. subst rs. destruct (BL1 _ _ _ _ _ O H1) as [B1 [B2 [B3 B4]]].
    split; [eapply bo_call; [rewrite B2; exact W|exact B1]|]. split; [reflexivity|].
    split; [apply (fresh_ok s1 B3)|]. split.
    { cbn [targets]. destruct K as [[i [-> Ki]] _].
      assert (Q : match i with IPointer _ => l | _ => [] end = []) by (destruct i; try reflexivity; destruct Ki).
      rewrite Q. cbn [app]. apply (grown_fresh s s1 l (flat_map targets l) v 0 0). exact B4. }
    split; [|reflexivity]. cbn. apply B3.
Qed.

Record map_ok (m : mem) (v : value) (mm : mmap) : Prop := {
  mo_built : built_ok m [] (mm_top mm);
  mo_val : me_val (mm_top mm) = v;
  mo_ids : NoDup (ids (mm_top mm));
  mo_addrs : NoDup (map h_addr (hash_of mm));
  mo_hids : NoDup (map h_id (hash_of mm));
  mo_from : forall h, In h (hash_of mm) -> exists c, In c (targets (mm_top mm)) /\ h = hb c;
  mo_all : mo_tree M = false -> forall c, In c (targets (mm_top mm)) ->
    exists h, In h (hash_of mm) /\ h_addr h = v_addr (me_val c) /\ me_size c <= h_size h;
  mo_off : mm_off mm = if mo_tree M then [] else identify (hash_of mm);
}.
Lemma map_built : forall k m v mm, new_memory_map E M k m v = Ret (Some mm) -> map_ok m v mm.
Proof.
  intros k m v mm H. unfold new_memory_map in H. apply bind_ret in H. destruct H as [[x s] [B H]].
  destruct x as [top|]; [|discriminate].
  assert (O : bst_ok (Build_bst 0 [] [])) by (constructor; cbn; [constructor|constructor|intros h []]).
  destruct (build_ok_gen _ _ _ _ _ _ _ O B) as [B1 [B2 [B3 [B4 _]]]]. destruct B3 as [N1 N2 N3].
  destruct B4 as [G1 G2 GN G3 G4 G5 G6]. cbn [flat_map] in GN. rewrite app_nil_r in GN. cbn [b_hash] in *.
  destruct (mo_tree M) eqn:T; injection H as <-.
  - constructor; cbn; try assumption; try (constructor; fail); try (intro; congruence).
    + intros h [].
    + rewrite T. reflexivity.
  - constructor; cbn; try assumption.
    + intros h I. destruct (G4 h I) as [[]|[_ X]]. exact X.
    + intros _. apply G6. reflexivity.
    + rewrite T. reflexivity.
Qed.
End Build.
