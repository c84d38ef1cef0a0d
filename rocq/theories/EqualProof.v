(** Deep comparison: what a result of 1 means. *)
From Coq Require Import ZArith String List Bool Lia ZifyBool.
From Verif Require Import Base BaseProof EntryModel EntrySpec EntryProof ValueModel ValueSpec ValueProof ValueProof2 DeepModel DeepSpec DeepProof DeepProof2 DeepProof3 DeepProof4 DeepProof5 DeepProof8 EqualSpec.
Import ListNotations.
Open Scope Z_scope.

Section Sound.
Variable E : env.
Variable M : mode.
Variable feq : ctype -> Z -> Z -> bool.
Variable m : mem.
Notation n := (en_fuel E).
Notation d := (en_db E).
Notation g := (en_garbage E).
Variables v1 v2 : value.
Variables o1 o2 : list (nat * Z).
Variables t1 t2 : ment.
Hypothesis BO : bytes_ok m.
Hypothesis V1 : me_val t1 = v1.
Hypothesis V2 : me_val t2 = v2.
Hypothesis B1 : built_ok E M m [] t1.
Hypothesis B2 : built_ok E M m [] t2.
Hypothesis EQ : equal_tree E M feq m o1 o2 t1 t2 = Ret (false, true).

(** the two trees in step *)
Inductive duo : list ment -> ment -> list ment -> ment -> Prop :=
| du_top : duo [] t1 [] t2
| du_step l1 e1 l2 e2 i c1 c2 : duo l1 e1 l2 e2 -> nth_error (me_ch e1) i = Some c1 -> nth_error (me_ch e2) i = Some c2 ->
    duo (e1 :: l1) c1 (e2 :: l2) c2.

Lemma equal_list_nth : forall l1 l2, equal_list E M feq m o1 o2 l1 l2 = Ret (false, true) ->
  forall i c1 c2, nth_error l1 i = Some c1 -> nth_error l2 i = Some c2 -> equal_tree E M feq m o1 o2 c1 c2 = Ret (false, true).
Proof.
  induction l1 as [|x l1 IH]; intros l2 H i c1 c2 N1 N2; [destruct i; discriminate|]. destruct l2 as [|y l2]; [discriminate|].
  cbn [equal_list] in H. apply bind_ret in H. destruct H as [[f x0] [A H]]. apply bind_ret in H. destruct H as [[fs xs] [B H]].
  injection H as Hf Hc. destruct f, fs, x0, xs; try discriminate. destruct i as [|i]; cbn in N1, N2; [congruence|]. eapply IH; eassumption.
Qed.
(** an entry without a failure: what the comparison of the two entries established *)
Lemma tree_inv : forall e1 e2, equal_tree E M feq m o1 o2 e1 e2 = Ret (false, true) -> exists f1 f2,
  final_info E (me_val e1) = Ret f1 /\ final_info E (me_val e2) = Ret f2 /\ same_head o1 o2 e1 e2 f1 f2 /\
  (body E M feq m e1 e2 f1 f2 = Ret (inl (false, true)) \/
   body E M feq m e1 e2 f1 f2 = Ret (inr tt) /\ equal_list E M feq m o1 o2 (me_ch e1) (me_ch e2) = Ret (false, true)).
Proof.
  intros e1 e2 H. rewrite equal_tree_eq in H. apply bind_ret in H. destruct H as [h [H1 H]].
  destruct (here_inv _ _ _ _ _ _ _ _ _ H1) as [f1 [f2 [F1 [F2 [[S ->]|[S Bd]]]]]]; [discriminate|].
  exists f1, f2. split; [exact F1|]. split; [exact F2|]. split; [exact S|]. destruct h as [r|[]]; [left; congruence|right; split; assumption].
Qed.
(** entries with a result of their own have no children *)
Lemma body_leaf : forall anc e1 e2 f1 f2 r, built_ok E M m anc e1 -> final_info E (me_val e1) = Ret f1 ->
  body E M feq m e1 e2 f1 f2 = Ret (inl r) -> r = (false, true) -> me_ch e1 = [].
Proof.
  intros anc e1 e2 f1 f2 r B F H R. destruct (built_looks _ _ _ _ _ B) as [w [_ [L X]]].
  assert (NL : forall i, has_info d (me_val e1) i -> match i with IBase _ _ | IEnum _ _ => True | _ => False end -> me_ch e1 = []).
  { intros i I K. destruct w as [|sz1|sz1 lv|sz1 chs|sz1 t|ca]; [contradiction|apply X|apply X| | |].
    - destruct (node_info _ _ _ _ _ _ _ L) as [i' [I' K']]. pose proof (has_info_fun _ _ _ _ I I') as Q. subst i'. destruct i; contradiction.
    - inversion L as [| | | |sz' p w' T NL S| | | | |]; subst. destruct (target_points _ _ _ _ _ _ _ T) as [_ [t' P]].
      pose proof (has_info_fun _ _ _ _ I (points_info _ _ _ _ _ P)) as Q. subst i. contradiction.
    - destruct (call_info _ _ _ _ _ _ L) as [i' [I' C']]. pose proof (has_info_fun _ _ _ _ I I') as Q. subst i'. destruct i; contradiction. }
  destruct f1 as [i|]; [|discriminate]. apply final_info_some in F. specialize (NL i F). unfold body in H.
  destruct i as [ | | | | | | | |[]| | | | | ]; try (apply NL; exact I); destruct f2 as [[ | | | | | | | |[]| | | | | ]|]; try discriminate.
  - destruct (me_ch e1); [reflexivity|discriminate].
  - destruct (mo_union M); try discriminate. destruct (me_ch e1); [reflexivity|discriminate].
Qed.
Lemma child_ok : forall anc e i c, built_ok E M m anc e -> nth_error (me_ch e) i = Some c -> built_ok E M m (me_val e :: anc) c.
Proof.
  intros anc e i c B N. inversion B; subst; cbn [me_ch me_val] in *; try (destruct i; discriminate).
  - eapply Forall_forall; [eassumption|]. eapply nth_error_In. exact N.
  - destruct i as [|i]; cbn in N; [injection N as <-; assumption|destruct i; discriminate].
  - eapply Forall_forall; [eassumption|]. eapply nth_error_In. exact N.
Qed.
Lemma child_reached : forall v anc e i c, built_ok E M m anc e -> reaches E M m v anc (me_val e) -> nth_error (me_ch e) i = Some c ->
  reaches E M m v (me_val e :: anc) (me_val c).
Proof.
  intros v anc e i c B R N. destruct (built_looks _ _ _ _ _ B) as [w [_ [L X]]]. destruct w as [|sz1|sz1 lv|sz1 chs|sz1 t|ca]; [contradiction| | | | |].
  - destruct X as [_ [_ X]]. rewrite X in N. destruct i; discriminate.
  - destruct X as [_ [_ X]]. rewrite X in N. destruct i; discriminate.
  - destruct X as [_ [-> _]]. eapply re_node; [exact R|exact L|]. apply in_map. eapply nth_error_In. exact N.
  - destruct X as [_ [_ [c' [Q [Vc _]]]]]. rewrite Q in N. destruct i as [|i]; cbn in N; [|destruct i; discriminate]. injection N as <-. rewrite Vc. eapply re_ptr; eassumption.
  - destruct X as [_ [_ [-> _]]]. eapply re_call; [exact R|exact L|]. apply in_map. eapply nth_error_In. exact N.
Qed.
Lemma duo_ok : forall l1 e1 l2 e2, duo l1 e1 l2 e2 ->
  built_ok E M m (map me_val l1) e1 /\ built_ok E M m (map me_val l2) e2 /\ equal_tree E M feq m o1 o2 e1 e2 = Ret (false, true) /\
  reaches E M m v1 (map me_val l1) (me_val e1) /\ reaches E M m v2 (map me_val l2) (me_val e2) /\ length l1 = length l2.
Proof.
  intros l1 e1 l2 e2 D. induction D as [|l1 e1 l2 e2 i c1 c2 D IH N1 N2].
  - split; [exact B1|]. split; [exact B2|]. split; [exact EQ|]. rewrite V1, V2. split; [apply re_here|]. split; [apply re_here|reflexivity].
  - destruct IH as [K1 [K2 [T [R1 [R2 Le]]]]]. cbn [map length]. split; [eapply child_ok; eassumption|]. split; [eapply child_ok; eassumption|].
    split; [|split; [eapply child_reached; eassumption|split; [eapply child_reached; eassumption|congruence]]].
    destruct (tree_inv _ _ T) as [f1 [f2 [F1 [F2 [S [Bd|[_ Bd]]]]]]]; [|eapply equal_list_nth; eassumption].
    exfalso. rewrite (body_leaf _ _ _ _ _ _ K1 F1 Bd eq_refl) in N1. destruct i; discriminate.
Qed.
(** ancestors are in step *)
Lemma duo_up : forall l1 e1 l2 e2, duo l1 e1 l2 e2 -> forall pre1 a1 post1, l1 = pre1 ++ a1 :: post1 ->
  exists pre2 a2 post2, l2 = pre2 ++ a2 :: post2 /\ length pre2 = length pre1 /\ duo post1 a1 post2 a2 /\
    exists i c1 c2, nth_error (me_ch a1) i = Some c1 /\ nth_error (me_ch a2) i = Some c2.
Proof.
  intros l1 e1 l2 e2 D. induction D as [|l1 e1 l2 e2 i c1 c2 D IH N1 N2]; intros pre1 a1 post1 Q; [destruct pre1; discriminate|].
  destruct pre1 as [|b pre1]; cbn in Q; injection Q as -> Q.
  - subst l1. exists [], e2, l2. split; [reflexivity|]. split; [reflexivity|]. split; [exact D|]. exists i, c1, c2. split; assumption.
  - destruct (IH _ _ _ Q) as [pre2 [a2 [post2 [-> [Le [D' C]]]]]]. exists (e2 :: pre2), a2, post2. cbn. split; [reflexivity|]. split; [congruence|]. split; assumption.
Qed.

(** places *)
Lemma is_node : forall anc e sz ch, built_ok E M m anc e -> looks E M m anc (me_val e) (VNode sz ch) ->
  ch = map me_val (me_ch e) /\ (ch = [] -> me_size e = sz).
Proof.
  intros anc e sz ch B L. destruct (built_looks _ _ _ _ _ B) as [w [_ [L' X]]]. destruct (node_info _ _ _ _ _ _ _ L) as [i [HI K]].
  assert (NI : forall i', has_info d (me_val e) i' -> match i' with IBase _ _ | IEnum _ _ | IPointer _ => True | _ => False end -> False).
  { intros i' HI' K'. pose proof (has_info_fun _ _ _ _ HI HI') as <-. destruct i; contradiction. }
  destruct w as [|sz1|sz1 lv|sz1 chs|sz1 t|ca]; [contradiction| | | | |].
  - exfalso. inversion L' as [sz' i' I' K' S|sz' t P S|sz' t p P N1 N2 O H U S| | | | | | |]; subst.
    + apply (NI _ I'). destruct i'; try contradiction; exact Logic.I.
    + apply (NI _ (points_info _ _ _ _ _ P) Logic.I).
    + apply (NI _ (points_info _ _ _ _ _ P) Logic.I).
  - exfalso. inversion L' as [| | |sz' t p l' P N1 LA S| | | | | |]; subst. apply (NI _ (points_info _ _ _ _ _ P) Logic.I).
  - destruct X as [_ [-> [Fb G]]]. destruct (node_fun _ _ _ _ _ _ _ _ _ L L') as [-> ->]. split; [reflexivity|]. intro Q. apply map_eq_nil in Q. rewrite Q in G. cbn in G. congruence.
  - exfalso. inversion L' as [| | | |sz' p w T NL S| | | | |]; subst. destruct (target_points _ _ _ _ _ _ _ T) as [_ [t' P]]. apply (NI _ (points_info _ _ _ _ _ P) Logic.I).
  - exfalso. destruct (call_info _ _ _ _ _ _ L') as [i' [I' C']]. eapply node_not_call; eassumption.
Qed.
(** pointers: a leaf, a loop, a target *)
Lemma is_pointer : forall anc e t p, built_ok E M m anc e -> points d m (me_val e) t p ->
  (me_loop e = 0 /\ me_ch e = [] /\ (p <> 0 -> no_loop d m anc p) /\ (p = 0 \/ opaque d t /\ en_handler E m RQVST_pointer_array_count (me_val e :: anc) = Ret (0, None) /\ (mo_uptr M = UPTR_ignore \/ mo_uptr M = UPTR_as_values)))
  \/ (p <> 0 /\ me_ch e = [] /\ 0 < me_loop e /\ loop_at d m anc p (me_loop e))
  \/ (me_loop e = 0 /\ no_loop d m anc p /\ exists w c, target E M m anc (me_val e) p w /\ me_ch e = [c] /\ me_val c = w).
Proof.
  intros anc e t p B P. destruct (built_looks _ _ _ _ _ B) as [w [_ [L' X]]].
  destruct w as [|sz1|sz1 lv|sz1 chs|sz1 t0|ca]; [contradiction| | | | |].
  - left. destruct X as [_ [X1 X2]]. split; [exact X1|]. split; [exact X2|]. inversion L' as [sz' i' I' K' S|sz' t' P' S|sz' t' p' P' N1 N2 O H U S| | | | | | |]; subst.
    + pose proof (has_info_fun _ _ _ _ (points_info _ _ _ _ _ P) I') as <-. contradiction.
    + destruct (points_fun _ _ _ _ _ _ _ P P'). split; [contradiction|auto].
    + destruct (points_fun _ _ _ _ _ _ _ P P') as [<- <-]. split; [auto|right; auto].
  - right. left. destruct X as [_ [X1 X2]]. inversion L' as [| | |sz' t' p' l' P' N1 LA S| | | | | |]; subst. destruct (points_fun _ _ _ _ _ _ _ P P') as [<- <-].
    split; [exact N1|]. split; [exact X2|]. split; [|exact LA]. destruct LA as [pre [a [post [t'' [_ [-> _]]]]]]. lia.
  - exfalso. destruct (node_info _ _ _ _ _ _ _ L') as [i [HI K]]. pose proof (has_info_fun _ _ _ _ (points_info _ _ _ _ _ P) HI) as <-. contradiction.
  - right. right. destruct X as [_ [X1 [c [X2 [X3 X4]]]]]. inversion L' as [| | | |sz' p' w' T' NL' S| | | | |]; subst. destruct (target_points _ _ _ _ _ _ _ T') as [_ [t' P']].
    destruct (points_fun _ _ _ _ _ _ _ P P') as [_ <-]. split; [exact X1|]. split; [exact NL'|]. exists (me_val c), c. auto.
  - exfalso. eapply call_not_ptr; eassumption.
Qed.
Lemma no_target : forall anc v t p, points d m v t p -> (p = 0 \/ opaque d t /\ en_handler E m RQVST_pointer_array_count (v :: anc) = Ret (0, None) /\ (mo_uptr M = UPTR_ignore \/ mo_uptr M = UPTR_as_values)) ->
  forall q w, ~ target E M m anc v q w.
Proof.
  intros anc v t p P O q w T. destruct (target_points _ _ _ _ _ _ _ T) as [NZ [t' P']]. destruct (points_fun _ _ _ _ _ _ _ P P') as [<- <-].
  destruct O as [-> | [O [H U]]]; [contradiction|].
  inversion T as [t0 w0 P0 _ H0 _|t0 P0 _ H0 O0|t0 P0 _ H0 O0 U0]; subst; try congruence; [|destruct U; congruence].
  destruct (points_fun _ _ _ _ _ _ _ P P0) as [-> _]. contradiction.
Qed.
Definition alike_info (i1 i2 : info) : Prop :=
  match i1, i2 with
  | IBase _ _, IBase _ _ | IPointer _, IPointer _ | IEnum _ _, IEnum _ _ | IArray _ _, IArray _ _
  | IAggr AStruct _ _, IAggr AStruct _ _ | IAggr AUnion _ _, IAggr AUnion _ _
  | IParam true _, IParam true _ | ISubprogram _ _, ISubprogram _ _ | ISubroutine _ _, ISubroutine _ _ => True
  | _, _ => False
  end.
Lemma knd_alike : forall i1 i2, deep_info i1 -> deep_info i2 -> kind_of i1 = kind_of i2 -> alike_info i1 i2.
Proof.
  intros i1 i2 D1 D2 K. destruct i1 as [ | | | | | | | |[] ? ?| |[|] ?| | | ], i2 as [ | | | | | | | |[] ? ?| |[|] ?| | | ]; cbn in *; try contradiction; try discriminate; exact I.
Qed.

Hypothesis LO : local E m.
Hypothesis S1 : steady E M m v1.
Hypothesis S2 : steady E M m v2.

Lemma map_split : forall {A B} (f : A -> B) l pre a post, map f l = pre ++ a :: post ->
  exists pre' a' post', l = pre' ++ a' :: post' /\ map f pre' = pre /\ f a' = a /\ map f post' = post.
Proof.
  intros A B f l pre. revert l. induction pre as [|x pre IH]; intros [|y l] a post Q; try discriminate; cbn in Q; injection Q as Q1 Q2.
  - exists [], y, l. auto.
  - destruct (IH _ _ _ Q2) as [pre' [a' [post' [-> [<- [<- <-]]]]]]. exists (y :: pre'), a', post'. cbn. rewrite Q1. auto.
Qed.
Lemma split_len : forall {A} (pre pre' : list A) a a' post post', pre ++ a :: post = pre' ++ a' :: post' -> length pre = length pre' -> pre = pre' /\ a = a' /\ post = post'.
Proof.
  intros A pre. induction pre as [|x pre IH]; intros [|y pre'] a a' post post' Q L; try discriminate; cbn in Q; injection Q as Q1 Q2; [auto|].
  destruct (IH _ _ _ _ _ Q2) as [-> [-> ->]]; [cbn in L; congruence|]. subst. auto.
Qed.
(** an ancestor that is a pointer has one child, its target *)
Lemma up_target : forall l a i c t p, built_ok E M m (map me_val l) a -> nth_error (me_ch a) i = Some c -> points d m (me_val a) t p ->
  i = O /\ target E M m (map me_val l) (me_val a) p (me_val c).
Proof.
  intros l a i c t p B N P. destruct (is_pointer _ _ _ _ B P) as [[_ [Q _]]|[[_ [Q _]]|[_ [_ [w [c' [T [Q V]]]]]]]]; rewrite Q in N; try (destruct i; discriminate).
  destruct i as [|i]; cbn in N; [|destruct i; discriminate]. injection N as <-. subst w. auto.
Qed.

(** both point somewhere: the targets are in step somewhere in the trees *)
Lemma duo_target : forall l1 e1 l2 e2 p1 p2 w1 w2, duo l1 e1 l2 e2 ->
  target E M m (map me_val l1) (me_val e1) p1 w1 -> target E M m (map me_val l2) (me_val e2) p2 w2 ->
  exists k1 c1 k2 c2, duo k1 c1 k2 c2 /\ me_val c1 = w1 /\ me_val c2 = w2 /\
    (exists b k1', k1 = b :: k1' /\ is_ptr d m (me_val b)) /\ (exists b k2', k2 = b :: k2' /\ is_ptr d m (me_val b)) /\
    (no_loop d m (map me_val l1) p1 -> k1 = e1 :: l1 /\ k2 = e2 :: l2).
Proof.
  intros l1 e1 l2 e2 p1 p2 w1 w2 D T1 T2. destruct (duo_ok _ _ _ _ D) as [K1 [K2 [T [R1 [R2 Le]]]]].
  destruct (target_points _ _ _ _ _ _ _ T1) as [NZ1 [ty1 P1]]. destruct (target_points _ _ _ _ _ _ _ T2) as [NZ2 [ty2 P2]].
  destruct (tree_inv _ _ T) as [f1 [f2 [_ [_ [[_ [Lc [Lo _]]] _]]]]].
  destruct (is_pointer _ _ _ _ K1 P1) as [[_ [_ [_ O]]]|[[_ [_ [L1 LA1]]]|[L1 [NL1 [w [c1 [T1' [Q1 Vc1]]]]]]]]; [destruct (no_target _ _ _ _ P1 O _ _ T1)| |];
    (destruct (is_pointer _ _ _ _ K2 P2) as [[_ [_ [_ O]]]|[[_ [_ [L2 LA2]]]|[L2 [NL2 [w' [c2 [T2' [Q2 Vc2]]]]]]]]; [destruct (no_target _ _ _ _ P2 O _ _ T2)| |]); try lia.
  - destruct LA1 as [pre1 [a1 [post1 [ta1 [X1 [Y1 [Z1 _]]]]]]]. destruct LA2 as [pre2 [a2 [post2 [ta2 [X2 [Y2 [Z2 _]]]]]]].
    destruct (map_split _ _ _ _ _ X1) as [q1 [b1 [r1 [W1 [<- [<- <-]]]]]]. destruct (map_split _ _ _ _ _ X2) as [q2 [b2 [r2 [W2 [<- [<- <-]]]]]].
    destruct (duo_up _ _ _ _ D _ _ _ W1) as [q2' [b2' [r2' [W2' [Lq [D' [i [c1 [c2 [N1 N2]]]]]]]]]].
    rewrite !map_length in *. rewrite W2 in W2'. destruct (split_len _ _ _ _ _ _ W2') as [<- [<- <-]]; [lia|].
    destruct (duo_ok _ _ _ _ D') as [K1' [K2' _]]. destruct (up_target _ _ _ _ _ _ K1' N1 Z1) as [-> U1]. destruct (up_target _ _ _ _ _ _ K2' N2 Z2) as [_ U2].
    exists (b1 :: r1), c1, (b2 :: r2), c2. split; [eapply du_step; eassumption|]. split; [|split; [|split; [|split]]].
    + rewrite X1 in R1, T1. pose proof (S1 _ _ _ _ _ _ _ (reaches_sees _ _ _ _ _ _ R1) U1 P1) as Y. destruct (target_fun _ _ _ _ _ _ _ _ _ T1 Y). congruence.
    + rewrite X2 in R2, T2. pose proof (S2 _ _ _ _ _ _ _ (reaches_sees _ _ _ _ _ _ R2) U2 P2) as Y. destruct (target_fun _ _ _ _ _ _ _ _ _ T2 Y). congruence.
    + exists b1, r1. split; [reflexivity|]. exists ta1, p1. exact Z1.
    + exists b2, r2. split; [reflexivity|]. exists ta2, p2. exact Z2.
    + intro NL. exfalso. rewrite X1 in NL. apply (NL (me_val b1) ta1); [apply in_or_app; right; left; reflexivity|exact Z1].
  - destruct (target_fun _ _ _ _ _ _ _ _ _ T1 T1') as [_ ->]. destruct (target_fun _ _ _ _ _ _ _ _ _ T2 T2') as [_ ->].
    exists (e1 :: l1), c1, (e2 :: l2), c2. split; [eapply (du_step _ _ _ _ 0); [exact D|rewrite Q1; reflexivity|rewrite Q2; reflexivity]|].
    split; [exact Vc1|]. split; [exact Vc2|]. split; [|split]; [| |auto].
    + exists e1, l1. split; [reflexivity|]. exists ty1, p1. exact P1.
    + exists e2, l2. split; [reflexivity|]. exists ty2, p2. exact P2.
Qed.
Lemma same_ctx_sym : forall l l', same_ctx d m l l' -> same_ctx d m l' l.
Proof. intros l l' H. induction H; constructor; assumption. Qed.
Lemma both_duo : forall a1 x1 a2 x2, both E M m v1 v2 a1 x1 a2 x2 -> exists l1 e1 l2 e2, duo l1 e1 l2 e2 /\ me_val e1 = x1 /\ me_val e2 = x2 /\
  same_ctx d m a1 (map me_val l1) /\ same_ctx d m a2 (map me_val l2) /\ (reaches E M m v1 a1 x1 -> map me_val l1 = a1 /\ map me_val l2 = a2).
Proof.
  intros a1 x1 a2 x2 H. induction H as [|a1 x1 a2 x2 s1 c1 s2 c2 i y1 y2 H IH L1 L2 N1 N2|a1 x1 a2 x2 p1 p2 y1 y2 H IH T1 T2|a1 x1 a2 x2 c1 c2 i y1 y2 H IH L1 L2 N1 N2].
  - exists [], t1, [], t2. split; [apply du_top|]. repeat split; auto using sc_nil.
  - destruct IH as [l1 [e1 [l2 [e2 [D [<- [<- [C1 [C2 Re]]]]]]]]]. destruct (duo_ok _ _ _ _ D) as [K1 [K2 _]].
    pose proof (node_local _ _ _ _ _ _ _ _ LO C1 L1) as L1'. pose proof (node_local _ _ _ _ _ _ _ _ LO C2 L2) as L2'.
    destruct (is_node _ _ _ _ K1 L1') as [-> _]. destruct (is_node _ _ _ _ K2 L2') as [-> _].
    destruct (nth_error (me_ch e1) i) as [d1|] eqn:M1; [|rewrite nth_error_map, M1 in N1; discriminate].
    destruct (nth_error (me_ch e2) i) as [d2|] eqn:M2; [|rewrite nth_error_map, M2 in N2; discriminate].
    rewrite nth_error_map, M1 in N1. rewrite nth_error_map, M2 in N2. cbn in N1, N2. injection N1 as <-. injection N2 as <-.
    exists (e1 :: l1), d1, (e2 :: l2), d2. split; [eapply du_step; eassumption|]. split; [reflexivity|]. split; [reflexivity|].
    split; [apply sc_cons; exact C1|]. split; [apply sc_cons; exact C2|]. intro R. inversion R as [|anc x sz ch y R' L I|anc x sz y R' L|anc x la y R' L I]; subst.
    + destruct (Re R') as [<- <-]. split; reflexivity.
    + destruct (Re R') as [<- <-]. split; reflexivity.
    + destruct (Re R') as [<- <-]. split; reflexivity.
  - destruct IH as [l1 [e1 [l2 [e2 [D [<- [<- [C1 [C2 Re]]]]]]]]].
    pose proof (target_local _ _ _ _ _ _ _ _ LO C1 T1) as T1'. pose proof (target_local _ _ _ _ _ _ _ _ LO C2 T2) as T2'.
    destruct (duo_target _ _ _ _ _ _ _ _ D T1' T2') as [k1 [c1 [k2 [c2 [D' [Vc1 [Vc2 [[b1 [k1' [-> I1]]] [[b2 [k2' [-> I2]]] NL]]]]]]]]].
    exists (b1 :: k1'), c1, (b2 :: k2'), c2. split; [exact D'|]. split; [exact Vc1|]. split; [exact Vc2|].
    split; [apply sc_ptr; [eapply target_ptr; exact T1|exact I1]|]. split; [apply sc_ptr; [eapply target_ptr; exact T2|exact I2]|].
    intro R. inversion R as [|anc x sz ch y R' L I|anc x sz y R' L|anc x la y R' L I]; subst.
    + destruct (node_info _ _ _ _ _ _ _ L) as [i [HI K]]. destruct (target_points _ _ _ _ _ _ _ T1) as [_ [t' P]].
      pose proof (has_info_fun _ _ _ _ (points_info _ _ _ _ _ P) HI) as <-. contradiction.
    + specialize (Re R'). inversion L as [| | | |sz' p' w' T' NL' S| | | | |]; subst. destruct (target_fun _ _ _ _ _ _ _ _ _ T1 T') as [<- _].
      destruct Re as [<- <-]. destruct (NL NL') as [-> ->]. split; reflexivity.
    + destruct (target_points _ _ _ _ _ _ _ T1) as [_ [t' P]]. exfalso. eapply call_not_ptr; eassumption.
  - destruct IH as [l1 [e1 [l2 [e2 [D [<- [<- [C1 [C2 Re]]]]]]]]]. destruct (duo_ok _ _ _ _ D) as [K1 [K2 _]].
    pose proof (call_local _ _ _ _ (map me_val l1) _ _ L1) as L1'. pose proof (call_local _ _ _ _ (map me_val l2) _ _ L2) as L2'.
    destruct (built_call _ _ _ _ _ _ K1 L1') as [-> _]. destruct (built_call _ _ _ _ _ _ K2 L2') as [-> _].
    destruct (nth_error (me_ch e1) i) as [d1|] eqn:M1; [|rewrite nth_error_map, M1 in N1; discriminate].
    destruct (nth_error (me_ch e2) i) as [d2|] eqn:M2; [|rewrite nth_error_map, M2 in N2; discriminate].
    rewrite nth_error_map, M1 in N1. rewrite nth_error_map, M2 in N2. cbn in N1, N2. injection N1 as <-. injection N2 as <-.
    exists (e1 :: l1), d1, (e2 :: l2), d2. split; [eapply du_step; eassumption|]. split; [reflexivity|]. split; [reflexivity|].
    split; [apply sc_cons; exact C1|]. split; [apply sc_cons; exact C2|]. intro R. inversion R as [|anc x sz ch y R' L I|anc x sz y R' L|anc x la y R' L I]; subst;
      destruct (Re R') as [<- <-]; split; reflexivity.
Qed.
Lemma extent_local : forall anc v z, extent E M m anc v z -> forall anc', same_ctx d m anc anc' -> extent E M m anc' v z.
Proof.
  apply (extent_ind2 E M m (fun anc v z => forall anc', same_ctx d m anc anc' -> extent E M m anc' v z)).
  - intros anc v sz i I K S anc' C. eapply ex_whole; eassumption.
  - intros anc v sz ch zs L F IH anc' C. apply ex_parts; [eapply node_local; eassumption|]. clear F L.
    induction IH as [|x z ch zs P F IH]; constructor; [apply P; apply sc_cons; exact C|exact IH].
  - intros anc v i I K anc' C. eapply ex_call; eassumption.
Qed.
Lemma word_range : forall k a, 0 <= k -> 0 <= number_at m a (Z.to_nat k) < 2 ^ (8 * k).
Proof. intros k a K. pose proof (number_range m a (Z.to_nat k) BO) as R. rewrite Z2Nat.id in R by exact K. exact R. Qed.
Lemma ct_table : forall c, exists name encs sg, In (c, (name, encs, ct_size c, sg)) c_types.
Proof. intro c. destruct c; cbn; eauto 30. Qed.
Lemma c_integer_not : forall c, ~ c_integer c -> is_integer c = false.
Proof. intros c H. unfold c_integer in H. destruct c; cbn in *; try reflexivity; exfalso; apply H; tauto. Qed.
Lemma base_alike : forall x1 x2, value_equal_base_type feq n d g m x1 x2 = Ret 1 -> exists k name encs w sg, In (k, (name, encs, w, sg)) c_types /\
    has_ctype d x1 k /\ has_ctype d x2 k /\
    (plain d x1 -> plain d x2 ->
       (c_integer k -> number_at m (v_addr x1) (Z.to_nat w) = number_at m (v_addr x2) (Z.to_nat w)) /\
       (~ c_integer k -> feq k (number_at m (v_addr x1) (Z.to_nat w)) (number_at m (v_addr x2) (Z.to_nat w)) = true)).
Proof.
  intros x1 x2 H. destruct (eq_base_inv _ _ _ _ _ _ _ H) as [c [x [y [_ [A1 [A2 [G1 [G2 Q]]]]]]]]; [lia|].
  destruct (c_equal feq c x y) eqn:CE; [|discriminate]. destruct (ct_table c) as [name [encs [sg T]]]. exists c, name, encs, (ct_size c), sg.
  apply value_get_sound in G1. apply value_get_sound in G2. destruct G1 as [H1 G1], G2 as [H2 G2].
  split; [exact T|]. split; [exact H1|]. split; [exact H2|]. intros P1 P2. specialize (G1 P1). specialize (G2 P2). subst x y. pose proof (ct_size_pos c).
  unfold c_equal in CE. split; intro CI.
  - rewrite (c_integer_dec _ CI) in CE. apply ct_number_inj with (c := c); [apply word_range; lia|apply word_range; lia|lia].
  - rewrite (c_integer_not _ CI) in CE. exact CE.
Qed.
Lemma enum_size_of : forall v x, value_enumeration n d m v = Ret (inr x) -> exists w, In w [1; 2; 4; 8] /\ size_of d v w /\ x = as_signed (8 * w) (number_at m (v_addr v) (Z.to_nat w)).
Proof.
  intros v x H. unfold value_enumeration in H. destruct (final_if n d (Some (v_entry v)) is_enum_info) as [[e|]| | |] eqn:F; try discriminate. cbn [bind] in H.
  apply final_if_some in F. destruct F as [F _]. apply bind_ret in H. destruct H as [[z|z] [S H]]; [|discriminate]. destruct (is_word z) eqn:W; [|discriminate].
  apply word_iff in W. injection H as <-. exists z. split; [unfold word in W; cbn; lia|]. split.
  - apply byte_size_spec in S. destruct S as [z0 [S ->]]. exists z0. split; [|reflexivity]. destruct F as [qs F]. eapply size_of_final; eassumption.
  - rewrite load_number. apply swrap_signed; [unfold word in W; lia|]. apply word_range. unfold word in W; lia.
Qed.
Lemma as_signed_inj : forall w x y, 0 < w -> 0 <= x < 2 ^ w -> 0 <= y < 2 ^ w -> as_signed w x = as_signed w y -> x = y.
Proof.
  intros w x y W X Y H. rewrite <- !swrap_signed in H by assumption. rewrite <- (Z.mod_small x (2 ^ w)) by auto. rewrite <- (Z.mod_small y (2 ^ w)) by auto.
  rewrite <- (swrap_mod w x), <- (swrap_mod w y) by lia. congruence.
Qed.
Lemma mem_equal_all : forall k a b, mem_equal m a b k = true -> forall i, 0 <= i < Z.of_nat k -> m (a + i) = m (b + i).
Proof.
  induction k as [|k IH]; intros a b H i R; [lia|]. cbn [mem_equal] in H. apply andb_prop in H. destruct H as [H1 H2].
  destruct (Z.eq_dec i 0) as [->|N]; [rewrite !Z.add_0_r; lia|]. specialize (IH _ _ H2 (i - 1)). replace (a + 1 + (i - 1)) with (a + i) in IH by lia. replace (b + 1 + (i - 1)) with (b + i) in IH by lia. apply IH. lia.
Qed.
Lemma leaf_one : forall r, leaf_result r = (false, true) -> (r = 0 \/ r = 1) -> r = 1.
Proof. intros r H [-> | ->]; [discriminate|reflexivity]. Qed.

Lemma duo_alike : forall l1 e1 l2 e2 a1 a2, duo l1 e1 l2 e2 -> same_ctx d m a1 (map me_val l1) -> same_ctx d m a2 (map me_val l2) ->
  alike E M feq m a1 (me_val e1) a2 (me_val e2).
Proof.
  intros l1 e1 l2 e2 a1 a2 D C1 C2. destruct (duo_ok _ _ _ _ D) as [K1 [K2 [T [R1 [R2 Le]]]]].
  destruct (tree_inv _ _ T) as [f1 [f2 [F1 [F2 [[Hs [Lc [Lo [_ Kn]]]] Bd]]]]].
  destruct (built_info _ _ _ _ _ K1) as [i1 [F1' D1]]. destruct (built_info _ _ _ _ _ K2) as [i2 [F2' D2]].
  rewrite F1' in F1. injection F1 as <-. rewrite F2' in F2. injection F2 as <-. cbn [knd] in Kn.
  pose proof (final_info_some _ _ _ F1') as I1. pose proof (final_info_some _ _ _ F2') as I2.
  pose proof (knd_alike _ _ D1 D2 Kn) as AI. pose proof (same_ctx_sym _ _ C1) as C1'. pose proof (same_ctx_sym _ _ C2) as C2'.
  assert (NI : forall i, has_info d (me_val e1) i -> i1 = i) by (intros i I; eapply has_info_fun; eassumption).
  assert (TG : forall p1 w1 t2 p2, target E M m (map me_val l1) (me_val e1) p1 w1 -> points d m (me_val e2) t2 p2 -> exists p w, target E M m (map me_val l2) (me_val e2) p w).
  { intros p1 w1 ty2 p2 T1 P2. destruct (target_points _ _ _ _ _ _ _ T1) as [NZ1 [ty1 P1]].
    destruct (is_pointer _ _ _ _ K1 P1) as [[_ [_ [_ O]]]|[[_ [_ [L1 LA1]]]|[L1 [NL1 [w [c1 [T1' [Q1 Vc1]]]]]]]]; [destruct (no_target _ _ _ _ P1 O _ _ T1)| |].
    - destruct (is_pointer _ _ _ _ K2 P2) as [[X _]|[[_ [_ [L2 LA2]]]|[X _]]]; [lia| |lia].
      destruct LA1 as [pre1 [b1 [post1 [ta1 [X1 [Y1 [Z1 _]]]]]]]. destruct LA2 as [pre2 [b2 [post2 [ta2 [X2 [Y2 [Z2 _]]]]]]].
      destruct (map_split _ _ _ _ _ X1) as [q1 [u1 [r1 [W1 [<- [<- <-]]]]]]. destruct (map_split _ _ _ _ _ X2) as [q2 [u2 [r2 [W2 [<- [<- <-]]]]]].
      destruct (duo_up _ _ _ _ D _ _ _ W1) as [q2' [u2' [r2' [W2' [Lq [D' [i [c1 [c2 [N1 N2]]]]]]]]]].
      rewrite !map_length in *. rewrite W2 in W2'. destruct (split_len _ _ _ _ _ _ W2') as [<- [<- <-]]; [lia|].
      destruct (duo_ok _ _ _ _ D') as [_ [K2' _]]. destruct (up_target _ _ _ _ _ _ K2' N2 Z2) as [_ U2].
      rewrite X2 in R2 |- *. exists p2, (me_val c2). exact (S2 _ _ _ _ _ _ _ (reaches_sees _ _ _ _ _ _ R2) U2 P2).
    - destruct (is_pointer _ _ _ _ K2 P2) as [[_ [X _]]|[[_ [X _]]|[_ [_ [w' [c2 [T2' _]]]]]]]; [rewrite Q1, X in Lc; discriminate|rewrite Q1, X in Lc; discriminate|].
      exists p2, w'. exact T2'. }
  assert (TG' : forall p2 w2 t1 p1, target E M m (map me_val l2) (me_val e2) p2 w2 -> points d m (me_val e1) t1 p1 -> exists p w, target E M m (map me_val l1) (me_val e1) p w).
  { intros p2 w2 ty1 p1 T2 P1. destruct (target_points _ _ _ _ _ _ _ T2) as [NZ2 [ty2 P2]].
    destruct (is_pointer _ _ _ _ K2 P2) as [[_ [_ [_ O]]]|[[_ [_ [L2 LA2]]]|[L2 [NL2 [w [c2 [T2' [Q2 Vc2]]]]]]]]; [destruct (no_target _ _ _ _ P2 O _ _ T2)| |].
    - destruct (is_pointer _ _ _ _ K1 P1) as [[X _]|[[_ [_ [L1 LA1]]]|[X _]]]; [lia| |lia].
      destruct LA1 as [pre1 [b1 [post1 [ta1 [X1 [Y1 [Z1 _]]]]]]].
      destruct (map_split _ _ _ _ _ X1) as [q1 [u1 [r1 [W1 [<- [<- <-]]]]]].
      destruct (duo_up _ _ _ _ D _ _ _ W1) as [q2' [u2' [r2' [W2' [Lq [D' [i [c1 [c2 [N1 N2]]]]]]]]]].
      destruct (duo_ok _ _ _ _ D') as [K1' _]. destruct (up_target _ _ _ _ _ _ K1' N1 Z1) as [_ U1].
      rewrite X1 in R1 |- *. exists p1, (me_val c1). exact (S1 _ _ _ _ _ _ _ (reaches_sees _ _ _ _ _ _ R1) U1 P1).
    - destruct (is_pointer _ _ _ _ K1 P1) as [[_ [X _]]|[[_ [X _]]|[_ [_ [w' [c1 [T1' _]]]]]]]; [rewrite Q2, X in Lc; discriminate|rewrite Q2, X in Lc; discriminate|].
      exists p1, w'. exact T1'. }
  constructor.
  - exists i1, i2. auto.
  - exists (me_size e1). split; [eapply extent_local; [apply built_extent; exact K1|exact C1']|]. rewrite Hs. eapply extent_local; [apply built_extent; exact K2|exact C2'].
  - intros z c I. rewrite (NI _ I) in *. destruct i2; try contradiction. unfold body in Bd. apply base_alike.
    destruct Bd as [Bd|[Bd _]]; apply bind_ret in Bd; destruct Bd as [r [Bd H]]; [|discriminate].
    injection H as H. pose proof (leaf_result_good _ _ H) as [RP RN]. rewrite Bd. f_equal.
    destruct (eq_base_inv _ _ _ _ _ _ _ Bd RP) as [c' [x [y [_ [_ [_ [_ [_ Q]]]]]]]]. apply leaf_one; [exact H|]. destruct (c_equal feq c' x y); auto.
  - intros z l I. rewrite (NI _ I) in *. destruct i2; try contradiction. unfold body in Bd.
    destruct Bd as [Bd|[Bd _]]; apply bind_ret in Bd; destruct Bd as [r [Bd H]]; [|discriminate].
    injection H as H. pose proof (leaf_result_good _ _ H) as [RP RN].
    destruct (enum_eq_inv _ _ _ _ _ Bd RP) as [x [y [X [Y Q]]]]. destruct (enum_size_of _ _ X) as [w [W [SW ->]]]. destruct (enum_size_of _ _ Y) as [w' [W' [SW' ->]]].
    assert (w = w').
    { assert (Z1 : extent E M m (map me_val l1) (me_val e1) w) by (eapply ex_whole; [exact I1|exact Logic.I|exact SW]).
      assert (Z2 : extent E M m (map me_val l2) (me_val e2) w') by (eapply ex_whole; [exact I2|exact Logic.I|exact SW']).
      pose proof (extent_fun E M m LO _ _ _ (built_extent _ _ _ _ _ K1) _ _ (same_ctx_refl _ _ _) Z1).
      pose proof (extent_fun E M m LO _ _ _ (built_extent _ _ _ _ _ K2) _ _ (same_ctx_refl _ _ _) Z2). congruence. }
    subst w'. exists w. split; [exact W|]. split; [exact SW|]. split; [exact SW'|].
    assert (0 < w) by (cbn in W; lia). apply (as_signed_inj (8 * w)); [lia|apply word_range; lia|apply word_range; lia|].
    destruct (_ =? _) eqn:QQ in Q; [lia|]. subst r. discriminate.
  - intros s1 c1 L1. pose proof (node_local _ _ _ _ _ _ _ _ LO C1 L1) as L1'. destruct (is_node _ _ _ _ K1 L1') as [-> _].
    destruct (built_looks _ _ _ _ _ K2) as [w [_ [L X]]]. destruct (node_info _ _ _ _ _ _ _ L1) as [i [I K]]. apply NI in I. subst i.
    assert (NP : forall t, i2 <> IPointer t) by (intros t ->; destruct i1 as [ | | | | | | | |[] ? ?| |[|] ?| | | ]; cbn in *; contradiction).
    assert (NP' : forall t p, points d m (me_val e2) t p -> False) by (intros t p P; apply (NP t); eapply has_info_fun; [exact I2|apply (points_info _ _ _ _ _ P)]).
    destruct w as [|sz1|sz1 lv|sz1 chs|sz1 t0|ca]; [contradiction| | | | |].
    + exfalso. inversion L as [sz' i' I' K' S|sz' t' P' S|sz' t' p' P' N1 N2 O H U S| | | | | | |]; subst; [|eapply NP'; exact P'|eapply NP'; exact P'].
      pose proof (has_info_fun _ _ _ _ I2 I') as Q. subst i'. destruct i1 as [ | | | | | | | |[] ? ?| |[|] ?| | | ], i2 as [ | | | | | | | |[] ? ?| |[|] ?| | | ]; cbn in *; contradiction.
    + exfalso. inversion L as [| | |sz' t' p' l' P' N1 LA S| | | | | |]; subst. eapply NP'; exact P'.
    + exists sz1, chs. split; [eapply node_local; eassumption|]. destruct X as [_ [-> _]]. rewrite !map_length. exact Lc.
    + exfalso. inversion L as [| | | |sz' p' w' T' NL' S| | | | |]; subst. destruct (target_points _ _ _ _ _ _ _ T') as [_ [t' P']]. eapply NP'; exact P'.
    + exfalso. destruct (call_info _ _ _ _ _ _ L) as [i' [I' C']]. pose proof (has_info_fun _ _ _ _ I2 I') as Q. subst i'.
      destruct i1 as [ | | | | | | | |[] ? ?| |[|] ?| | | ], i2 as [ | | | | | | | |[] ? ?| |[|] ?| | | ]; cbn in *; contradiction.
  - intros c1 L1. pose proof (call_local _ _ _ _ (map me_val l1) _ _ L1) as L1'. destruct (built_call _ _ _ _ _ _ K1 L1') as [-> _].
    destruct (call_info _ _ _ _ _ _ L1) as [i [I K]]. apply NI in I. subst i.
    assert (CA : callable i2). { destruct i1 as [ | | | | | | | |[] ? ?| |[|] ?| | | ], i2 as [ | | | | | | | |[] ? ?| |[|] ?| | | ]; cbn in *; try contradiction; exact I. }
    destruct (built_looks _ _ _ _ _ K2) as [w [_ [L X]]].
    assert (NO : forall i, has_info d (me_val e2) i -> ~ callable i -> False) by (intros i I N; pose proof (has_info_fun _ _ _ _ I2 I) as <-; exact (N CA)).
    destruct w as [|sz1|sz1 lv|sz1 chs|sz1 t0|ca]; [contradiction| | | | |].
    + exfalso. inversion L as [sz' i' I' K' S|sz' t' P' S|sz' t' p' P' N1 N2 O H U S| | | | | | |]; subst;
        [eapply NO; [exact I'|destruct i'; try contradiction; intros []]|eapply NO; [apply (points_info _ _ _ _ _ P')|intros []]|eapply NO; [apply (points_info _ _ _ _ _ P')|intros []]].
    + exfalso. inversion L as [| | |sz' t' p' l' P' N1 LA S| | | | | |]; subst. eapply NO; [apply (points_info _ _ _ _ _ P')|intros []].
    + exfalso. eapply node_not_call; eassumption.
    + exfalso. inversion L as [| | | |sz' p' w' T' NL' S| | | | |]; subst. destruct (target_points _ _ _ _ _ _ _ T') as [_ [t' P']]. eapply NO; [apply (points_info _ _ _ _ _ P')|intros []].
    + exists ca. split; [eapply call_local; eassumption|]. destruct X as [_ [_ [-> _]]]. rewrite !map_length. exact Lc.
  - intros z l s UM I L i R. rewrite (NI _ I) in *. destruct i2 as [ | | | | | | | |[]| | | | | ]; try contradiction. unfold body in Bd. rewrite UM in Bd.
    pose proof (node_local _ _ _ _ _ _ _ _ LO C1 L) as L'. destruct (is_node _ _ _ _ K1 L') as [Q Qs]. symmetry in Q. apply map_eq_nil in Q. rewrite Q in Bd. rewrite (Qs eq_refl) in Bd.
    destruct (mem_equal m (v_addr (me_val e1)) (v_addr (me_val e2)) (Z.to_nat s)) eqn:ME.
    + eapply mem_equal_all; [exact ME|]. lia.
    + exfalso. assert (0 <? s = true) as HS by lia. rewrite HS in Bd. cbn in Bd. destruct Bd as [Bd|[Bd _]]; discriminate.
  - split; intros [p [w X]].
    + pose proof (target_local _ _ _ _ _ _ _ _ LO C1 X) as X'. destruct (target_points _ _ _ _ _ _ _ X) as [_ [ty P]]. pose proof (NI _ (points_info _ _ _ _ _ P)). subst i1.
      destruct i2 as [ | | |ty2| | | | | | | | | | ]; try contradiction. destruct (TG _ _ ty2 _ X' (conj I2 eq_refl)) as [p' [w' Y]]. exists p', w'. eapply target_local; eassumption.
    + pose proof (target_local _ _ _ _ _ _ _ _ LO C2 X) as X'. destruct (target_points _ _ _ _ _ _ _ X) as [_ [ty P]].
      pose proof (has_info_fun _ _ _ _ I2 (points_info _ _ _ _ _ P)). subst i2.
      destruct i1 as [ | | |ty1| | | | |[]| |[|] ?| | | ]; try contradiction. destruct (TG' _ _ ty1 _ X' (conj I1 eq_refl)) as [p' [w' Y]]. exists p', w'. eapply target_local; eassumption.
  - intros ty1 p1 ty2 p2 U P1 P2. pose proof (NI _ (points_info _ _ _ _ _ P1)). subst i1. pose proof (has_info_fun _ _ _ _ I2 (points_info _ _ _ _ _ P2)). subst i2.
    unfold body in Bd.
    destruct (is_pointer _ _ _ _ K1 P1) as [[L1 [Q1 [_ O1]]]|[[NZ1 [Q1 [L1 _]]]|[L1 [_ [w1 [c1 [T1 [Q1 _]]]]]]]];
    destruct (is_pointer _ _ _ _ K2 P2) as [[L2 [Q2 [_ O2]]]|[[NZ2 [Q2 [L2 _]]]|[L2 [_ [w2 [c2 [T2 [Q2 _]]]]]]]]; try (rewrite Q1, Q2 in Lc; discriminate); try lia.
    + rewrite Q1 in Bd. destruct (mo_uptr M) eqn:UM; [| contradiction | |].
      * destruct O1 as [-> | [_ [_ [O1|O1]]]]; try discriminate. destruct O2 as [-> | [_ [_ [O2|O2]]]]; try discriminate. tauto.
      * destruct Bd as [Bd|[Bd _]]; apply bind_ret in Bd; destruct Bd as [r [Bd H]]; [|discriminate]. injection H as H. pose proof (leaf_result_good _ _ H) as [RP RN].
        destruct (ptr_eq_inv _ _ _ _ _ Bd RP) as [x [y [X [Y Q]]]]. apply pointer_ret in X. apply pointer_ret in Y. destruct X as [tx X], Y as [ty Y].
        destruct (points_fun _ _ _ _ _ _ _ P1 X) as [_ ->]. destruct (points_fun _ _ _ _ _ _ _ P2 Y) as [_ ->]. destruct (x =? y) eqn:QQ; [lia|]. subst r. discriminate.
      * destruct O1 as [-> | [_ [_ [O1|O1]]]]; try discriminate. destruct O2 as [-> | [_ [_ [O2|O2]]]]; try discriminate. tauto.
    + destruct (target_points _ _ _ _ _ _ _ T1). destruct (target_points _ _ _ _ _ _ _ T2). tauto.
  - intros ty1 p1 ty2 p2 U NT P1 P2. pose proof (NI _ (points_info _ _ _ _ _ P1)). subst i1. pose proof (has_info_fun _ _ _ _ I2 (points_info _ _ _ _ _ P2)). subst i2.
    unfold body in Bd. rewrite U in Bd. destruct (is_pointer _ _ _ _ K1 P1) as [[L1 [Q1 _]]|[[NZ1 [Q1 [L1 _]]]|[L1 [_ [w1 [c1 [T1 [Q1 _]]]]]]]].
    3: { exfalso. apply (NT p1 w1). eapply target_local; eassumption. }
    all: rewrite Q1 in Bd; destruct Bd as [Bd|[Bd _]]; apply bind_ret in Bd; destruct Bd as [r [Bd H]]; [|discriminate]; injection H as H; pose proof (leaf_result_good _ _ H) as [RP RN];
      destruct (ptr_eq_inv _ _ _ _ _ Bd RP) as [x [y [X [Y Q]]]]; apply pointer_ret in X; apply pointer_ret in Y; destruct X as [tx X], Y as [ty Y];
      destruct (points_fun _ _ _ _ _ _ _ P1 X) as [_ ->]; destruct (points_fun _ _ _ _ _ _ _ P2 Y) as [_ ->]; destruct (x =? y) eqn:QQ; [lia|]; subst r; discriminate.
Qed.
Lemma duo_loops : forall l1 e1 l2 e2 ty1 p1 ty2 p2, duo l1 e1 l2 e2 -> points d m (me_val e1) ty1 p1 -> points d m (me_val e2) ty2 p2 -> p1 <> 0 -> p2 <> 0 ->
  forall l, loop_at d m (map me_val l1) p1 l <-> loop_at d m (map me_val l2) p2 l.
Proof.
  intros l1 e1 l2 e2 ty1 p1 ty2 p2 D P1 P2 NZ1 NZ2 l. destruct (duo_ok _ _ _ _ D) as [K1 [K2 [T [R1 [R2 Le]]]]].
  destruct (tree_inv _ _ T) as [f1 [f2 [F1 [F2 [[Hs [Lc [Lo [_ Kn]]]] Bd]]]]].
  assert (X1 : forall l, loop_at d m (map me_val l1) p1 l <-> 0 < me_loop e1 /\ l = me_loop e1).
  { intro k. destruct (is_pointer _ _ _ _ K1 P1) as [[L1 [Q1 [NL O1]]]|[[_ [Q1 [L1 LA]]]|[L1 [NL _]]]].
    - split; [intro LA; destruct (loop_excl _ _ _ _ _ (NL NZ1) LA)|intros [? ?]; lia].
    - split; [intro LA'; split; [exact L1|eapply loop_fun; eassumption]|intros [_ ->]; exact LA].
    - split; [intro LA; destruct (loop_excl _ _ _ _ _ NL LA)|intros [? ?]; lia]. }
  assert (X2 : forall l, loop_at d m (map me_val l2) p2 l <-> 0 < me_loop e2 /\ l = me_loop e2).
  { intro k. destruct (is_pointer _ _ _ _ K2 P2) as [[L1 [Q1 [NL O1]]]|[[_ [Q1 [L1 LA]]]|[L1 [NL _]]]].
    - split; [intro LA; destruct (loop_excl _ _ _ _ _ (NL NZ2) LA)|intros [? ?]; lia].
    - split; [intro LA'; split; [exact L1|eapply loop_fun; eassumption]|intros [_ ->]; exact LA].
    - split; [intro LA; destruct (loop_excl _ _ _ _ _ NL LA)|intros [? ?]; lia]. }
  rewrite X1, X2, Lo. reflexivity.
Qed.
End Sound.

Lemma equal_sound : forall E M feq k m v1 v2, bytes_ok m -> local E m -> steady E M m v1 -> steady E M m v2 -> equal_ex E M feq k m v1 v2 = Ret 1 ->
  forall a1 x1 a2 x2, both E M m v1 v2 a1 x1 a2 x2 -> alike E M feq m a1 x1 a2 x2 /\
    (reaches E M m v1 a1 x1 -> reaches E M m v2 a2 x2 /\ forall t1 p1 t2 p2, points (en_db E) m x1 t1 p1 -> points (en_db E) m x2 t2 p2 -> p1 <> 0 -> p2 <> 0 ->
       forall l, loop_at (en_db E) m a1 p1 l <-> loop_at (en_db E) m a2 p2 l).
Proof.
  intros E M feq k m v1 v2 BO LO S1 S2 H a1 x1 a2 x2 B. destruct (equal_ex_inv _ _ _ _ _ _ _ _ H) as [Q|[m1 [m2 [A1 [A2 [f [c [T Q]]]]]]]]; [discriminate|].
  destruct f; [discriminate|]. destruct c; [|discriminate].
  destruct (map_built _ _ _ _ _ _ A1) as [B1 V1 _ _ _ _ _ _]. destruct (map_built _ _ _ _ _ _ A2) as [B2 V2 _ _ _ _ _ _].
  destruct (both_duo E M feq m v1 v2 (mm_off m1) (mm_off m2) _ _ V1 V2 B1 B2 T LO S1 S2 _ _ _ _ B) as [l1 [e1 [l2 [e2 [D [<- [<- [C1 [C2 Re]]]]]]]]].
  split; [eapply (duo_alike E M feq m v1 v2 (mm_off m1) (mm_off m2)); eassumption|].
  intro R. destruct (Re R) as [<- <-]. destruct (duo_ok E M feq m v1 v2 (mm_off m1) (mm_off m2) _ _ V1 V2 B1 B2 T _ _ _ _ D) as [_ [_ [_ [_ [R2 _]]]]].
  split; [exact R2|]. intros t1 p1 t2 p2 P1 P2 N1 N2 l. eapply (duo_loops E M feq m v1 v2 (mm_off m1) (mm_off m2)); eassumption.
Qed.

(** Without handlers. *)
Lemma plain_steady : forall E M m l v, en_handler E = no_handler -> mo_uptr M = UPTR_fail -> closed E M m l -> In v l ->
  (forall x y sz sz' w w', In x l -> In y l -> look E M m [] x = Ret (VPtr sz w) -> look E M m [] y = Ret (VPtr sz' w') ->
     number_at m (v_addr x) 8 = number_at m (v_addr y) 8 -> w = w') -> steady E M m v.
Proof.
  intros E M m l v NH U C V K p pre a post x w t S T P.
  destruct (closed_sees E M NH m v l C V _ _ S) as [Ix Ia].
  assert (Ja : In a l) by (apply Ia; apply in_or_app; right; left; reflexivity). unfold closed in C. rewrite Forall_forall in C.
  apply (plain_target E M NH _ _ []) in T. destruct (C _ Ja) as [wa [La [Na _]]]. destruct (C _ Ix) as [wx [Lx [Nx _]]].
  destruct (view_target _ _ _ _ _ _ _ La Na T) as [[sz ->] Qp]. destruct (target_points _ _ _ _ _ _ _ T) as [NZ _].
  assert (QQ : number_at m (v_addr a) 8 = number_at m (v_addr x) 8) by (destruct P; congruence). clear Qp.
  pose proof (look_sound _ _ _ _ _ _ Lx Nx) as L'. destruct wx as [|sz1|sz1 lv|sz1 chs|sz1 t1|ca]; [congruence| | | | |].
  - exfalso. inversion L' as [sz' i' I' K' S0|sz' t' P' S0|sz' t' p' P' N1 N2 O H U' S0| | | | | | |]; subst.
    + pose proof (has_info_fun _ _ _ _ (points_info _ _ _ _ _ P) I') as <-. contradiction.
    + destruct (points_fun _ _ _ _ _ _ _ P P'). congruence.
    + destruct U'; congruence.
  - exfalso. inversion L' as [| | |sz' t' p' l' P' N1 LA S0| | | | | |]; subst. destruct LA as [pre' [a' [post' [tx [Q _]]]]]. destruct pre'; discriminate.
  - exfalso. destruct (node_info _ _ _ _ _ _ _ L') as [i [HI K']]. pose proof (has_info_fun _ _ _ _ (points_info _ _ _ _ _ P) HI) as <-. contradiction.
  - inversion L' as [| | | |sz' p' w' T' NL' S0| | | | |]; subst. destruct (target_points _ _ _ _ _ _ _ T') as [_ [t' P']]. destruct (points_fun _ _ _ _ _ _ _ P P') as [_ <-].
    rewrite (K a x _ _ _ _ Ja Ix La Lx QQ). eapply plain_target; eassumption.
  - exfalso. eapply call_not_ptr; eassumption.
Qed.
