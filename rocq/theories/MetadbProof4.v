(** Merging of types (C67): signatures over the graph. *)
From Coq Require Import ZArith String Ascii List Bool Lia.
From Verif Require Import Base MetadbModel MetadbSpec MetadbProof MetadbProof2 MetadbProof3.
Import ListNotations.
Open Scope string_scope.

Section Graph.
Variable G : nat -> option object.
Hypothesis GO : graph_ok G.
Definition same (i : nat) : nat := i.
(** the signatures before any merging *)
Definition sg (c : bool) (i : nat) (s : string) : Prop := exists n, signature n G same c i = Ok s.
Lemma gok : forall i o, G i = Some o -> object_ok G o.
Proof. exact (proj1 GO). Qed.
Lemma sig_mono : forall rep n m c i s, (n <= m)%nat -> signature n G rep c i = Ok s -> signature m G rep c i = Ok s.
Proof.
  intros rep n. induction n as [|n IH]; intros m c i s L E; [discriminate|]. destruct m as [|m]; [lia|]. cbn [signature] in *. destruct (G (rep i)) as [o|] eqn:Go; [|discriminate].
  apply (sigof_mono G) with (l1 := signature n G rep false); [exact (gok _ _ Go)| |assumption]. intros j x _ J. apply (IH m); [lia|assumption].
Qed.
Lemma sg_fun : forall c i s t, sg c i s -> sg c i t -> s = t.
Proof.
  intros c i s t [n N] [m M]. pose proof (sig_mono same n (n + m) c i s ltac:(lia) N) as A. pose proof (sig_mono same m (n + m) c i t ltac:(lia) M) as B. congruence.
Qed.
Lemma common_fuel : forall l (f : nat -> string), (forall j, In j l -> sg false j (f j)) -> exists m, forall j, In j l -> signature m G same false j = Ok (f j).
Proof.
  intros l f. induction l as [|k l IH]; intros H; [exists O; intros j []|]. destruct (IH (fun j I => H j (or_intror I))) as [m M]. destruct (H k (or_introl eq_refl)) as [n N]. exists (n + m)%nat. intros j [<-|I].
  - apply (sig_mono same n); [lia|assumption].
  - apply (sig_mono same m); [lia|apply M; assumption].
Qed.
Lemma sg_good : forall i s, sg false i s -> good s.
Proof.
  intros i s [n N]. revert i s N. induction n as [|n IH]; intros i s N; [discriminate|]. cbn [signature] in N. unfold same in N at 1. destruct (G i) as [o|] eqn:Go; [|discriminate]. pose proof (gok _ _ Go) as O.
  assert (C : forall x, no "," (head (o_body o) ++ x) = false).
  { intros x. destruct (head_word (o_body o)) as [w [-> _]]. rewrite !no_app. cbn. rewrite andb_false_r. reflexivity. }
  destruct (sigof_form G _ _ _ _ O N) as [[m [M [_ ->]]]|[_ [V [-> _]]]]; (split; [|apply C]); (apply even_app; [apply head_even|]).
  - apply plain_even, tidy_plain. exact (ok_name _ _ O m M).
  - apply even_app.
    + unfold name_text. destruct (o_name o) as [m|] eqn:M; [|apply even_plain; reflexivity]. apply plain_even, tidy_plain. exact (ok_name _ _ O m M).
    + apply (text_even G); [assumption|]. intros j I. specialize (V j I). exact (IH _ _ V).
Qed.

(** ** Equal signatures: the same text *)
Lemma same_header : forall n i j s, signature n G same false i = Ok s -> sg false j s -> same_text G i j.
Proof.
  intros n. induction n as [|n IH]; intros i j s N [m M]; [discriminate|]. destruct m as [|m]; [discriminate|]. cbn [signature] in N, M. unfold same in N at 1, M at 1.
  destruct (G i) as [a|] eqn:Ga; [|discriminate]. destruct (G j) as [b|] eqn:Gb; [|discriminate]. pose proof (gok _ _ Ga) as Oa. pose proof (gok _ _ Gb) as Ob.
  pose proof (sigof_form G _ _ _ _ Oa N) as A. pose proof (sigof_form G _ _ _ _ Ob M) as B.
  assert (Mix : forall x y f o p, object_ok G o -> o_name o = Some x -> head (o_body o) ++ x = head (o_body p) ++ name_text p ++ text f p -> o_name p = None -> y = text f p -> False).
  { intros x y f o p O X E P Y. destruct (head_inj _ _ _ _ E) as [_ H]. unfold name_text in H. rewrite P in H. cbn [append] in H. destruct (ok_name _ _ O x X) as [Ne T]. destruct (text_colon f p) as [C|C]; [congruence|].
    pose proof (tidy_plain x (conj Ne T) ":"%char eq_refl) as K. congruence. }
  destruct A as [[x [X [_ ->]]]|[Xn [Va [-> _]]]]; destruct B as [[y [Y [_ E]]]|[Yn [Vb [E _]]]].
  - destruct (head_inj _ _ _ _ E) as [K <-]. exact (st_named G i j a b x Ga Gb X Y K).
  - exfalso. destruct Yn as [Yn|Yn]; [|discriminate]. exact (Mix _ _ _ _ _ Oa X E Yn eq_refl).
  - exfalso. destruct Xn as [Xn|Xn]; [|discriminate]. symmetry in E. exact (Mix _ _ _ _ _ Ob Y E Xn eq_refl).
  - destruct Xn as [Xn|Xn]; [|discriminate]. destruct Yn as [Yn|Yn]; [|discriminate]. destruct (head_inj _ _ _ _ E) as [K H]. unfold name_text in H. rewrite Xn, Yn in H. cbn [append] in H.
    set (f := fun k => force (signature (n + m) G same false k)).
    assert (Fa : forall k, In k (visited a) -> signature n G same false k = Ok (f k)).
    { intros k I. specialize (Va k I). unfold f. rewrite (sig_mono same n (n + m) false k _ ltac:(lia) Va). cbn [force]. exact Va. }
    assert (Fb : forall k, In k (visited b) -> signature m G same false k = Ok (f k)).
    { intros k I. specialize (Vb k I). unfold f. rewrite (sig_mono same m (n + m) false k _ ltac:(lia) Vb). cbn [force]. exact Vb. }
    assert (Ta : text (fun k => force (signature n G same false k)) a = text f a).
    { pose proof (rest_ok (signature n G same false) f a (ok_hier _ _ Oa) Fa) as P. pose proof (rest_ok (signature n G same false) _ a (ok_hier _ _ Oa) Va) as Q. congruence. }
    assert (Tb : text (fun k => force (signature m G same false k)) b = text f b).
    { pose proof (rest_ok (signature m G same false) f b (ok_hier _ _ Ob) Fb) as P. pose proof (rest_ok (signature m G same false) _ b (ok_hier _ _ Ob) Vb) as Q. congruence. }
    rewrite Ta, Tb in H. assert (Al : alike (eqf f) a b).
    { apply (text_inj f G); try assumption; intros k I; [exact (sg_good _ _ (ex_intro _ n (Fa k I)))|exact (sg_good _ _ (ex_intro _ m (Fb k I)))]. }
    apply (st_plain G i j a b Ga Gb Xn Yn). revert Al. apply alike_mono. intros k l Ik Il F. apply (IH k l (f k) (Fa k Ik)). exists m. rewrite (Fb l Il). rewrite F. reflexivity.
Qed.
Lemma sg_same_text : forall i j s, sg false i s -> sg false j s -> same_text G i j.
Proof. intros i j s [n N] M. exact (same_header n i j s N M). Qed.

(** ** The same text: equal signatures *)
Definition titled (R : nat -> nat -> Prop) : Prop := forall i j, R i j -> exists a b, G i = Some a /\ G j = Some b /\ o_name a = o_name b /\ same_kind (o_body a) (o_body b) /\ (o_name a = None -> alike R a b).
Lemma titled_sig : forall R, titled R -> forall n i j s, R i j -> signature n G same false i = Ok s -> signature n G same false j = Ok s.
Proof.
  intros R T n. induction n as [|n IH]; intros i j s H E; [discriminate|]. destruct (T i j H) as [a [b [Ga [Gb [N [K P]]]]]]. cbn [signature] in *. unfold same in *. rewrite Ga in E. rewrite Gb. pose proof (gok _ _ Ga) as Oa. pose proof (gok _ _ Gb) as Ob.
  destruct (sigof_form G _ _ _ _ Oa E) as [[x [X [_ ->]]]|[Xn [Va [-> _]]]].
  - rewrite (sigof_name _ b x) by congruence. rewrite (kind_head _ _ K). reflexivity.
  - destruct Xn as [Xn|Xn]; [|discriminate]. specialize (P Xn).
    set (f := fun k => force (signature n G (fun i => i) false k)) in *.
    assert (Vb : forall k, In k (visited b) -> signature n G (fun i => i) false k = Ok (f k)).
    { intros k I. destruct (alike_back R a b k P I) as [l [L Rl]]. specialize (Va l L). pose proof (IH l k _ Rl Va) as X. unfold f at 1. rewrite X. reflexivity. }
    rewrite (sigof_make G _ false b f Ob); [|left; congruence|discriminate|exact Vb]. rewrite (kind_head _ _ K). unfold name_text. rewrite <- N, Xn. f_equal. f_equal. f_equal.
    symmetry. apply (alike_text R); [|assumption]. intros k l Ik Rl. specialize (Va k Ik). pose proof (IH k l _ Rl Va) as X. unfold f at 2. rewrite X. reflexivity.
Qed.
Lemma same_text_titled : titled (same_text G).
Proof.
  intros i j H. destruct H as [i j a b n Ga Gb Na Nb K|i j a b Ga Gb Na Nb A].
  - exists a, b. split; [assumption|]. split; [assumption|]. split; [congruence|]. split; [assumption|]. intros X. congruence.
  - exists a, b. split; [assumption|]. split; [assumption|]. split; [congruence|]. split; [exact (alike_kind _ _ _ A)|]. auto.
Qed.
Lemma kept_titled : forall Q, kept G G Q -> titled Q.
Proof.
  intros Q H i j Qi. destruct (H i j Qi) as [a [b [Ga [Gb [N [K P]]]]]]. exists a, b. split; [assumption|]. split; [assumption|]. split; [assumption|]. split; [assumption|]. intros X. apply P.
  - destruct (o_decl a) eqn:D; [destruct (ok_decl _ _ (gok _ _ Ga) D X)|reflexivity].
  - destruct (o_decl b) eqn:D; [destruct (ok_decl _ _ (gok _ _ Gb) D); congruence|reflexivity].
Qed.
Lemma same_text_sg : forall i j s, same_text G i j -> sg false i s -> sg false j s.
Proof. intros i j s H [n N]. exists n. exact (titled_sig _ same_text_titled n i j s H N). Qed.
Lemma agree_sg : forall i j s, agree G G i j -> sg false i s -> sg false j s.
Proof. intros i j s [Q [K H]] [n N]. exists n. exact (titled_sig _ (kept_titled Q K) n i j s H N). Qed.

(** ** Every type has a signature *)
Lemma sg_exists : forall i o, G i = Some o -> exists s, sg false i s.
Proof.
  destruct GO as [_ [rank Rk]]. assert (H : forall m i o, (rank i < m)%nat -> G i = Some o -> exists s, sg false i s).
  { intros m. induction m as [|m IH]; intros i o L Go; [lia|]. pose proof (gok _ _ Go) as O. destruct (o_name o) as [x|] eqn:N.
    - exists (head (o_body o) ++ x). exists 1%nat. cbn [signature]. unfold same at 1. rewrite Go. apply sigof_name. assumption.
    - assert (V : forall j, In j (visited o) -> exists s, sg false j s).
      { intros j I. pose proof (visited_links o j I) as Lk. destruct (G j) as [p|] eqn:Gj; [|destruct (ok_links _ _ O j Lk Gj)]. apply (IH j p); [|assumption]. pose proof (Rk i o j Go N Lk). lia. }
      assert (F : exists f : nat -> string, forall j, In j (visited o) -> sg false j (f j)).
      { clear - V. induction (visited o) as [|k l IHl]; [exists (fun _ => ""); intros j []|]. destruct (IHl (fun j I => V j (or_intror I))) as [f F]. destruct (V k (or_introl eq_refl)) as [s S]. exists (fun j => if Nat.eqb j k then s else f j). intros j I. destruct (Nat.eqb_spec j k) as [->|Ne]; [assumption|]. apply F. destruct I as [I|I]; [congruence|assumption]. }
      destruct F as [f F]. destruct (common_fuel _ f F) as [k K]. exists (head (o_body o) ++ name_text o ++ text f o). exists (S k). cbn [signature]. unfold same at 1. rewrite Go. apply (sigof_make G); [assumption|left; assumption|discriminate|assumption]. }
  intros i o Go. exact (H (S (rank i)) i o ltac:(lia) Go).
Qed.
Lemma sg_full_exists : forall i o, G i = Some o -> o_decl o = false -> exists s, sg true i s.
Proof.
  intros i o Go D. pose proof (gok _ _ Go) as O.
  assert (V : forall j, In j (visited o) -> exists s, sg false j s).
  { intros j I. pose proof (visited_links o j I) as Lk. destruct (G j) as [p|] eqn:Gj; [|destruct (ok_links _ _ O j Lk Gj)]. exact (sg_exists j p Gj). }
  assert (F : exists f : nat -> string, forall j, In j (visited o) -> sg false j (f j)).
  { clear - V. induction (visited o) as [|k l IHl]; [exists (fun _ => ""); intros j []|]. destruct (IHl (fun j I => V j (or_intror I))) as [f F]. destruct (V k (or_introl eq_refl)) as [s S]. exists (fun j => if Nat.eqb j k then s else f j). intros j I. destruct (Nat.eqb_spec j k) as [->|Ne]; [assumption|]. apply F. destruct I as [I|I]; [congruence|assumption]. }
  destruct F as [f F]. destruct (common_fuel _ f F) as [k K]. exists (head (o_body o) ++ name_text o ++ text f o). exists (S k). cbn [signature]. unfold same at 1. rewrite Go. apply (sigof_make G); [assumption|right; reflexivity|auto|assumption].
Qed.

(** ** Full signatures *)
Lemma full_form : forall i s, sg true i s -> exists o f, G i = Some o /\ s = head (o_body o) ++ name_text o ++ text f o /\ (forall j, In j (visited o) -> sg false j (f j)).
Proof.
  intros i s [n N]. destruct n as [|n]; [discriminate|]. cbn [signature] in N. unfold same in N at 1. destruct (G i) as [o|] eqn:Go; [|discriminate]. destruct (sigof_form G _ _ _ _ (gok _ _ Go) N) as [[x [_ [X _]]]|[_ [V [-> _]]]]; [discriminate|].
  exists o, (fun j => force (signature n G same false j)). split; [reflexivity|]. split; [reflexivity|]. intros j I. exists n. exact (V j I).
Qed.
Lemma text_ext : forall f g o, object_ok G o -> (forall j, In j (visited o) -> f j = g j) -> text f o = text g o.
Proof.
  intros f g o O E. pose proof (rest_ok (fun j => Ok (f j)) f o (ok_hier _ _ O) (fun j _ => eq_refl)) as A.
  pose proof (rest_ok (fun j => Ok (f j)) g o (ok_hier _ _ O) (fun j I => f_equal Ok (E j I))) as B. congruence.
Qed.
Lemma full_alike : forall i j h s, sg false i h -> sg false j h -> sg true i s -> sg true j s -> exists a b, G i = Some a /\ G j = Some b /\ o_name a = o_name b /\ alike (same_text G) a b.
Proof.
  intros i j h s Hi Hj Fi Fj. destruct (full_form i s Fi) as [a [f [Ga [-> F]]]]. destruct (full_form j _ Fj) as [b [g [Gb [E F']]]]. pose proof (gok _ _ Ga) as Oa. pose proof (gok _ _ Gb) as Ob.
  destruct (same_text_titled i j (sg_same_text i j h Hi Hj)) as [a' [b' [Ga' [Gb' [N [K _]]]]]]. rewrite Ga in Ga'. injection Ga' as <-. rewrite Gb in Gb'. injection Gb' as <-.
  exists a, b. split; [assumption|]. split; [assumption|]. split; [assumption|]. destruct (head_inj _ _ _ _ E) as [_ E']. unfold name_text in E'. rewrite N in E'. apply sapp_head in E'.
  set (e := fun k => if in_dec Nat.eq_dec k (visited a) then f k else g k).
  assert (Ea : forall k, In k (visited a) -> f k = e k) by (intros k I; unfold e; destruct (in_dec _ _ _); [reflexivity|contradiction]).
  assert (Eb : forall k, In k (visited b) -> g k = e k) by (intros k I; unfold e; destruct (in_dec _ _ _) as [J|J]; [exact (sg_fun false k _ _ (F' k I) (F k J))|reflexivity]).
  rewrite (text_ext f e a Oa Ea), (text_ext g e b Ob Eb) in E'.
  assert (Al : alike (eqf e) a b).
  { apply (text_inj e G); try assumption; intros k I; [rewrite <- (Ea k I); exact (sg_good _ _ (F k I))|rewrite <- (Eb k I); exact (sg_good _ _ (F' k I))]. }
  revert Al. apply alike_mono. intros k l Ik Il X. unfold eqf in X. rewrite <- (Ea k Ik), <- (Eb l Il) in X. apply (sg_same_text k l (f k) (F k Ik)). rewrite X. exact (F' l Il).
Qed.
Lemma alike_full : forall i j a b s, G i = Some a -> G j = Some b -> o_name a = o_name b -> o_decl b = false -> alike (same_text G) a b -> sg true i s -> sg true j s.
Proof.
  intros i j a b s Ga Gb N D A Fi. destruct (full_form i s Fi) as [a' [f [Ga' [-> F]]]]. rewrite Ga in Ga'. injection Ga' as <-. destruct (sg_full_exists j b Gb D) as [t T]. destruct (full_form j t T) as [b' [g [Gb' [Et F']]]]. rewrite Gb in Gb'. injection Gb' as <-.
  assert (X : head (o_body a) ++ name_text a ++ text f a = t); [|rewrite X; assumption]. rewrite Et, (kind_head _ _ (alike_kind _ _ _ A)). unfold name_text. rewrite N. f_equal. f_equal.
  apply (alike_text (fun k l => In l (visited b) /\ same_text G k l)).
  - intros k l Ik [Il S]. exact (sg_fun false l _ _ (same_text_sg k l _ S (F k Ik)) (F' l Il)).
  - revert A. apply alike_mono. auto.
Qed.

(** ** Signatures while links are redirected *)
Definition faithful (rep : nat -> nat) : Prop := forall i o, G i = Some o -> exists s, sg false i s /\ sg false (rep i) s.
Lemma rep_sound : forall rep, faithful rep -> forall n c i s o, G i = Some o -> signature n G rep c i = Ok s -> sg c (rep i) s.
Proof.
  intros rep F n. induction n as [|n IH]; intros c i s o Go E; [discriminate|]. cbn [signature] in E. destruct (G (rep i)) as [p|] eqn:Gp; [|discriminate]. pose proof (gok _ _ Gp) as O.
  assert (V : forall j t, In j (visited p) -> signature n G rep false j = Ok t -> sg false j t).
  { intros j t I T. destruct (G j) as [q|] eqn:Gj; [|destruct (ok_links _ _ O j (visited_links p j I) Gj)]. pose proof (IH false j t q Gj T) as X. destruct (F j q Gj) as [u [U1 U2]]. rewrite (sg_fun _ _ _ _ X U2). assumption. }
  destruct (sigof_form G _ _ _ _ O E) as [[x [X [-> ->]]]|[Xn [W _]]].
  - exists 1%nat. cbn [signature]. unfold same at 1. rewrite Gp. apply sigof_name. assumption.
  - destruct (common_fuel (visited p) (fun j => force (signature n G rep false j))) as [m M]; [intros j I; apply (V j); [assumption|apply W; assumption]|].
    exists (S m). cbn [signature]. unfold same at 1. rewrite Gp. apply (sigof_mono G) with (l1 := signature n G rep false); [assumption| |assumption]. intros j t I T. rewrite (M j I), T. reflexivity.
Qed.
Lemma rep_total : forall rep, faithful rep -> forall n i s o, G i = Some o -> sg false i s -> (String.length s < n)%nat -> signature n G rep false i = Ok s.
Proof.
  intros rep F n. induction n as [|n IH]; intros i s o Go S L; [lia|]. cbn [signature]. destruct (F i o Go) as [t [T1 T2]]. rewrite (sg_fun _ _ _ _ S T1) in *. clear S. rename T2 into S. destruct S as [m M]. destruct m as [|m]; [discriminate|]. cbn [signature] in M. unfold same in M at 1. destruct (G (rep i)) as [p|] eqn:Gp; [|discriminate]. pose proof (gok _ _ Gp) as O.
  destruct (sigof_form G _ _ _ _ O M) as [[x [X [_ Y]]]|[Xn [V [Y _]]]]; [rewrite Y; apply sigof_name; assumption|].
  apply (sigof_mono G) with (l1 := signature m G same false); [assumption| |assumption]. intros j u I U. destruct (G j) as [q|] eqn:Gj; [|destruct (ok_links _ _ O j (visited_links p j I) Gj)].
  apply (IH j u q Gj (ex_intro _ m U)). pose proof (text_longer (fun j => force (signature m G same false j)) p j (ok_hier _ _ O) I) as K. cbn beta in K. rewrite U in K. cbn [force] in K. rewrite Y, !slen_app in L. lia.
Qed.
Lemma rep_total_full : forall rep, faithful rep -> forall n i s p, G (rep i) = Some p -> sg true (rep i) s -> (String.length s < n)%nat -> signature n G rep true i = Ok s.
Proof.
  intros rep F n i s p Gp [m M] L. destruct n as [|n]; [lia|]. destruct m as [|m]; [discriminate|]. cbn [signature] in *. unfold same in M at 1. rewrite Gp in *. pose proof (gok _ _ Gp) as O.
  destruct (sigof_form G _ _ _ _ O M) as [[x [X [? Y]]]|[Xn [V [Y _]]]]; [discriminate|].
  apply (sigof_mono G) with (l1 := signature m G same false); [assumption| |assumption]. intros j u I U. destruct (G j) as [q|] eqn:Gj; [|destruct (ok_links _ _ O j (visited_links p j I) Gj)].
  apply (rep_total rep F n j u q Gj (ex_intro _ m U)). pose proof (text_longer (fun j => force (signature m G same false j)) p j (ok_hier _ _ O) I) as K. cbn beta in K. rewrite U in K. cbn [force] in K. rewrite Y, !slen_app in L. lia.
Qed.
End Graph.
