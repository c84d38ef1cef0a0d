(** The objects the builder makes. *)
From Coq Require Import ZArith String List Bool Arith Lia.
From Verif Require Import Base MetadbModel MetadbSpec MetadbProof6 BuildModel.
From Verif Require Import BuildSpec.
Import ListNotations.

Lemma obind_ok : forall A B (x : out A) (f : A -> out B) b, obind x f = Ok b -> exists a, x = Ok a /\ f a = Ok b.
Proof. intros A B [a| | |] f b H; cbn in H; try discriminate. exists a. auto. Qed.
Ltac un H a E := let H' := fresh in apply obind_ok in H; destruct H as [a [E H']]; rename H' into H; cbv beta in H.

(** ** Arrays: what is stored *)
Lemma array_loop_in : forall rs child t acc top acc', array_loop child t rs acc = Some (top, acc') ->
  (exists e l c v, top = Array (Some e) None l c v) /\
  (exists new, acc' = (new ++ acc)%list /\ map fst new = map s_index (tl (List.rev rs)) /\ (forall k o, In (k, o) new -> o_name o = None /\ o_decl o = false)).
Proof.
  induction rs as [|s r IH]; intros child t acc top acc' H; [discriminate|]. cbn [array_loop] in H. destruct r as [|s' r'].
  - injection H as <- <-. split; [eexists _, _, _, _; reflexivity|]. exists []. cbn. split; [reflexivity|]. split; [reflexivity|]. intros k o [].
  - apply IH in H. destruct H as [T [new [E [M N]]]]. split; [exact T|].
    exists (new ++ [(s_index s, {| o_name := None; o_decl := false; o_size := None; o_align := None; o_body := Array (Some t) None (s_lower s) (range_count s) (Z.of_nat child) |})])%list.
    split; [rewrite E, <- app_assoc; reflexivity|]. split.
    + rewrite map_app, M. cbn [List.rev]. destruct (List.rev r' ++ [s'])%list as [|x y] eqn:F; [destruct (List.rev r'); discriminate|]. cbn [app tl]. rewrite map_app. reflexivity.
    + intros k o I. apply in_app_or in I. destruct I as [I|[I|[]]]; [exact (N k o I)|]. injection I as _ <-. split; reflexivity.
Qed.
Lemma process_array_in : forall i name decl size align stride t rs, exists o rest, process_array i name decl size align stride t rs = (i, o) :: rest /\
  o_name o = name /\ o_decl o = decl /\ (exists e l c v, o_body o = Array (Some e) stride l c v) /\ map fst rest = map s_index (tl rs) /\ (forall k x, In (k, x) rest -> o_name x = None /\ o_decl x = false).
Proof.
  intros. unfold process_array. destruct (array_loop 0 t (List.rev rs) []) as [[top acc]|] eqn:E.
  - apply array_loop_in in E. destruct E as [[e [l [c [v ->]]]] [new [-> [M N]]]]. rewrite rev_involutive in M. eexists _, _. split; [reflexivity|]. cbn. rewrite app_nil_r. repeat split; eauto; apply (N k x H).
  - eexists _, []. split; [reflexivity|]. cbn. destruct rs as [|s r].
    + repeat split; eauto; destruct H.
    + exfalso. clear - E. assert (N : List.rev (s :: r) <> []) by (cbn; destruct (List.rev r); discriminate). revert E N. generalize (List.rev (s :: r)) 0%nat t (@nil (nat * object)). clear.
      induction l as [|a l IH]; intros n t acc E N; [congruence|]. cbn in E. destruct l; [discriminate|]. apply IH in E; [exact E|discriminate].
Qed.

Section B.
Variable data : nat -> option die.

(** the parts of a structure, without what is inside of nested types *)
Fixpoint struct_parts (g : tag) (l : list nat) : out (list field * list (option nat)) :=
  match l with
  | [] => Ok ([], [])
  | c :: r => match data c with
              | None => Err
              | Some d => match d_tag d with
                          | DMember => try m <- member data g d; try x <- struct_parts g r; Ok (m :: fst x, snd x)
                          | DTemplateType => struct_parts g r
                          | _ => try x <- struct_parts g r; Ok (fst x, Some c :: snd x)
                          end
              end
  end.
(** the object of an entry that is no array *)
Definition plain_object (d : die) : out object :=
  match d_tag d with
  | DBase => base_type d
  | DEnum => try l <- enumerators data (d_children d); Ok (common d (Enumeration l))
  | DPointer => try t <- link_of data d; Ok (common d (Pointer t))
  | DReference r => try t <- link_of data d; Ok (common d (Reference r t))
  | DUnspecified => Ok (common d Unspecified)
  | DSubroutine => try t <- link_of data d; try x <- func_params data (fun _ a => Ok a) false (d_children d) []; Ok (common d (Subroutine (fst x) t))
  | DTypedef => match d_name d with None => Err | Some _ => try t <- link_of data d; Ok (common d (Typedef t)) end
  | DQual q => try t <- link_of data d; Ok (common d (Qual q t))
  | DStruct g => try x <- struct_parts g (d_children d); Ok (common d (Struct g (fst x) (snd x)))
  | _ => Err
  end.
Inductive right : nat -> object -> Prop :=
| r_one i d o : data i = Some d -> plain_object d = Ok o -> right i o
| r_array i d t rs k o : data i = Some d -> d_tag d = DArray -> d_type d = Some t -> type_entry data t = Ok tt -> subranges data (d_children d) = Ok rs ->
    In (k, o) (process_array i (d_name d) (declared_die d) (d_size d) (d_align d) (d_stride d) t rs) -> right k o.

Lemma subranges_in : forall l rs, subranges data l = Ok rs -> map s_index rs = l /\ forall c, In c l -> exists d, data c = Some d /\ d_tag d = DSubrange.
Proof.
  induction l as [|c r IH]; intros rs H; cbn in H; [injection H as <-; split; [reflexivity|intros c []]|]. destruct (data c) as [d|] eqn:D; [|discriminate]. destruct (d_tag d) eqn:T; try discriminate.
  un H x E. injection H as <-. destruct (IH _ E) as [M K]. split; [cbn; rewrite M; reflexivity|]. intros k [<-|I]; [exists d; auto|exact (K k I)].
Qed.
(** the key of an object: a type entry or a dimension of an array *)
Lemma right_key : forall k o, right k o -> kind_in data type_tag k \/ exists a, kind_in data (eq DArray) a /\ child data a k /\ kind_in data (eq DSubrange) k.
Proof.
  intros k o [i d o' D P | i d t rs k' o' D T Ty Te Sr I].
  - left. exists d. split; [exact D|]. unfold plain_object in P. destruct (d_tag d); try discriminate; exact Logic.I.
  - destruct (process_array_in i (d_name d) (declared_die d) (d_size d) (d_align d) (d_stride d) t rs) as [x [rest [E [_ [_ [_ [M _]]]]]]]. rewrite E in I. destruct I as [I|I].
    + injection I as <- <-. left. exists d. split; [exact D|]. rewrite T. exact Logic.I.
    + right. destruct (subranges_in _ _ Sr) as [S1 S2]. assert (In k' (d_children d)) as J.
      { rewrite <- S1. apply (in_map fst) in I. rewrite M in I. cbn in I. destruct rs; [destruct I|]. right. exact I. }
      exists i. split; [exists d; auto|]. split; [exists d; auto|]. destruct (S2 _ J) as [x0 [? ?]]. exists x0. auto.
Qed.
Lemma in_keys : forall (l : list (nat * object)) k o o', NoDup (map fst l) -> In (k, o) l -> In (k, o') l -> o = o'.
Proof.
  induction l as [|[j x] l IH]; intros k o o' N I J; [destruct I|]. cbn in N. apply NoDup_cons_iff in N. destruct N as [N1 N2].
  destruct I as [I|I], J as [J|J].
  - congruence.
  - injection I as -> ->. destruct N1. apply (in_map fst) in J. exact J.
  - injection J as -> ->. destruct N1. apply (in_map fst) in I. exact I.
  - exact (IH k o o' N2 I J).
Qed.
Lemma right_fun : tree data -> forall k o o', right k o -> right k o' -> o = o'.
Proof.
  intros Tr k o o' H H'. destruct H as [i d o D P | i d t rs k o D T Ty Te Sr I]; destruct H' as [i' d' o' D' P' | i' d' t' rs' k o' D' T' Ty' Te' Sr' I'].
  - rewrite D in D'. injection D' as <-. congruence.
  - exfalso. destruct (process_array_in i' (d_name d') (declared_die d') (d_size d') (d_align d') (d_stride d') t' rs') as [x [rest [E [_ [_ [_ [M _]]]]]]]. rewrite E in I'. destruct I' as [I'|I'].
    + injection I' as -> _. rewrite D in D'. injection D' as <-. unfold plain_object in P. rewrite T' in P. discriminate.
    + destruct (subranges_in _ _ Sr') as [S1 S2]. assert (In k (d_children d')) as J by (rewrite <- S1; apply (in_map fst) in I'; rewrite M in I'; cbn in I'; destruct rs'; [destruct I'|right; exact I']).
      destruct (S2 _ J) as [x0 [Dx Tx]]. rewrite D in Dx. injection Dx as <-. unfold plain_object in P. rewrite Tx in P. discriminate.
  - exfalso. destruct (process_array_in i (d_name d) (declared_die d) (d_size d) (d_align d) (d_stride d) t rs) as [x [rest [E [_ [_ [_ [M _]]]]]]]. rewrite E in I. destruct I as [I|I].
    + injection I as -> _. rewrite D in D'. injection D' as <-. unfold plain_object in P'. rewrite T in P'. discriminate.
    + destruct (subranges_in _ _ Sr) as [S1 S2]. assert (In i' (d_children d)) as J by (rewrite <- S1; apply (in_map fst) in I; rewrite M in I; cbn in I; destruct rs; [destruct I|right; exact I]).
      destruct (S2 _ J) as [x0 [Dx Tx]]. rewrite D' in Dx. injection Dx as <-. unfold plain_object in P'. rewrite Tx in P'. discriminate.
  - assert (K : forall j dj tj rsj oj, data j = Some dj -> d_tag dj = DArray -> subranges data (d_children dj) = Ok rsj -> In (k, oj) (process_array j (d_name dj) (declared_die dj) (d_size dj) (d_align dj) (d_stride dj) tj rsj) ->
      j = k \/ child data j k /\ kind_in data (eq DSubrange) k).
    { intros j dj tj rsj oj Dj Tj Sj Ij. destruct (process_array_in j (d_name dj) (declared_die dj) (d_size dj) (d_align dj) (d_stride dj) tj rsj) as [x [rest [E [_ [_ [_ [M _]]]]]]]. rewrite E in Ij. destruct Ij as [Ij|Ij].
      - injection Ij as -> _. left. reflexivity.
      - right. destruct (subranges_in _ _ Sj) as [S1 S2]. assert (In k (d_children dj)) as J by (rewrite <- S1; apply (in_map fst) in Ij; rewrite M in Ij; cbn in Ij; destruct rsj; [destruct Ij|right; exact Ij]).
        split; [exists dj; auto|]. destruct (S2 _ J) as [x0 [? ?]]. exists x0. auto. }
    assert (i = i').
    { destruct (K _ _ _ _ _ D T Sr I) as [->|[C1 Kd]], (K _ _ _ _ _ D' T' Sr' I') as [->|[C2 Kd']]; try reflexivity.
      - destruct Kd' as [x [Dx Tx]]. rewrite D in Dx. injection Dx as <-. congruence.
      - destruct Kd as [x [Dx Tx]]. rewrite D' in Dx. injection Dx as <-. congruence.
      - exact (tr_once _ Tr _ _ _ C1 C2). }
    subst i'. rewrite D in D'. injection D' as <-. rewrite Ty in Ty'. injection Ty' as <-. rewrite Sr in Sr'. injection Sr' as <-.
    refine (in_keys _ _ _ _ _ I I'). destruct (process_array_in i (d_name d) (declared_die d) (d_size d) (d_align d) (d_stride d) t rs) as [x [rest [E [_ [_ [_ [M _]]]]]]]. rewrite E. cbn [map fst]. rewrite M.
    destruct (subranges_in _ _ Sr) as [S1 S2]. constructor.
    + intros J. assert (In i (d_children d)) as J' by (rewrite <- S1; destruct rs; [destruct J|right; exact J]). destruct (S2 _ J') as [x0 [Dx Tx]]. rewrite D in Dx. injection Dx as <-. congruence.
    + pose proof (tr_nodup _ Tr _ _ D) as N. rewrite <- S1 in N. destruct rs as [|r0 rs]; [constructor|]. cbn in N |- *. apply NoDup_cons_iff in N. apply N.
Qed.

(** ** What processEntry adds *)
Definition grows (acc acc' : list (nat * object)) : Prop := exists new, acc' = (new ++ acc)%list /\ forall k o, In (k, o) new -> right k o.
Lemma grows_refl : forall a, grows a a.
Proof. intros a. exists []. split; [reflexivity|]. intros k o []. Qed.
Lemma grows_trans : forall a b c, grows a b -> grows b c -> grows a c.
Proof. intros a b c [n [-> N]] [m [-> M]]. exists (m ++ n)%list. split; [rewrite app_assoc; reflexivity|]. intros k o I. apply in_app_or in I. destruct I; auto. Qed.
Lemma grows_cons : forall a b k o, grows a b -> right k o -> grows a ((k, o) :: b).
Proof. intros a b k o [n [-> N]] R. exists ((k, o) :: n). split; [reflexivity|]. intros k' o' [E|I]; [injection E as <- <-; exact R|auto]. Qed.
Definition keyed (l : list (nat * object)) (i : nat) : Prop := (exists o, In (i, o) l) /\
  forall d t rs, data i = Some d -> d_tag d = DArray -> d_type d = Some t -> subranges data (d_children d) = Ok rs ->
    incl (process_array i (d_name d) (declared_die d) (d_size d) (d_align d) (d_stride d) t rs) l.
Lemma grows_keyed : forall a b i, grows a b -> keyed a i -> keyed b i.
Proof. intros a b i [n [-> _]] [[o I] A]. split; [exists o; apply in_or_app; auto|]. intros d t rs D T Ty Sr x X. apply in_or_app. right. exact (A d t rs D T Ty Sr x X). Qed.
Lemma keyed_plain : forall l i d o, data i = Some d -> d_tag d <> DArray -> In (i, o) l -> keyed l i.
Proof. intros l i d o D T I. split; [exists o; exact I|]. intros d' t rs D' T'. rewrite D in D'. injection D' as <-. congruence. Qed.

(** entries declared in an entry, at any depth *)
Inductive below : nat -> nat -> Prop :=
| be_self i : below i i
| be_in i c k d e : data i = Some d -> In c (d_children d) -> data c = Some e -> ~ part_of (d_tag d) (d_tag e) -> below c k -> below i k.
Definition holds (l : list (nat * object)) (i : nat) : Prop := forall k, below i k -> kind_in data type_tag k -> keyed l k.

Lemma scope_ok : forall f strict l acc acc', (forall c a b a', In c l -> f c a = Ok (b, a') -> grows a a' /\ holds a' c) -> scope data f strict l acc = Ok acc' ->
  grows acc acc' /\ forall c e, In c l -> data c = Some e -> (strict = true -> d_tag e <> DImported) -> holds acc' c.
Proof.
  intros f strict. induction l as [|c r IH]; intros acc acc' F H; cbn in H; [injection H as <-; split; [apply grows_refl|intros c e []]|]. destruct (data c) as [d|] eqn:D; [|discriminate].
  destruct (strict && match d_tag d with DImported => true | _ => false end) eqn:Im.
  - apply IH in H; [|intros; eapply F; [right; eassumption|eassumption]]. destruct H as [G K]. split; [exact G|]. intros k e [<-|I] De S1; [|exact (K k e I De S1)].
    rewrite D in De. injection De as <-. apply andb_true_iff in Im. destruct Im as [-> Im]. destruct (d_tag d); try discriminate. destruct (S1 eq_refl eq_refl).
  - un H y E. destruct y as [b a1]. destruct (F c acc b a1 (or_introl eq_refl) E) as [G1 K1]. destruct (strict && negb (fst (b, a1))); [discriminate|]. cbn [snd] in H.
    apply IH in H; [|intros; eapply F; [right; eassumption|eassumption]]. destruct H as [G K]. split; [eapply grows_trans; eassumption|]. intros k e [<-|I] De S1; [|exact (K k e I De S1)].
    intros j B T. eapply grows_keyed; [exact G|]. exact (K1 j B T).
Qed.
Lemma struct_ok : forall f g l acc fs hs acc', (forall c a b a', In c l -> f c a = Ok (b, a') -> grows a a' /\ holds a' c) -> struct_children data f g l acc = Ok (fs, hs, acc') ->
  struct_parts g l = Ok (fs, hs) /\ grows acc acc' /\ forall c e, In c l -> data c = Some e -> d_tag e <> DMember -> d_tag e <> DTemplateType -> holds acc' c.
Proof.
  intros f g. induction l as [|c r IH]; intros acc fs hs acc' F H; cbn in H; [injection H as <- <- <-; split; [reflexivity|]; split; [apply grows_refl|intros c e []]|]. cbn [struct_parts]. destruct (data c) as [d|] eqn:D; [|discriminate].
  assert (F' : forall c0 a b a', In c0 r -> f c0 a = Ok (b, a') -> grows a a' /\ holds a' c0) by (intros; eapply F; [right; eassumption|eassumption]).
  assert (Other : (exists y, f c acc = Ok y /\ fst y = true /\ exists fs' hs', struct_children data f g r (snd y) = Ok (fs', hs', acc') /\ fs = fs' /\ hs = Some c :: hs') ->
    (try x <- struct_parts g r; Ok (fst x, Some c :: snd x)) = Ok (fs, hs) /\ grows acc acc' /\ forall c0 e, c = c0 \/ In c0 r -> data c0 = Some e -> d_tag e <> DMember -> d_tag e <> DTemplateType -> holds acc' c0).
  { intros [[b a1] [E [_ [fs' [hs' [H' [-> ->]]]]]]]. cbn [snd] in H'. destruct (F c acc b a1 (or_introl eq_refl) E) as [G1 K1]. apply IH in H'; [|exact F']. destruct H' as [P [G K]]. rewrite P. cbn. split; [reflexivity|].
    split; [eapply grows_trans; eassumption|]. intros k e [<-|I] De N1 N2; [|exact (K k e I De N1 N2)]. intros j B T. eapply grows_keyed; [exact G|]. exact (K1 j B T). }
  destruct (d_tag d) eqn:T; try (apply Other; clear Other; un H y E; exists y; split; [exact E|]; destruct (fst y); [|discriminate]; split; [reflexivity|]; un H x E2; destruct x as [[fs' hs'] ac]; injection H as <- <- <-; exists fs', hs'; auto).
  - un H m E. un H x E2. destruct x as [[fs' hs'] ac]. injection H as <- <- <-. apply IH in E2; [|exact F']. destruct E2 as [P [G K]]. rewrite E, P. cbn. split; [reflexivity|]. split; [exact G|].
    intros k e [<-|I] De N1 N2; [|exact (K k e I De N1 N2)]. rewrite D in De. injection De as <-. congruence.
  - apply IH in H; [|exact F']. destruct H as [P [G K]]. split; [exact P|]. split; [exact G|]. intros k e [<-|I] De N1 N2; [|exact (K k e I De N1 N2)]. rewrite D in De. injection De as <-. congruence.
Qed.
Lemma func_ok : forall f l dots acc ps acc', (forall c a a', In c l -> f c a = Ok a' -> grows a a' /\ holds a' c) -> func_params data f dots l acc = Ok (ps, acc') ->
  grows acc acc' /\ forall c e, In c l -> data c = Some e -> d_tag e <> DParameter -> d_tag e <> DUnspecifiedParameters -> d_tag e <> DTemplateType -> holds acc' c.
Proof.
  intros f. induction l as [|c r IH]; intros dots acc ps acc' F H; cbn in H; [injection H as <- <-; split; [apply grows_refl|intros c e []]|]. destruct (data c) as [d|] eqn:D; [|discriminate].
  assert (F' : forall c0 a a', In c0 r -> f c0 a = Ok a' -> grows a a' /\ holds a' c0) by (intros; eapply F; [right; eassumption|eassumption]).
  assert (Skip : forall dots' ps', (d_tag d = DParameter \/ d_tag d = DUnspecifiedParameters \/ d_tag d = DTemplateType) -> func_params data f dots' r acc = Ok (ps', acc') ->
    grows acc acc' /\ forall c0 e, c = c0 \/ In c0 r -> data c0 = Some e -> d_tag e <> DParameter -> d_tag e <> DUnspecifiedParameters -> d_tag e <> DTemplateType -> holds acc' c0).
  { intros dots' ps' T H'. apply IH in H'; [|exact F']. destruct H' as [G K]. split; [exact G|]. intros k e [<-|I] De N1 N2 N3; [|exact (K k e I De N1 N2 N3)]. rewrite D in De. injection De as <-. destruct T as [T|[T|T]]; congruence. }
  assert (Other : forall a1, f c acc = Ok a1 -> func_params data f dots r a1 = Ok (ps, acc') ->
    grows acc acc' /\ forall c0 e, c = c0 \/ In c0 r -> data c0 = Some e -> d_tag e <> DParameter -> d_tag e <> DUnspecifiedParameters -> d_tag e <> DTemplateType -> holds acc' c0).
  { intros a1 E H'. destruct (F c acc a1 (or_introl eq_refl) E) as [G1 K1]. apply IH in H'; [|exact F']. destruct H' as [G K]. split; [eapply grows_trans; eassumption|].
    intros k e [<-|I] De N1 N2 N3; [|exact (K k e I De N1 N2 N3)]. intros j B T. eapply grows_keyed; [exact G|]. exact (K1 j B T). }
  destruct (d_tag d) eqn:T; try (un H a1 E; exact (Other a1 E H)).
  - destruct dots; [discriminate|]. un H t E. un H x E2. destruct x as [ps' ac]. injection H as <- <-. eapply Skip; [auto|exact E2].
  - destruct dots; [discriminate|]. un H t E. un H x E2. destruct x as [ps' ac]. injection H as <- <-. eapply Skip; [auto|exact E2].
  - destruct dots; [discriminate|]. eapply Skip; [auto|exact H].
Qed.
Lemma below_in : forall i k, below i k -> k = i \/ exists d c e, data i = Some d /\ In c (d_children d) /\ data c = Some e /\ ~ part_of (d_tag d) (d_tag e) /\ below c k.
Proof. intros i k [j | j c k' d e D I De N B]; [left; reflexivity|right; exists d, c, e; auto]. Qed.
Lemma process_ok : forall fuel i acc b acc', process data fuel i acc = Ok (b, acc') -> grows acc acc' /\ holds acc' i.
Proof.
  induction fuel as [|fuel IH]; intros i acc b acc' H; [discriminate|]. cbn [process] in H. destruct (data i) as [d|] eqn:D; [|discriminate].
  assert (One : forall o, plain_object d = Ok o -> (forall t, part_of (d_tag d) t) -> grows acc ((i, o) :: acc) /\ holds ((i, o) :: acc) i).
  { intros o P N. split; [apply grows_cons; [apply grows_refl|econstructor; eassumption]|]. intros k B T. apply below_in in B. destruct B as [->|[d' [c [e [D' [I [De [N' B]]]]]]]]; [eapply keyed_plain; [exact D| |left; reflexivity]; intros X; unfold plain_object in P; rewrite X in P; discriminate|].
    rewrite D in D'. injection D' as <-. destruct N'. apply N. }
  assert (NoType : forall a', grows acc a' -> ~ type_tag (d_tag d) -> (forall c e k, In c (d_children d) -> data c = Some e -> ~ part_of (d_tag d) (d_tag e) -> below c k -> kind_in data type_tag k -> keyed a' k) -> grows acc a' /\ holds a' i).
  { intros a' G NT K. split; [exact G|]. intros k B T. apply below_in in B. destruct B as [->|[d' [c [e [D' [I [De [N' B]]]]]]]].
    - destruct T as [x [Dx Tx]]. rewrite D in Dx. injection Dx as <-. destruct (NT Tx).
    - rewrite D in D'. injection D' as <-. exact (K c e k I De N' B T). }
  destruct (d_tag d) eqn:T; try discriminate.
  - un H o E. injection H as <- <-. apply One; [unfold plain_object; rewrite T; exact E|intros; exact I].
  - un H o E. injection H as <- <-. apply One; [unfold plain_object; rewrite T; exact E|intros; exact I].
  - un H rs E. destruct (d_type d) as [t|] eqn:Ty; [|discriminate]. un H u E2. destruct u. injection H as <- <-.
    split; [eexists; split; [reflexivity|]; intros k o J; eapply r_array; eassumption|]. intros k B K. apply below_in in B. destruct B as [->|[d' [c [e [D' [J [De [N' B]]]]]]]].
    + destruct (process_array_in i (d_name d) (declared_die d) (d_size d) (d_align d) (d_stride d) t rs) as [x [rest [X _]]]. split; [exists x; rewrite X; left; reflexivity|]. intros d' t' rs' D' _ Ty' Sr'. rewrite D in D'. injection D' as <-. rewrite Ty in Ty'. injection Ty' as <-. rewrite E in Sr'. injection Sr' as <-. apply incl_appl, incl_refl.
    + rewrite D in D'. injection D' as <-. destruct N'. rewrite T. exact I.
  - un H o E. injection H as <- <-. apply One; [unfold plain_object; rewrite T; exact E|intros; exact I].
  - un H o E. injection H as <- <-. apply One; [unfold plain_object; rewrite T; exact E|intros; exact I].
  - un H o E. injection H as <- <-. apply One; [unfold plain_object; rewrite T; exact E|intros; exact I].
  - un H o E. injection H as <- <-. apply One; [unfold plain_object; rewrite T; exact E|intros; exact I].
  - un H o E. injection H as <- <-. apply One; [unfold plain_object; rewrite T; exact E|intros; exact I].
  - un H o E. injection H as <- <-. apply One; [unfold plain_object; rewrite T; exact E|intros; exact I].
  - un H x E. destruct x as [[fs hs] a1]. injection H as <- <-. apply struct_ok in E; [|intros; eapply IH; eassumption]. destruct E as [P [G K]].
    split; [apply grows_cons; [exact G|]; eapply r_one; [exact D|]; unfold plain_object; rewrite T, P; reflexivity|]. intros k B Kd. apply below_in in B. destruct B as [->|[d' [c [e [D' [J [De [N' B]]]]]]]]; [eapply keyed_plain; [exact D|congruence|left; reflexivity]|].
    rewrite D in D'. injection D' as <-. rewrite T in N'. cbn in N'. eapply grows_keyed; [|exact (K c e J De (fun h => N' (or_introl h)) (fun h => N' (or_intror h)) k B Kd)]. apply grows_cons; [apply grows_refl|]. eapply r_one; [exact D|]. unfold plain_object. rewrite T, P. reflexivity.
  - un H u E. injection H as <- <-. apply NoType; [apply grows_refl|intros []|]. intros c e k J De N'. destruct N'. rewrite ?T. exact I.
  - un H a E. injection H as <- <-. apply scope_ok in E; [|intros; eapply IH; eassumption]. destruct E as [G K]. apply NoType; [exact G|intros []|]. intros c e k J De N' B Kd. exact (K c e J De (fun h => False_ind _ (Bool.diff_false_true h)) k B Kd).
  - un H u E. un H x E2. destruct x as [ps a1]. injection H as <- <-. apply func_ok in E2; [|intros c a a' _ X; un X y Y; destruct y as [b1 a2]; injection X as <-; eapply IH; exact Y]. destruct E2 as [G K].
    apply NoType; [exact G|intros []|]. intros c e k J De N' B Kd. rewrite ?T in N'. cbn in N'. exact (K c e J De (fun h => N' (or_introl h)) (fun h => N' (or_intror (or_introl h))) (fun h => N' (or_intror (or_intror h))) k B Kd).
  - un H a E. injection H as <- <-. apply scope_ok in E; [|intros; eapply IH; eassumption]. destruct E as [G K]. apply NoType; [exact G|intros []|]. intros c e k J De N' B Kd. rewrite ?T in N'. exact (K c e J De (fun _ => N') k B Kd).
  - injection H as <- <-. apply NoType; [apply grows_refl|intros []|]. intros c e k J De N'. destruct N'. rewrite ?T. exact I.
Qed.
Lemma units_ok : forall fuel l acc acc', units data fuel l acc = Ok acc' -> grows acc acc' /\
  forall u d c e, In u l -> data u = Some d -> In c (d_children d) -> data c = Some e -> ~ part_of (d_tag d) (d_tag e) -> holds acc' c.
Proof.
  intros fuel. induction l as [|u r IH]; intros acc acc' H; cbn in H; [injection H as <-; split; [apply grows_refl|intros u d c e []]|]. destruct (data u) as [d|] eqn:D; [|discriminate].
  destruct (d_tag d) eqn:T; try discriminate. destruct (d_name d); [|discriminate]. un H a E. apply scope_ok in E; [|intros; eapply process_ok; eassumption]. destruct E as [G K]. destruct (IH _ _ H) as [G' K'].
  split; [eapply grows_trans; eassumption|]. intros v dv c e [<-|I] Dv J De N; [|exact (K' v dv c e I Dv J De N)]. rewrite D in Dv. injection Dv as <-. rewrite T in N. cbn in N.
  intros k B Kd. eapply grows_keyed; [exact G'|]. exact (K c e J De (fun _ => N) k B Kd).
Qed.
Lemma below_snoc : forall i k c d e, below i k -> data k = Some d -> In c (d_children d) -> data c = Some e -> ~ part_of (d_tag d) (d_tag e) -> below i c.
Proof. intros i k c d e B. revert c d e. induction B as [i|i c' k' d' e' D' I' De' N' B IH]; intros c d e D I De N; [eapply be_in; eauto; apply be_self|eapply be_in; eauto]. Qed.
Lemma declared_below : forall k, declared_in data k -> exists u d c e, child data 0 u /\ data u = Some d /\ In c (d_children d) /\ data c = Some e /\ ~ part_of (d_tag d) (d_tag e) /\ below c k.
Proof.
  intros k H. induction H as [u c d e U D I De N | i c d e H IH D I De N].
  - exists u, d, c, e. repeat split; auto. apply be_self.
  - destruct IH as [u [du [c0 [e0 [U [Du [I0 [De0 [N0 B]]]]]]]]]. exists u, du, c0, e0. repeat split; auto. eapply below_snoc; eassumption.
Qed.
(** all objects are right, all declared types are there *)
Lemma build_ok : forall fuel L, build data fuel = Ok L -> (forall k o, In (k, o) L -> right k o) /\ (forall i, declared_in data i -> kind_in data type_tag i -> keyed L i).
Proof.
  intros fuel L H. unfold build in H. destruct (data 0) as [d|] eqn:D; [|discriminate]. apply units_ok in H. destruct H as [[new [-> G]] K]. split.
  - intros k o I. rewrite app_nil_r in I. auto.
  - intros i Di Ti. apply declared_below in Di. destruct Di as [u [du [c [e [[d0 [D0 U]] [Du [I [De [N B]]]]]]]]]. rewrite D in D0. injection D0 as <-. exact (K u du c e U Du I De N i B Ti).
Qed.
Lemma made_in : forall L i o, made L i = Some o -> In (i, o) L.
Proof. intros L i o H. unfold made in H. destruct (List.find _ L) as [[j x]|] eqn:E; [|discriminate]. injection H as <-. pose proof (find_some _ _ E) as [I J]. cbn in J. apply Nat.eqb_eq in J. subst. exact I. Qed.
Lemma keyed_made : forall L i, keyed L i -> exists o, made L i = Some o.
Proof.
  intros L i [[o I] _]. unfold made. destruct (List.find _ L) as [[j x]|] eqn:E; [exists x; reflexivity|]. pose proof (find_none _ _ E _ I) as F. cbn in F. rewrite Nat.eqb_refl in F. discriminate.
Qed.
Lemma made_right : tree data -> forall fuel L, build data fuel = Ok L -> forall i o, In (i, o) L <-> made L i = Some o.
Proof.
  intros Tr fuel L B i o. split; [|apply made_in]. intros I. assert (exists x, made L i = Some x) as [x X] by (unfold made; destruct (List.find (fun '(j, _) => Nat.eqb j i) L) as [[j y]|] eqn:E; [exists y; reflexivity|]; pose proof (find_none _ _ E _ I) as F; cbn in F; rewrite Nat.eqb_refl in F; discriminate). rewrite X. f_equal.
  destruct (build_ok _ _ B) as [R _]. exact (right_fun Tr _ _ _ (R _ _ (made_in _ _ _ X)) (R _ _ I)).
Qed.

(** ** Nothing else is added *)
Definition from (i k : nat) : Prop := below i k \/ exists a, below i a /\ kind_in data (eq DArray) a /\ child data a k /\ kind_in data (eq DSubrange) k.
Definition adds (i : nat) (acc acc' : list (nat * object)) : Prop := forall k o, In (k, o) acc' -> In (k, o) acc \/ from i k.
Lemma from_in : forall i c k d e, data i = Some d -> In c (d_children d) -> data c = Some e -> ~ part_of (d_tag d) (d_tag e) -> from c k -> from i k.
Proof. intros i c k d e D I De N [B|[a [B X]]]; [left|right; exists a; split; [|exact X]]; eapply be_in; eassumption. Qed.
Lemma scope_adds : forall f strict l acc acc', (forall c a b a', In c l -> f c a = Ok (b, a') -> adds c a a') -> scope data f strict l acc = Ok acc' ->
  forall k o, In (k, o) acc' -> In (k, o) acc \/ exists c e, In c l /\ data c = Some e /\ (strict = true -> d_tag e <> DImported) /\ from c k.
Proof.
  intros f strict. induction l as [|c r IH]; intros acc acc' F H k o I; cbn in H; [injection H as <-; auto|]. destruct (data c) as [d|] eqn:D; [|discriminate].
  assert (F' : forall c0 a b a', In c0 r -> f c0 a = Ok (b, a') -> adds c0 a a') by (intros; eapply F; [right; eassumption|eassumption]).
  destruct (strict && match d_tag d with DImported => true | _ => false end) eqn:Im.
  - destruct (IH _ _ F' H k o I) as [J|[c0 [e [J X]]]]; [auto|]. right. exists c0, e. split; [right; exact J|exact X].
  - un H y E. destruct y as [b a1]. destruct (strict && negb (fst (b, a1))); [discriminate|]. cbn [snd] in H.
    destruct (IH _ _ F' H k o I) as [J|[c0 [e [J X]]]]; [|right; exists c0, e; split; [right; exact J|exact X]]. destruct (F c acc b a1 (or_introl eq_refl) E k o J) as [J'|J']; [auto|]. right. exists c, d.
    split; [left; reflexivity|]. split; [exact D|]. split; [|exact J']. intros -> Tg. rewrite Tg in Im. discriminate.
Qed.
Lemma struct_adds : forall f g l acc fs hs acc', (forall c a b a', In c l -> f c a = Ok (b, a') -> adds c a a') -> struct_children data f g l acc = Ok (fs, hs, acc') ->
  forall k o, In (k, o) acc' -> In (k, o) acc \/ exists c e, In c l /\ data c = Some e /\ d_tag e <> DMember /\ d_tag e <> DTemplateType /\ from c k.
Proof.
  intros f g. induction l as [|c r IH]; intros acc fs hs acc' F H k o I; cbn in H; [injection H as <- <- <-; auto|]. destruct (data c) as [d|] eqn:D; [|discriminate].
  assert (F' : forall c0 a b a', In c0 r -> f c0 a = Ok (b, a') -> adds c0 a a') by (intros; eapply F; [right; eassumption|eassumption]).
  assert (Other : forall y fs' hs', f c acc = Ok y -> struct_children data f g r (snd y) = Ok (fs', hs', acc') -> d_tag d <> DMember -> d_tag d <> DTemplateType ->
    In (k, o) acc \/ exists c0 e, (c = c0 \/ In c0 r) /\ data c0 = Some e /\ d_tag e <> DMember /\ d_tag e <> DTemplateType /\ from c0 k).
  { intros [b a1] fs' hs' E H' N1 N2. cbn [snd] in H'. destruct (IH _ _ _ _ F' H' k o I) as [J|[c0 [e [J X]]]]; [|right; exists c0, e; split; [right; exact J|exact X]].
    destruct (F c acc b a1 (or_introl eq_refl) E k o J) as [J'|J']; [auto|]. right. exists c, d. repeat split; auto. }
  destruct (d_tag d) eqn:T;
    try (un H y E; destruct (fst y); [|discriminate]; un H x E2; destruct x as [[fs' hs'] ac]; injection H as <- <- <-; eapply Other; [exact E|exact E2|discriminate|discriminate]).
  - un H m E. un H x E2. destruct x as [[fs' hs'] ac]. injection H as <- <- <-. destruct (IH _ _ _ _ F' E2 k o I) as [J|[c0 [e [J X]]]]; [auto|right; exists c0, e; split; [right; exact J|exact X]].
  - destruct (IH _ _ _ _ F' H k o I) as [J|[c0 [e [J X]]]]; [auto|right; exists c0, e; split; [right; exact J|exact X]].
Qed.
Lemma func_adds : forall f l dots acc ps acc', (forall c a a', In c l -> f c a = Ok a' -> adds c a a') -> func_params data f dots l acc = Ok (ps, acc') ->
  forall k o, In (k, o) acc' -> In (k, o) acc \/ exists c e, In c l /\ data c = Some e /\ d_tag e <> DParameter /\ d_tag e <> DUnspecifiedParameters /\ d_tag e <> DTemplateType /\ from c k.
Proof.
  intros f. induction l as [|c r IH]; intros dots acc ps acc' F H k o I; cbn in H; [injection H as <- <-; auto|]. destruct (data c) as [d|] eqn:D; [|discriminate].
  assert (F' : forall c0 a a', In c0 r -> f c0 a = Ok a' -> adds c0 a a') by (intros; eapply F; [right; eassumption|eassumption]).
  assert (Skip : forall dots' ps', func_params data f dots' r acc = Ok (ps', acc') ->
    In (k, o) acc \/ exists c0 e, (c = c0 \/ In c0 r) /\ data c0 = Some e /\ d_tag e <> DParameter /\ d_tag e <> DUnspecifiedParameters /\ d_tag e <> DTemplateType /\ from c0 k).
  { intros dots' ps' H'. destruct (IH _ _ _ _ F' H' k o I) as [J|[c0 [e [J X]]]]; [auto|right; exists c0, e; split; [right; exact J|exact X]]. }
  assert (Other : forall a1, f c acc = Ok a1 -> func_params data f dots r a1 = Ok (ps, acc') -> d_tag d <> DParameter -> d_tag d <> DUnspecifiedParameters -> d_tag d <> DTemplateType ->
    In (k, o) acc \/ exists c0 e, (c = c0 \/ In c0 r) /\ data c0 = Some e /\ d_tag e <> DParameter /\ d_tag e <> DUnspecifiedParameters /\ d_tag e <> DTemplateType /\ from c0 k).
  { intros a1 E H' N1 N2 N3. destruct (IH _ _ _ _ F' H' k o I) as [J|[c0 [e [J X]]]]; [|right; exists c0, e; split; [right; exact J|exact X]].
    destruct (F c acc a1 (or_introl eq_refl) E k o J) as [J'|J']; [auto|]. right. exists c, d. repeat split; auto. }
  destruct (d_tag d) eqn:T; try (un H a1 E; eapply Other; [exact E|exact H|discriminate..]).
  - destruct dots; [discriminate|]. un H t E. un H x E2. destruct x as [ps' ac]. injection H as <- <-. eapply Skip. exact E2.
  - destruct dots; [discriminate|]. un H t E. un H x E2. destruct x as [ps' ac]. injection H as <- <-. eapply Skip. exact E2.
  - destruct dots; [discriminate|]. eapply Skip. exact H.
Qed.
Lemma process_adds : forall fuel i acc b acc', process data fuel i acc = Ok (b, acc') -> adds i acc acc'.
Proof.
  induction fuel as [|fuel IH]; intros i acc b acc' H k o I; [discriminate|]. cbn [process] in H. destruct (data i) as [d|] eqn:D; [|discriminate].
  assert (One : forall x, In (k, o) ((i, x) :: acc) -> In (k, o) acc \/ from i k) by (intros x [J|J]; [injection J as <- <-; right; left; apply be_self|auto]).
  assert (In' : forall c e, In c (d_children d) -> data c = Some e -> ~ part_of (d_tag d) (d_tag e) -> from c k -> from i k) by (intros; eapply from_in; eassumption).
  destruct (d_tag d) eqn:T; try discriminate; try (un H x E; injection H as <- <-; eapply One; exact I).
  - un H rs E. destruct (d_type d) as [t|] eqn:Ty; [|discriminate]. un H u E2. injection H as <- <-. apply in_app_or in I. destruct I as [I|I]; [|auto]. right.
    destruct (process_array_in i (d_name d) (declared_die d) (d_size d) (d_align d) (d_stride d) t rs) as [x [rest [X [_ [_ [_ [M _]]]]]]]. rewrite X in I. destruct I as [I|I]; [injection I as <- _; left; apply be_self|]. right. exists i.
    split; [apply be_self|]. destruct (subranges_in _ _ E) as [S1 S2]. assert (In k (d_children d)) as J by (rewrite <- S1; apply (in_map fst) in I; rewrite M in I; cbn in I; destruct rs; [destruct I|right; exact I]).
    split; [exists d; auto|]. split; [exists d; auto|]. destruct (S2 _ J) as [x0 [? ?]]. exists x0. auto.
  - un H x E. destruct x as [[fs hs] a1]. injection H as <- <-. destruct I as [I|I]; [injection I as <- _; right; left; apply be_self|].
    destruct (struct_adds _ _ _ _ _ _ _ (fun c a b0 a' _ P => IH c a b0 a' P) E k o I) as [J|[c [e [J [De [N1 [N2 Fr]]]]]]]; [auto|]. right. refine (In' c e J De _ Fr). intros [X|X]; contradiction.
  - un H u E. injection H as <- <-. auto.
  - un H a E. injection H as <- <-. destruct (scope_adds _ _ _ _ _ (fun c a b0 a' _ P => IH c a b0 a' P) E k o I) as [J|[c [e [J [De [N1 Fr]]]]]]; [auto|]. right. exact (In' c e J De (fun X => X) Fr).
  - un H u E. un H x E2. destruct x as [ps a1]. injection H as <- <-. cbn [snd] in I.
    assert (F : forall c a a', In c (d_children d) -> (try y <- process data fuel c a; Ok (snd y)) = Ok a' -> adds c a a') by (intros c a a' _ X; un X y Y; destruct y as [b1 a2]; injection X as <-; eapply IH; exact Y).
    destruct (func_adds _ _ _ _ _ _ F E2 k o I) as [J|[c [e [J [De [N1 [N2 [N3 Fr]]]]]]]]; [auto|]. right. refine (In' c e J De _ Fr). intros [X|[X|X]]; contradiction.
  - un H a E. injection H as <- <-. destruct (scope_adds _ _ _ _ _ (fun c a b0 a' _ P => IH c a b0 a' P) E k o I) as [J|[c [e [J [De [N1 Fr]]]]]]; [auto|]. right. exact (In' c e J De (N1 eq_refl) Fr).
  - injection H as <- <-. auto.
Qed.
Lemma units_adds : forall fuel l acc acc', units data fuel l acc = Ok acc' -> forall k o, In (k, o) acc' -> In (k, o) acc \/
  exists u d c e, In u l /\ data u = Some d /\ In c (d_children d) /\ data c = Some e /\ ~ part_of (d_tag d) (d_tag e) /\ from c k.
Proof.
  intros fuel. induction l as [|u r IH]; intros acc acc' H k o I; cbn in H; [injection H as <-; auto|]. destruct (data u) as [d|] eqn:D; [|discriminate].
  destruct (d_tag d) eqn:T; try discriminate. destruct (d_name d); [|discriminate]. un H a E.
  destruct (IH _ _ H k o I) as [J|[u' [d' [c [e [J X]]]]]]; [|right; exists u', d', c, e; split; [right; exact J|exact X]].
  destruct (scope_adds _ _ _ _ _ (fun c a b0 a' _ P => process_adds fuel c a b0 a' P) E k o J) as [J'|[c [e [J' [De [N1 Fr]]]]]]; [auto|]. right. exists u, d, c, e.
  split; [left; reflexivity|]. split; [exact D|]. split; [exact J'|]. split; [exact De|]. split; [|exact Fr]. rewrite T. exact (N1 eq_refl).
Qed.
Lemma below_declared : forall c k, below c k -> declared_in data c -> declared_in data k.
Proof. intros c k B. induction B as [i|i c k d e D I De N B IH]; intros H; [exact H|]. apply IH. eapply di_more; eassumption. Qed.
Lemma build_from : forall fuel L, build data fuel = Ok L -> forall k o, In (k, o) L -> declared_in data k \/ exists a, declared_in data a /\ kind_in data (eq DArray) a /\ child data a k /\ kind_in data (eq DSubrange) k.
Proof.
  intros fuel L H k o I. unfold build in H. destruct (data 0) as [d|] eqn:D; [|discriminate]. destruct (units_adds _ _ _ _ H k o I) as [[]|[u [du [c [e [U [Du [J [De [N [B|[a [B X]]]]]]]]]]]]].
  - left. eapply below_declared; [exact B|]. exact (di_unit data u c du e (ex_intro _ d (conj D U)) Du J De N).
  - right. exists a. split; [|exact X]. eapply below_declared; [exact B|]. exact (di_unit data u c du e (ex_intro _ d (conj D U)) Du J De N).
Qed.
End B.
