(** Links of the objects; the entries at run time. *)
From Coq Require Import ZArith String List Bool Arith Lia.
From Verif Require Import Base MetadbModel MetadbSpec MetadbProof6 BuildModel.
From Verif Require Import BuildSpec BuildProof1.
Import ListNotations.

(** every array stored leads to the elements or to another stored array *)
Lemma array_loop_links : forall rs child t acc top acc', array_loop child t rs acc = Some (top, acc') ->
  forall P : nat -> Prop, P t -> (forall k o, In (k, o) acc' -> P k) -> (forall k o, In (k, o) acc -> exists e s l c v, o_body o = Array (Some e) s l c v /\ P e) ->
  (exists e s l c v, top = Array (Some e) s l c v /\ P e) /\ forall k o, In (k, o) acc' -> exists e s l c v, o_body o = Array (Some e) s l c v /\ P e.
Proof.
  induction rs as [|s r IH]; intros child t acc top acc' H P Pt Pk Pa; [discriminate|]. cbn [array_loop] in H. destruct r as [|s' r'].
  - injection H as <- <-. split; [eexists _, _, _, _, _; split; [reflexivity|exact Pt]|exact Pa].
  - pose proof (array_loop_in _ _ _ _ _ _ H) as [_ [new [E _]]]. eapply IH; [exact H| |exact Pk|].
    + eapply Pk. rewrite E. apply in_or_app. right. left. reflexivity.
    + intros k o [I|I]; [injection I as _ <-; eexists _, _, _, _, _; split; [reflexivity|exact Pt]|exact (Pa k o I)].
Qed.
Lemma process_array_links : forall i name decl size align stride t rs k o, In (k, o) (process_array i name decl size align stride t rs) ->
  exists e s l c v, o_body o = Array (Some e) s l c v /\ (e = t \/ exists x, In (e, x) (process_array i name decl size align stride t rs)).
Proof.
  intros i name decl size align stride t rs k o I. unfold process_array in *. destruct (array_loop 0 t (List.rev rs) []) as [[top acc]|] eqn:E.
  - pose proof (array_loop_in _ _ _ _ _ _ E) as [[e0 [l0 [c0 [v0 Top]]]] _]. subst top.
    destruct (array_loop_links _ _ _ _ _ _ E (fun e => e = t \/ exists x, In (e, x) acc)) as [T A]; [left; reflexivity|intros k' o' J; right; exists o'; exact J|intros k' o' []|].
    assert (W : forall e, (e = t \/ exists x, In (e, x) acc) -> e = t \/ exists x, In (e, x) ((i, {| o_name := name; o_decl := decl; o_size := size; o_align := align; o_body := Array (Some e0) stride l0 c0 v0 |}) :: acc)) by (intros e [->|[x X]]; [left; reflexivity|right; exists x; right; exact X]).
    destruct I as [I|I].
    + injection I as _ <-. destruct T as [e [s [l [c [v [T P]]]]]]. injection T as <- _ _ _ _. eexists _, _, _, _, _. split; [reflexivity|]. apply W. exact P.
    + destruct (A _ _ I) as [e [s [l [c [v [B P]]]]]]. exists e, s, l, c, v. split; [exact B|]. apply W. exact P.
  - destruct I as [I|[]]. injection I as _ <-. eexists _, _, _, _, _. split; [reflexivity|]. left. reflexivity.
Qed.

Section B.
Variable data : nat -> option die.
Lemma link_of_in : forall d t, link_of data d = Ok t -> t = d_type d /\ forall j, t = Some j -> kind_in data type_tag j.
Proof.
  intros d t H. unfold link_of in H. destruct (d_type d) as [j|]; [|injection H as <-; split; [reflexivity|discriminate]]. un H u E. injection H as <-. split; [reflexivity|]. intros k K. injection K as <-.
  unfold type_entry in E. destruct (data j) as [x|] eqn:D; [|discriminate]. destruct (is_type_tag (d_tag x)) eqn:T; [|discriminate]. exists x. split; [exact D|]. destruct (d_tag x); try discriminate; exact I.
Qed.
Definition is_param (c : nat) : bool := match data c with Some x => match d_tag x with DParameter | DUnspecifiedParameters => true | _ => false end | None => false end.
Definition is_member (c : nat) : bool := match data c with Some x => match d_tag x with DMember => true | _ => false end | None => false end.
Lemma func_params_in : forall f l dots acc ps acc', func_params data f dots l acc = Ok (ps, acc') ->
  Forall2 (fun c p => exists x, data c = Some x /\ a_type p = d_type x /\ (forall j, a_type p = Some j -> kind_in data type_tag j) /\
    (d_tag x = DUnspecifiedParameters /\ a_unspec p = Some true \/ d_tag x = DParameter /\ a_unspec p = None)) (filter is_param l) ps.
Proof.
  intros f. induction l as [|c r IH]; intros dots acc ps acc' H; cbn in H; [injection H as <- <-; constructor|]. cbn [filter]. unfold is_param at 1. destruct (data c) as [d|] eqn:D; [|discriminate].
  destruct (d_tag d) eqn:T; try (un H a1 E; eapply IH; exact H).
  - destruct dots; [discriminate|]. un H t E. un H x E2. destruct x as [ps' ac]. injection H as <- <-. destruct (link_of_in _ _ E) as [-> K]. constructor; [|eapply IH; exact E2]. exists d. cbn. auto 6.
  - destruct dots; [discriminate|]. un H t E. un H x E2. destruct x as [ps' ac]. injection H as <- <-. destruct (link_of_in _ _ E) as [-> K]. constructor; [|eapply IH; exact E2]. exists d. cbn. auto 6.
  - destruct dots; [discriminate|]. eapply IH. exact H.
Qed.
Lemma member_in : forall g d m, member data g d = Ok m -> f_name m = d_name d /\ f_type m = d_type d /\ (forall j, f_type m = Some j -> kind_in data type_tag j) /\ f_type m <> None /\
  f_byte m = (match d_location d with Some v => v | None => 0%Z end) /\ f_databit m = d_databit d /\ f_bit m = d_bitoffset d /\ f_bits m = d_bits d.
Proof.
  intros g d m H. unfold member in H. destruct (d_type d) as [j|] eqn:Ty; [|discriminate]. un H u E. destruct (_ && _); [discriminate|]. destruct (_ && _); [discriminate|]. injection H as <-. cbn.
  split; [reflexivity|]. split; [reflexivity|]. split; [|repeat split; discriminate]. intros k K. injection K as <-. unfold type_entry in E. destruct (data j) as [x|] eqn:D; [|discriminate].
  destruct (is_type_tag (d_tag x)) eqn:T; [|discriminate]. exists x. split; [exact D|]. destruct (d_tag x); try discriminate; exact I.
Qed.
Lemma struct_parts_in : forall g l fs hs, struct_parts data g l = Ok (fs, hs) ->
  Forall2 (fun c m => exists x, data c = Some x /\ member data g x = Ok m) (filter is_member l) fs /\
  (forall h, In h hs -> exists c e, h = Some c /\ In c l /\ data c = Some e /\ d_tag e <> DMember /\ d_tag e <> DTemplateType).
Proof.
  intros g. induction l as [|c r IH]; intros fs hs H; cbn in H; [injection H as <- <-; split; [constructor|intros h []]|]. cbn [filter]. unfold is_member at 1. destruct (data c) as [d|] eqn:D; [|discriminate].
  assert (W : forall hs', (forall h, In h hs' -> exists c e, h = Some c /\ In c r /\ data c = Some e /\ d_tag e <> DMember /\ d_tag e <> DTemplateType) ->
    forall h, In h hs' -> exists c0 e, h = Some c0 /\ In c0 (c :: r) /\ data c0 = Some e /\ d_tag e <> DMember /\ d_tag e <> DTemplateType).
  { intros hs' K h I. destruct (K h I) as [c0 [e [X1 [X2 X3]]]]. exists c0, e. split; [exact X1|]. split; [right; exact X2|exact X3]. }
  assert (Other : d_tag d <> DMember -> d_tag d <> DTemplateType -> (try x <- struct_parts data g r; Ok (fst x, Some c :: snd x)) = Ok (fs, hs) ->
    Forall2 (fun c0 m => exists x, data c0 = Some x /\ member data g x = Ok m) (filter is_member r) fs /\
    (forall h, In h hs -> exists c0 e, h = Some c0 /\ In c0 (c :: r) /\ data c0 = Some e /\ d_tag e <> DMember /\ d_tag e <> DTemplateType)).
  { intros N1 N2 X. un X x E. destruct x as [fs' hs']. injection X as <- <-. destruct (IH _ _ E) as [F K]. split; [exact F|]. intros h [<-|I]; [|exact (W _ K h I)]. exists c, d. split; [reflexivity|]. split; [left; reflexivity|]. auto. }
  destruct (d_tag d) eqn:T; try (apply Other; [discriminate|discriminate|exact H]).
  - un H m E. un H x E2. destruct x as [fs' hs']. injection H as <- <-. destruct (IH _ _ E2) as [F K]. split; [constructor; [exists d; auto|exact F]|]. exact (W _ K).
  - destruct (IH _ _ H) as [F K]. split; [exact F|]. exact (W _ K).
Qed.
Lemma forall2_right : forall A B (P : A -> B -> Prop) l m y, Forall2 P l m -> In y m -> exists x, In x l /\ P x y.
Proof. intros A B P l m y F. induction F as [|a b l m H F IH]; intros I; [destruct I|]. destruct I as [<-|I]; [exists a; split; [left; reflexivity|exact H]|]. destruct (IH I) as [x [X Y]]. exists x. split; [right; exact X|exact Y]. Qed.

(** nested entries of structures are types *)

Lemma made_declared : tree data -> forall fuel L, build data fuel = Ok L -> forall i o, made L i = Some o -> kind_in data type_tag i -> declared_in data i.
Proof.
  intros Tr fuel L B i o M [d [D T]]. destruct (build_from data _ _ B _ _ (made_in _ _ _ M)) as [H|[a [_ [_ [_ [x [Dx Tx]]]]]]]; [exact H|]. rewrite D in Dx. injection Dx as <-. rewrite <- Tx in T. destruct T.
Qed.
Lemma declared_made : forall fuel L, build data fuel = Ok L -> forall i, declared_in data i -> kind_in data type_tag i -> exists o, made L i = Some o.
Proof. intros fuel L B i D T. destruct (build_ok data _ _ B) as [_ K]. exact (keyed_made data _ _ (K i D T)). Qed.
Lemma type_entry_kind : forall t, type_entry data t = Ok tt -> kind_in data type_tag t.
Proof. intros t E. unfold type_entry in E. destruct (data t) as [x|] eqn:D; [|discriminate]. destruct (is_type_tag (d_tag x)) eqn:T; [|discriminate]. exists x. split; [exact D|]. destruct (d_tag x); try discriminate; exact I. Qed.
Lemma build_links : tree data -> structs_plain data -> (forall i j, refers data i j -> declared_in data j) -> forall fuel L, build data fuel = Ok L ->
  forall i o j, made L i = Some o -> In (Some j) (links o) -> exists x, made L j = Some x.
Proof.
  intros Tr Pl Ref fuel L B i o j M I. destruct (build_ok data _ _ B) as [R K]. assert (Rt : right data i o) by (apply R, made_in, M).
  assert (Go : forall k j', refers data k j' -> kind_in data type_tag j' -> exists x, made L j' = Some x) by (intros k j' Rf Kj; eapply declared_made; eauto).
  destruct Rt as [i d o D P | i d t rs k o D T Ty Te Sr J].
  - assert (Lk : forall t, link_of data d = Ok t -> t = Some j -> exists x, made L j = Some x).
    { intros t E ->. destruct (link_of_in _ _ E) as [E1 E2]. apply (Go i); [exists d; auto|]. apply E2. reflexivity. }
    unfold plain_object in P. destruct (d_tag d) eqn:T; try discriminate.
    + unfold base_type in P. destruct (d_name d); [|discriminate]. destruct (base_name _ _); [|discriminate]. destruct (_ || _); [discriminate|]. injection P as <-. destruct I.
    + un P l E. injection P as <-. destruct I.
    + un P t E. injection P as <-. destruct I as [I|[]]. exact (Lk _ E I).
    + un P t E. injection P as <-. destruct I as [I|[]]. exact (Lk _ E I).
    + injection P as <-. destruct I.
    + un P t E. un P x E2. destruct x as [ps ac]. injection P as <-. cbn in I. apply in_app_or in I. destruct I as [I|[I|[]]]; [|exact (Lk _ E I)].
      apply in_map_iff in I. destruct I as [p [Ep Ip]]. destruct (forall2_right _ _ _ _ _ _ (func_params_in _ _ _ _ _ _ E2) Ip) as [c [Ic [x [Dx [At [Kx _]]]]]]. apply (Go c); [exists x; split; [exact Dx|congruence]|]. apply Kx. exact Ep.
    + destruct (d_name d); [|discriminate]. un P t E. injection P as <-. destruct I as [I|[]]. exact (Lk _ E I).
    + un P t E. injection P as <-. destruct I as [I|[]]. exact (Lk _ E I).
    + un P x E. destruct x as [fs hs]. injection P as <-. cbn in I. destruct (struct_parts_in _ _ _ _ E) as [F Hh]. apply in_app_or in I. destruct I as [I|I].
      * apply in_map_iff in I. destruct I as [m [Em Im]]. destruct (forall2_right _ _ _ _ _ _ F Im) as [c [Ic [x [Dx Mx]]]]. destruct (member_in _ _ _ Mx) as [_ [Ft [Kt _]]]. apply (Go c); [exists x; split; [exact Dx|congruence]|]. apply Kt. exact Em.
      * destruct (Hh _ I) as [c [e [Ec [Ic [De [N1 N2]]]]]]. injection Ec as <-. destruct (Pl i d _ j e D T Ic De) as [X|[X|X]]; [contradiction|contradiction|].
        eapply declared_made; [exact B| |exists e; auto]. refine (di_more data i j d e _ D Ic De _); [eapply made_declared; try eassumption; exists d; split; [exact D|rewrite T; exact Logic.I]|]. rewrite T. cbn. intros [Y|Y]; contradiction.
  - destruct (process_array_links _ _ _ _ _ _ _ _ _ _ J) as [e [s [l [c [v [Bo X]]]]]]. unfold links in I. rewrite Bo in I. destruct I as [I|[]]. injection I as <-.
    destruct X as [->|[x X]]; [apply (Go i); [exists d; auto|apply type_entry_kind; exact Te]|]. exists x. apply (made_right data Tr _ _ B).
    assert (Di : declared_in data i).
    { destruct (process_array_in i (d_name d) (declared_die d) (d_size d) (d_align d) (d_stride d) t rs) as [y [rest [Y [_ [_ [_ [Ma _]]]]]]].
      destruct (build_from data _ _ B _ _ (made_in _ _ _ M)) as [H|[a [Ha [Ka [Ca [x0 [Dx Tx]]]]]]].
      - rewrite Y in J. destruct J as [J|J]; [injection J as -> _; exact H|]. exfalso. destruct (subranges_in _ _ _ Sr) as [S1 S2].
        assert (Jk : In k (d_children d)) by (rewrite <- S1; apply (in_map fst) in J; rewrite Ma in J; cbn in J; destruct rs; [destruct J|right; exact J]).
        destruct (S2 _ Jk) as [dk [Dk Tk]]. assert (Pk : forall u du, data u = Some du -> In k (d_children du) -> u = i) by (intros u du Du Iu; apply (tr_once _ Tr u i k); [exists du; auto|exists d; auto]).
        destruct H as [u k du ek U Du Iu De N | u k du ek Hu Du Iu De N]; pose proof (Pk u du Du Iu) as ->; rewrite D in Du; injection Du as <-; apply N; rewrite T; exact Logic.I.
      - rewrite Y in J. destruct J as [J|J].
        + injection J as -> _. rewrite D in Dx. injection Dx as <-. congruence.
        + destruct (subranges_in _ _ _ Sr) as [S1 S2]. assert (Jk : In k (d_children d)) by (rewrite <- S1; apply (in_map fst) in J; rewrite Ma in J; cbn in J; destruct rs; [destruct J|right; exact J]).
          rewrite <- (tr_once _ Tr a i k Ca (ex_intro _ d (conj D Jk))). exact Ha. }
    assert (Ki : kind_in data type_tag i) by (exists d; split; [exact D|rewrite T; exact Logic.I]). exact (proj2 (K i Di Ki) d t rs D T Ty Sr _ X).
Qed.
Lemma build_kept : tree data -> forall fuel L, build data fuel = Ok L ->
  (forall i, declared_in data i -> kind_in data type_tag i -> made L i <> None) /\
  (forall i, made L i <> None -> declared_in data i /\ kind_in data type_tag i \/ exists a, declared_in data a /\ kind_in data (eq DArray) a /\ child data a i).
Proof.
  intros Tr fuel L B. split.
  - intros i D T. destruct (declared_made _ _ B i D T) as [o ->]. discriminate.
  - intros i M. destruct (made L i) as [o|] eqn:E; [|contradiction]. destruct (build_ok data _ _ B) as [R _]. pose proof (made_in _ _ _ E) as I.
    destruct (right_key data _ _ (R _ _ I)) as [K|[a [Ka [Ca Ks]]]]; [left; split; [eapply made_declared; eassumption|exact K]|].
    destruct (build_from data _ _ B _ _ I) as [H|[a' [Ha [Ka' [Ca' _]]]]]; [|right; exists a'; auto]. exfalso.
    destruct Ka as [d [D T]]. destruct Ca as [d' [D' Ic]]. rewrite D in D'. injection D' as <-.
    assert (Pk : forall u du, data u = Some du -> In i (d_children du) -> u = a) by (intros u du Du Iu; apply (tr_once _ Tr u a i); [exists du; auto|exists d; auto]).
    destruct H as [u i du ek U Du Iu De N | u i du ek Hu Du Iu De N]; pose proof (Pk u du Du Iu) as ->; rewrite D in Du; injection Du as <-; apply N; rewrite <- T; exact Logic.I.
Qed.
End B.
